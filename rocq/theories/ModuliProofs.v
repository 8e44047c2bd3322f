(** Proofs about GenModuli. *)
From Coq Require Import Znumtheory Sorted.
From Verif Require Import Word Arith Ring RingProofs Codec Params Primes PrimesSpec PrimesProofs PrimesTop.

Lemma P_more R n : forall fuel x ps v d, primesP_loop fuel R n x ps = Some v -> primesP_loop (fuel + d) R n x ps = Some v.
Proof. induction fuel as [|fuel IH]; intros x ps v d H; [discriminate|]. cbn [primesP_loop Nat.add] in *. destruct (R <? x); [|exact H]. destruct (_ && _); [exact H|]. apply IH. exact H. Qed.
Lemma gen_more fuel logQ R n v d : GenerateNTTPrimes fuel logQ R n = Some v -> GenerateNTTPrimes (fuel + d) logQ R n = Some v.
Proof.
  unfold GenerateNTTPrimes, GenerateNTTPrimesP, GenerateNTTPrimesQ. destruct (61 <? logQ); [exact (fun H => H)|]. destruct (logQ =? 61); (destruct (shl1 logQ); [|exact (fun H => H)|exact (fun H => H)]); [apply P_more|apply Q_more].
Qed.
Lemma gen_det f1 f2 logQ R n v1 v2 : GenerateNTTPrimes f1 logQ R n = Some v1 -> GenerateNTTPrimes f2 logQ R n = Some v2 -> v1 = v2.
Proof. intros H1 H2. apply (gen_more _ _ _ _ _ f2) in H1. apply (gen_more _ _ _ _ _ f1) in H2. rewrite Nat.add_comm in H2. congruence. Qed.
Lemma gen_chosen s R n : 0 <= s <= 61 -> 0 < R < W ->
  (forall l, (exists fuel, GenerateNTTPrimes fuel s R n = Some (Ret l)) <-> chosen s R n l) /\ ((exists fuel, GenerateNTTPrimes fuel s R n = Some Panic) <-> ~ exists l, chosen s R n l).
Proof.
  intros Hs HR. unfold chosen. destruct (Z.eqb_spec s 61) as [->|NE].
  - destruct (P_iff 61 R n ltac:(lia) HR) as [A B]. split; [exact A|exact B].
  - destruct (Q_iff s R n ltac:(lia) HR) as [A B]. assert (E : forall fuel, GenerateNTTPrimes fuel s R n = GenerateNTTPrimesQ fuel s R n) by (intros fuel; rewrite gen_dispatch, (proj2 (Z.ltb_ge _ _)) by lia; rewrite (proj2 (Z.eqb_neq _ _)) by lia; reflexivity). split; [intros l; rewrite <- A|rewrite <- B]; split; intros (f & H); exists f; rewrite E in *; exact H.
Qed.
Lemma gen_total s R n : 0 <= s <= 61 -> 0 < R < W -> exists fuel, GenerateNTTPrimes fuel s R n <> None /\ GenerateNTTPrimes fuel s R n <> Some Fail.
Proof.
  intros Hs HR. rename n into m. assert (T : exists fuel, GenerateNTTPrimes fuel s R m <> None).
  { destruct (Z.eq_dec s 61) as [->|NE].
    - exists (Z.to_nat (2 ^ 61 + 2)). rewrite gen_dispatch. change (61 <? 61) with false. change (61 =? 61) with true. cbv iota. unfold GenerateNTTPrimesP. destruct (shl1_ok 61 ltac:(lia)) as (-> & B & B1). unfold wadd, w64. rewrite (Z.mod_small R) by lia. rewrite (Z.mod_small (2 ^ 61 + 1)) by lia. apply P_ends; [exact HR|lia|]. rewrite Z2Nat.id by lia. nia.
    - destruct (Q_terminates s R m ltac:(lia) HR) as (fuel & H). exists fuel. rewrite gen_dispatch, (proj2 (Z.ltb_ge _ _)) by lia. rewrite (proj2 (Z.eqb_neq _ _) NE). exact H. }
  destruct T as (fuel & T). exists fuel. split; [exact T|]. intros F. destruct (Z.eq_dec s 61) as [->|NE].
  - rewrite gen_dispatch in F. change (61 <? 61) with false in F. change (61 =? 61) with true in F. cbv iota in F. unfold GenerateNTTPrimesP in F. destruct (shl1_ok 61 ltac:(lia)) as (E & B & B1). rewrite E in F. unfold wadd, w64 in F. rewrite (Z.mod_small R) in F by lia. rewrite (Z.mod_small (2 ^ 61 + 1)) in F by lia.
    pose proof (P_loop (2 ^ 61 + 1) R m HR ltac:(lia) fuel 0 ltac:(lia) ltac:(cbn; lia)) as Q. cbn [lowers filter] in Q. replace (2 ^ 61 + 1 - Z.of_nat 0 * R) with (2 ^ 61 + 1) in Q by lia. rewrite F in Q. exact Q.
  - rewrite gen_dispatch, (proj2 (Z.ltb_ge _ _)) in F by lia. rewrite (proj2 (Z.eqb_neq _ _) NE) in F. pose proof (Q_sound s R m fuel ltac:(lia) HR) as Q. rewrite F in Q. exact Q.
Qed.
Lemma chosen_unique s R n l l' : chosen s R n l -> chosen s R n l' -> l = l'.
Proof. unfold chosen. destruct (s =? 61); apply first_unique; [exact above_asym|apply nearer_asym]. Qed.
Lemma chosen_length s R n l : chosen s R n l -> Z.of_nat (length l) = n.
Proof. unfold chosen. destruct (s =? 61); intros (_ & H & _); exact H. Qed.

(** Maps. *)
Lemma get_cons k l m s : map_get ((k, l) :: m) s = if k =? s then l else map_get m s.
Proof. unfold map_get. cbn [find fst]. destruct (k =? s); reflexivity. Qed.
Lemma get_put m k v s x rest : map_get m k = x :: rest -> map_get (map_put m k v) s = if k =? s then v else map_get m s.
Proof.
  induction m as [|[a l] m IH]; intros H; [discriminate|]. change (map_put ((a, l) :: m) k v) with ((if a =? k then (k, v) else (a, l)) :: map_put m k v). rewrite get_cons in H. destruct (Z.eqb_spec a k) as [->|NE].
  - rewrite !get_cons. destruct (Z.eqb_spec k s) as [->|N2]; [reflexivity|]. clear - N2. induction m as [|[b w] m IH]; [reflexivity|]. change (map_put ((b, w) :: m) k v) with ((if b =? k then (k, v) else (b, w)) :: map_put m k v). destruct (Z.eqb_spec b k) as [->|N3]; rewrite !get_cons, IH; [rewrite (proj2 (Z.eqb_neq k s) N2)|]; reflexivity.
  - rewrite !get_cons, (IH H). destruct (Z.eqb_spec a s) as [->|N2]; [rewrite (proj2 (Z.eqb_neq k s)) by congruence|]; reflexivity.
Qed.
Lemma count_cons k l s : count s (k :: l) = (if s =? k then 1 else 0) + count s l.
Proof. unfold count. cbn [filter]. destruct (s =? k); cbn [length]; lia. Qed.
Lemma entries_cons k sizes x l s : entries s (k :: sizes) (x :: l) = (if k =? s then [x] else []) ++ entries s sizes l.
Proof. unfold entries. cbn [combine filter fst]. destruct (k =? s); reflexivity. Qed.
Lemma assign_ok : forall sizes m, (forall s, count s sizes <= Z.of_nat (length (map_get m s))) -> exists l m', assign sizes m = Ret (l, m') /\ length l = length sizes /\ forall s, map_get m s = entries s sizes l ++ map_get m' s.
Proof.
  induction sizes as [|k sizes IH]; intros m H; [exists [], m; repeat split; reflexivity|]. cbn [assign]. pose proof (H k) as Hk. rewrite count_cons, Z.eqb_refl in Hk. destruct (map_get m k) as [|x rest] eqn:EK; [try rewrite EK in Hk; unfold count in Hk; cbn [length] in Hk; lia|].
  destruct (IH (map_put m k rest)) as (l & m' & -> & L & E).
  - intros s. rewrite (get_put m k rest s x rest EK). specialize (H s). rewrite count_cons in H. destruct (Z.eqb_spec k s) as [->|NE]; [|destruct (s =? k); lia]. rewrite EK, Z.eqb_refl in H. cbn [length] in H. lia.
  - exists (x :: l), m'. cbn [bind]. split; [reflexivity|]. split; [cbn [length]; lia|]. intros s. rewrite entries_cons. specialize (E s). rewrite (get_put m k rest s x rest EK) in E. destruct (Z.eqb_spec k s) as [->|NE]; cbn [app]; [rewrite EK; f_equal; exact E|exact E].
Qed.
Lemma count_entries s : forall sizes l, length l = length sizes -> Z.of_nat (length (entries s sizes l)) = count s sizes.
Proof. induction sizes as [|k sizes IH]; intros [|x l] H; try discriminate; [reflexivity|]. rewrite entries_cons, app_length, count_cons. specialize (IH l ltac:(cbn in H; lia)). rewrite (Z.eqb_sym s k). destruct (k =? s); cbn [length]; lia. Qed.
Lemma entries_app s l1 l2 : forall s1 s2, length s1 = length l1 -> entries s (s1 ++ s2) (l1 ++ l2) = entries s s1 l1 ++ entries s s2 l2.
Proof. induction l1 as [|x l1 IH]; intros [|k s1] s2 H; try discriminate; [reflexivity|]. cbn [app]. rewrite !entries_cons, IH by (cbn in H; lia). rewrite app_assoc. reflexivity. Qed.
Lemma entries_inj : forall sizes l l', length l = length sizes -> length l' = length sizes -> (forall s, In s sizes -> entries s sizes l = entries s sizes l') -> l = l'.
Proof.
  induction sizes as [|k sizes IH]; intros [|x l] [|y l'] H1 H2 E; try discriminate; [reflexivity|]. assert (EK := E k (or_introl eq_refl)). rewrite !entries_cons, Z.eqb_refl in EK. cbn [app] in EK. f_equal; [congruence|]. apply IH; [cbn in *; lia|cbn in *; lia|].
  intros s Hs. specialize (E s (or_intror Hs)). rewrite !entries_cons in E. destruct (k =? s); cbn [app] in E; congruence.
Qed.
Lemma gen_sizes_ok fuel R all : forall keys, (forall s, In s keys -> GenerateNTTPrimes fuel s R (count s all) <> None) ->
  match gen_sizes fuel R all keys with
  | Some (Ret m) => (forall s, In s keys -> GenerateNTTPrimes fuel s R (count s all) = Some (Ret (map_get m s))) /\ forall s, ~ In s keys -> map_get m s = []
  | Some Panic => exists s, In s keys /\ GenerateNTTPrimes fuel s R (count s all) = Some Panic
  | Some Fail => exists s, In s keys /\ GenerateNTTPrimes fuel s R (count s all) = Some Fail
  | None => False
  end.
Proof.
  induction keys as [|k keys IH]; intros H; [split; [intros s []|reflexivity]|]. cbn [gen_sizes]. pose proof (H k (or_introl eq_refl)) as Hk. destruct (GenerateNTTPrimes fuel k R (count k all)) as [[l| |]|] eqn:E; [| | |contradiction Hk; reflexivity].
  - specialize (IH (fun s Hs => H s (or_intror Hs))). destruct (gen_sizes fuel R all keys) as [[m| |]|]; [| | |exact IH].
    + destruct IH as [A B]. split.
      * intros s Hs. rewrite get_cons. destruct (Z.eqb_spec k s) as [<-|NE]; [exact E|]. destruct Hs as [Hs|Hs]; [contradiction|]. apply A. exact Hs.
      * intros s Hs. rewrite get_cons. destruct (Z.eqb_spec k s) as [<-|NE]; [exfalso; apply Hs; left; reflexivity|]. apply B. intros X. apply Hs. right. exact X.
    + destruct IH as (s & A & B). exists s. split; [right; exact A|exact B].
    + destruct IH as (s & A & B). exists s. split; [right; exact A|exact B].
  - exists k. split; [left; reflexivity|exact E].
  - exists k. split; [left; reflexivity|exact E].
Qed.
Lemma gen_sizes_none fuel R all : forall keys, gen_sizes fuel R all keys <> None -> forall f2, (forall s, In s keys -> GenerateNTTPrimes f2 s R (count s all) <> None) -> gen_sizes f2 R all keys = gen_sizes fuel R all keys.
Proof.
  induction keys as [|k keys IH]; intros H f2 H2; [reflexivity|]. cbn [gen_sizes] in *. pose proof (H2 k (or_introl eq_refl)) as Hk. destruct (GenerateNTTPrimes fuel k R (count k all)) as [v|] eqn:E; [|contradiction H; reflexivity]. destruct (GenerateNTTPrimes f2 k R (count k all)) as [v2|] eqn:E2; [|contradiction Hk; reflexivity]. rewrite (gen_det _ _ _ _ _ _ _ E2 E) in *. destruct v as [l| |]; try reflexivity.
  rewrite IH; [reflexivity|intros X; rewrite X in H; apply H; reflexivity|intros s Hs; apply H2; right; exact Hs].
Qed.
Lemma valid_spec logn logQ logP : checkSizeParams logn (Z.of_nat (length logQ)) (Z.of_nat (length logP)) = true /\ checkModuliLogSize logQ logP = true <-> valid_sizes logn logQ logP.
Proof.
  unfold checkSizeParams, checkModuliLogSize, valid_sizes, MaxLogN, MinLogN, MaxModuliCount, MaxModuliSize. rewrite !andb_true_iff, !Z.leb_le, !forallb_forall, !Forall_forall. assert (E : forall b x, negb ((x <=? 0) || (b <? x)) = true <-> 1 <= x <= b) by (intros b x; rewrite negb_true_iff, orb_false_iff, Z.leb_gt, Z.ltb_ge; lia).
  split.
  - intros ((((A & B) & C) & D) & F & G). split; [lia|]. split; [lia|]. split; [lia|]. split; intros x Hx; apply E; auto.
  - intros (A & B & C & D & F). split; [lia|]. split; intros x Hx; apply E; auto.
Qed.
Lemma count_in s l : In s l -> 1 <= count s l.
Proof. intros H. unfold count. assert (I : In s (filter (Z.eqb s) l)) by (apply filter_In; split; [exact H|apply Z.eqb_refl]). destruct (filter (Z.eqb s) l); [destruct I|]. cbn [length]. lia. Qed.
Lemma count_out s l : ~ In s l -> count s l = 0.
Proof. intros H. unfold count. destruct (filter (Z.eqb s) l) as [|x l0] eqn:E; [reflexivity|]. assert (I : In x (filter (Z.eqb s) l)) by (rewrite E; left; reflexivity). apply filter_In in I. destruct I as [I1 I2]. apply Z.eqb_eq in I2. subst. contradiction. Qed.
Lemma count_app s l1 l2 : count s (l1 ++ l2) = count s l1 + count s l2.
Proof. unfold count. rewrite filter_app, app_length. lia. Qed.
Lemma fuel_all (keys all : list Z) R : (forall s, In s keys -> 0 <= s <= 61) -> 0 < R < W -> exists fuel, forall s, In s keys -> GenerateNTTPrimes fuel s R (count s all) <> None /\ GenerateNTTPrimes fuel s R (count s all) <> Some Fail.
Proof.
  intros H HR. induction keys as [|k keys IH]; [exists 0%nat; intros s []|]. destruct (IH (fun s Hs => H s (or_intror Hs))) as (f1 & F1). destruct (gen_total k R (count k all) (H k (or_introl eq_refl)) HR) as (f2 & F2 & F3). exists (f1 + f2)%nat. intros s [<-|Hs].
  - destruct (GenerateNTTPrimes f2 k R (count k all)) as [v|] eqn:E; [|contradiction F2; reflexivity]. rewrite Nat.add_comm. rewrite (gen_more _ _ _ _ _ f1 E). split; [discriminate|congruence].
  - destruct (F1 s Hs) as [G1 G2]. destruct (GenerateNTTPrimes f1 s R (count s all)) as [v|] eqn:E; [|contradiction G1; reflexivity]. rewrite (gen_more _ _ _ _ _ f2 E). split; [discriminate|congruence].
Qed.
Section Fixed.
  Context (logn : Z) (logQ logP : list Z) (V : valid_sizes logn logQ logP).
  Let R := 2 ^ (logn + 1).
  Let sizes := logQ ++ logP.
  Lemma root_range : 0 < R < W.
  Proof. destruct V as (A & _). unfold R. split; [apply Z.pow_pos_nonneg; lia|]. apply Z.le_lt_trans with (2 ^ 61); [apply Z.pow_le_mono_r; lia|reflexivity]. Qed.
  Lemma sizes_range s : In s sizes -> 0 <= s <= 61.
  Proof. destruct V as (_ & _ & _ & A & B). rewrite Forall_forall in *. intros H. apply in_app_or in H. destruct H as [H|H]; [specialize (A s H)|specialize (B s H)]; lia. Qed.
  Lemma run_unfold fuel : GenModuli fuel logn logQ logP = match gen_sizes fuel R sizes (nodup Z.eq_dec sizes) with
    | Some (Ret m) => Some (let* '(q, m) := assign logQ m in let* '(p, m) := assign logP m in Ret (q, p)) | Some Fail => Some Fail | Some Panic => Some Panic | None => None end.
  Proof. apply valid_spec in V. destruct V as [A B]. unfold GenModuli. rewrite A, B. cbn [negb]. unfold R. rewrite Z.pow_add_r by (apply valid_spec in V as (C & _); lia). rewrite (Z.mul_comm (2 ^ logn)). reflexivity. Qed.
  Definition good (q p : list Z) : Prop := length q = length logQ /\ length p = length logP /\ forall s, In s sizes -> chosen s R (count s sizes) (entries s sizes (q ++ p)).
  Lemma good_unique q p q' p' : good q p -> good q' p' -> q = q' /\ p = p'.
  Proof.
    intros (A & B & C) (A' & B' & C'). assert (E : q ++ p = q' ++ p'). { apply (entries_inj sizes); unfold sizes; [rewrite !app_length; lia|rewrite !app_length; lia|]. intros s Hs. apply (chosen_unique s R (count s sizes)); [apply C|apply C']; exact Hs. }
    assert (E1 : firstn (length logQ) (q ++ p) = firstn (length logQ) (q' ++ p')) by (rewrite E; reflexivity). rewrite !firstn_app_full in E1 by assumption. split; [exact E1|]. subst q'. apply app_inv_head in E. exact E.
  Qed.
  Lemma moduli_sound fuel : match GenModuli fuel logn logQ logP with None => True | Some (Ret (q, p)) => good q p | Some Fail => False | Some Panic => exists s, In s sizes /\ ~ exists l, chosen s R (count s sizes) l end.
  Proof.
    rewrite run_unfold. destruct (gen_sizes fuel R sizes (nodup Z.eq_dec sizes)) as [v|] eqn:E; [|exact I].
    assert (NN : forall keys, (forall s, In s keys -> In s sizes) -> gen_sizes fuel R sizes keys = Some v ->
      match v with Ret m => (forall s, In s keys -> chosen s R (count s sizes) (map_get m s)) /\ forall s, ~ In s keys -> map_get m s = [] | Panic => exists s, In s sizes /\ ~ exists l, chosen s R (count s sizes) l | Fail => False end).
    { clear E. revert v. intros v keys. revert v. induction keys as [|k keys IH]; intros v HK E; [cbn in E; apply (f_equal (fun o => match o with Some x => x | None => Panic end)) in E; subst v; split; [intros s []|reflexivity]|].
      cbn [gen_sizes] in E. pose proof (HK k (or_introl eq_refl)) as Hk. destruct (gen_chosen k R (count k sizes) (sizes_range k Hk) root_range) as [GA GB]. destruct (GenerateNTTPrimes fuel k R (count k sizes)) as [[l| |]|] eqn:EG; [| | |discriminate].
      - assert (CK : chosen k R (count k sizes) l) by (apply GA; exists fuel; exact EG). destruct (gen_sizes fuel R sizes keys) as [[m| |]|] eqn:EK.
        + specialize (IH (Ret m) (fun s Hs => HK s (or_intror Hs)) eq_refl). apply (f_equal (fun o => match o with Some x => x | None => Panic end)) in E. subst v. destruct IH as [A B]. split.
          * intros s Hs. rewrite get_cons. destruct (Z.eqb_spec k s) as [<-|NE]; [exact CK|]. destruct Hs as [Hs|Hs]; [contradiction|]. apply A. exact Hs.
          * intros s Hs. rewrite get_cons. destruct (Z.eqb_spec k s) as [<-|NE]; [exfalso; apply Hs; left; reflexivity|]. apply B. intros X. apply Hs. right. exact X.
        + destruct (IH Fail (fun s Hs => HK s (or_intror Hs)) eq_refl).
        + specialize (IH Panic (fun s Hs => HK s (or_intror Hs)) eq_refl). apply (f_equal (fun o => match o with Some x => x | None => Fail end)) in E. subst v. exact IH.
        + discriminate.
      - exfalso. destruct (gen_total k R (count k sizes) (sizes_range k Hk) root_range) as (f2 & T1 & T2). destruct (GenerateNTTPrimes f2 k R (count k sizes)) as [w|] eqn:E2; [|contradiction T1; reflexivity]. rewrite (gen_det _ _ _ _ _ _ _ E2 EG) in T2. contradiction T2; reflexivity.
      - apply (f_equal (fun o => match o with Some x => x | None => Fail end)) in E. subst v. exists k. split; [exact Hk|]. apply GB. exists fuel. exact EG. }
    specialize (NN (nodup Z.eq_dec sizes) (fun s Hs => proj1 (nodup_In _ _ _) Hs) E). destruct v as [m| |]; [|exact NN|exact NN]. destruct NN as [A B].
    assert (CH : forall s, In s sizes -> chosen s R (count s sizes) (map_get m s)) by (intros s Hs; apply A, nodup_In; exact Hs). assert (CN : forall s, ~ In s sizes -> map_get m s = []) by (intros s Hs; apply B; intros X; apply Hs; revert X; apply nodup_In).
    assert (LN : forall s, Z.of_nat (length (map_get m s)) = count s sizes). { intros s. destruct (in_dec Z.eq_dec s sizes) as [Hs|Hs]; [apply (chosen_length s R); apply CH; exact Hs|rewrite (CN s Hs), (count_out s sizes Hs); reflexivity]. }
    assert (CS : forall s, count s sizes = count s logQ + count s logP) by (intros s; apply count_app).
    destruct (assign_ok logQ m) as (q & m1 & -> & Lq & Eq). { intros s. rewrite LN, CS. pose proof (Zle_0_nat (length (filter (Z.eqb s) logP))). unfold count at 3. lia. } cbn [bind].
    assert (L1 : forall s, Z.of_nat (length (map_get m1 s)) = count s logP). { intros s. pose proof (LN s) as X. rewrite (Eq s), app_length, Nat2Z.inj_add, (count_entries s logQ q Lq), CS in X. lia. }
    destruct (assign_ok logP m1) as (p & m2 & -> & Lp & Ep). { intros s. rewrite L1. lia. } cbn [bind]. split; [exact Lq|]. split; [exact Lp|]. intros s Hs.
    assert (Z2 : map_get m2 s = []). { pose proof (L1 s) as X. rewrite (Ep s), app_length, Nat2Z.inj_add, (count_entries s logP p Lp) in X. destruct (map_get m2 s); [reflexivity|]. cbn [length] in X. lia. }
    unfold sizes. rewrite entries_app by (symmetry; exact Lq). fold sizes. specialize (CH s Hs). rewrite (Eq s), (Ep s), Z2, app_nil_r in CH. exact CH.
  Qed.
  Lemma moduli_total : exists fuel, GenModuli fuel logn logQ logP <> None.
  Proof.
    destruct (fuel_all (nodup Z.eq_dec sizes) sizes R) as (fuel & F); [intros s Hs; apply sizes_range, (nodup_In Z.eq_dec); exact Hs|exact root_range|]. exists fuel. rewrite run_unfold. pose proof (gen_sizes_ok fuel R sizes (nodup Z.eq_dec sizes) (fun s Hs => proj1 (F s Hs))) as G. destruct (gen_sizes fuel R sizes (nodup Z.eq_dec sizes)) as [[m| |]|]; [discriminate|discriminate|discriminate|destruct G].
  Qed.
End Fixed.
Lemma moduli_iff logn logQ logP q p : (exists fuel, GenModuli fuel logn logQ logP = Some (Ret (q, p))) <->
  valid_sizes logn logQ logP /\ length q = length logQ /\ length p = length logP /\
  forall s, In s (logQ ++ logP) -> chosen s (2 ^ (logn + 1)) (count s (logQ ++ logP)) (entries s (logQ ++ logP) (q ++ p)).
Proof.
  assert (DV : valid_sizes logn logQ logP \/ forall fuel, GenModuli fuel logn logQ logP = Some Fail). { unfold GenModuli. destruct (checkSizeParams logn (Z.of_nat (length logQ)) (Z.of_nat (length logP))) eqn:A; [|right; reflexivity]. destruct (checkModuliLogSize logQ logP) eqn:B; [|right; reflexivity]. left. apply valid_spec. split; assumption. }
  split.
  - intros (fuel & E). destruct DV as [V|F]; [|rewrite F in E; discriminate]. split; [exact V|]. pose proof (moduli_sound logn logQ logP V fuel) as S. rewrite E in S. exact S.
  - intros (V & G). destruct (moduli_total logn logQ logP V) as (fuel & T). exists fuel. pose proof (moduli_sound logn logQ logP V fuel) as S. destruct (GenModuli fuel logn logQ logP) as [[[q' p']| |]|]; [|contradiction| |contradiction T; reflexivity].
    + destruct (good_unique logn logQ logP q p q' p' G S) as [-> ->]. reflexivity.
    + destruct S as (s & Hs & NS). exfalso. apply NS. destruct G as (_ & _ & G). exists (entries s (logQ ++ logP) (q ++ p)). apply G. exact Hs.
Qed.
Lemma moduli_error logn logQ logP : (exists fuel, GenModuli fuel logn logQ logP = Some Fail) <-> ~ valid_sizes logn logQ logP.
Proof.
  split.
  - intros (fuel & E) V. pose proof (moduli_sound logn logQ logP V fuel) as S. rewrite E in S. exact S.
  - intros NV. exists 0%nat. unfold GenModuli. destruct (checkSizeParams logn (Z.of_nat (length logQ)) (Z.of_nat (length logP))) eqn:A; [|reflexivity]. destruct (checkModuliLogSize logQ logP) eqn:B; [|reflexivity]. exfalso. apply NV, valid_spec. split; assumption.
Qed.
(** What a user gets. *)
Lemma moduli_friendly logn logQ logP q p : (exists fuel, GenModuli fuel logn logQ logP = Some (Ret (q, p))) -> (forall s, In s (logQ ++ logP) -> logn + 1 <= s) -> forall i, (i < length (logQ ++ logP))%nat ->
  prime (nth i (q ++ p) 0) /\ nth i (q ++ p) 0 mod 2 ^ (logn + 1) = 1 /\ nth i (q ++ p) 0 < W /\ forall j, (j < i)%nat -> nth j (logQ ++ logP) 0 = nth i (logQ ++ logP) 0 -> nth j (q ++ p) 0 <> nth i (q ++ p) 0.
Proof.
  intros H HS i Hi. apply moduli_iff in H. destruct H as (V & Lq & Lp & C). set (sizes := logQ ++ logP) in *. set (l := q ++ p) in *. assert (LL : length l = length sizes) by (unfold l, sizes; rewrite !app_length; lia). clearbody l. set (s := nth i sizes 0). assert (Is : In s sizes) by (apply nth_In; exact Hi).
  assert (Hn : 4 <= logn <= 17) by apply V. pose proof (sizes_range logn logQ logP V s Is) as SR. pose proof (HS s Is) as SL.
  assert (IE : forall (sz m : list Z) k, length m = length sz -> (k < length sz)%nat -> nth k sz 0 = s -> In (nth k m 0) (entries s sz m)).
  { induction sz as [|a sz IH]; intros [|b m] k L Hk E; try (cbn in *; lia). rewrite entries_cons. destruct k as [|k]; cbn [nth] in *; [rewrite E, Z.eqb_refl; left; reflexivity|]. apply in_or_app. right. apply IH; cbn in *; [lia|lia|exact E]. }
  assert (NE : forall (sz m : list Z) j k, length m = length sz -> (k < length sz)%nat -> (j < k)%nat -> nth j sz 0 = s -> nth k sz 0 = s -> NoDup (entries s sz m) -> nth j m 0 <> nth k m 0).
  { clear - IE. induction sz as [|a sz IH]; intros [|b m] j k L Hk Hj E1 E2 ND; try (cbn in *; lia). destruct k as [|k]; [lia|]. cbn [nth] in E2. rewrite entries_cons in ND. destruct j as [|j]; cbn [nth] in *.
    - rewrite E1, Z.eqb_refl in ND. cbn [app] in ND. inversion ND as [|x y N1 N2]; subst. intros X. apply N1. rewrite X. apply IE; cbn in *; [lia|lia|exact E2].
    - apply IH; cbn in *; try lia; try assumption. destruct (a =? s); [cbn in ND; inversion ND; assumption|exact ND]. }
  specialize (C s Is). assert (GF : exists fuel, GenerateNTTPrimes fuel s (2 ^ (logn + 1)) (count s sizes) = Some (Ret (entries s sizes l))) by (apply (gen_chosen s _ _ SR (root_range logn logQ logP V)); exact C).
  destruct (gen_friendly s (logn + 1) (count s sizes) (entries s sizes l) ltac:(lia) ltac:(lia) GF) as (_ & ND & FA). destruct (FA (nth i l 0) (IE sizes l i LL Hi eq_refl)) as (P1 & P2 & P3 & _). split; [exact P1|]. split; [exact P2|]. split; [exact P3|]. intros j Hj Ej. apply (NE sizes); try assumption. reflexivity.
Qed.
