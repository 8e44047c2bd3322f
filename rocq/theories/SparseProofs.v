(** Proofs about the choice of positions. *)
From Coq Require Import Permutation.
From Verif Require Import Word Arith ModRed ModRedProofs Ring RingProofs NTTProofs RingOps RNSSpec Codec CodecSpec CodecProofs CodecTop Sampler SamplerSpec SamplerProofs SamplerTop.

(** ** Drawing below a bound *)
Lemma rand_below_step n s v mask c0 p k fuel : let g := mkPrng (w64 (c0 + Z.of_nat k)) (p + n * k) in let g' := mkPrng (w64 (c0 + Z.of_nat (S k))) (p + n * S k) in
  rand_below n (S fuel) s v mask g = if Z.land (stream_word n s p k) mask <? v then Ret (Z.land (stream_word n s p k) mask, g') else rand_below n fuel s v mask g'.
Proof.
  cbv zeta. cbn [rand_below]. unfold randInt, Clock. cbn [pos clock]. rewrite (Z.land_comm mask). fold (stream_word n s p k).
  assert (E : mkPrng (wadd (w64 (c0 + Z.of_nat k)) 1) (p + n * k + n) = mkPrng (w64 (c0 + Z.of_nat (S k))) (p + n * S k)).
  { f_equal; [|lia]. unfold wadd, w64. rewrite Zplus_mod_idemp_l. f_equal. lia. }
  rewrite E. reflexivity.
Qed.
Definition gen_at (c0 : Z) (p n k : nat) : prng := mkPrng (w64 (c0 + Z.of_nat k)) (p + n * k).
Lemma rand_below_sound n s v mask c0 p fuel : forall k,
  match rand_below n fuel s v mask (gen_at c0 p n k) with Ret (x, g') => exists k', accepted n s p mask v k k' x /\ g' = gen_at c0 p n (S k') | Fail => True | Panic => False end.
Proof.
  induction fuel as [|fuel IH]; intros k; [exact I|]. unfold gen_at. rewrite rand_below_step. destruct (Z.ltb_spec (Z.land (stream_word n s p k) mask) v) as [H|H].
  - exists k. split; [|reflexivity]. split; [lia|]. split; [reflexivity|]. split; [exact H|]. intros t Ht. lia.
  - specialize (IH (S k)). unfold gen_at in IH. destruct (rand_below n fuel s v mask _) as [[x g']| |]; [|exact I|exact IH]. destruct IH as (k' & (A1 & A2 & A3 & A4) & E). exists k'. split; [|exact E].
    split; [lia|]. split; [exact A2|]. split; [exact A3|]. intros t Ht. destruct (Nat.eq_dec t k) as [->|]; [exact H|apply A4; lia].
Qed.
Lemma rand_below_complete n s v mask c0 p k' x : forall d k fuel, (k' = k + d)%nat -> (d < fuel)%nat -> accepted n s p mask v k k' x -> rand_below n fuel s v mask (gen_at c0 p n k) = Ret (x, gen_at c0 p n (S k')).
Proof.
  induction d as [|d IH]; intros k fuel Hd Hf (A1 & A2 & A3 & A4); (destruct fuel as [|fuel]; [lia|]); unfold gen_at; rewrite rand_below_step.
  - assert (k' = k) by lia. clear Hd. subst k'. rewrite <- A2. rewrite (proj2 (Z.ltb_lt _ _) A3). reflexivity.
  - rewrite (proj2 (Z.ltb_ge _ _)) by (apply A4; lia). apply (IH (S k) fuel); [lia|lia|]. split; [lia|]. split; [exact A2|]. split; [exact A3|]. intros t Ht. apply A4. lia.
Qed.
Lemma gen_at_zero g n : u64 (clock g) -> g = gen_at (clock g) (pos g) n 0.
Proof. intros U. unfold gen_at. destruct g as [c p]. cbn [clock pos] in *. f_equal; [|lia]. unfold w64. cbn [Z.of_nat]. rewrite Z.add_0_r. symmetry. apply Z.mod_small. exact U. Qed.
Lemma rand_uniform_iff s v mask g x g' : u64 (clock g) ->
  ((exists fuel, RandUniform fuel s v mask g = Ret (x, g')) <-> exists k, accepted 8 s (pos g) mask v 0 k x /\ g' = mkPrng (w64 (clock g + Z.of_nat (k + 1))) (pos g + 8 * (k + 1))).
Proof.
  intros U. assert (EG : g = gen_at (clock g) (pos g) 8 0) by (apply gen_at_zero; exact U).
  unfold RandUniform. split.
  - intros [fuel E]. rewrite EG in E. pose proof (rand_below_sound 8 s v mask (clock g) (pos g) fuel 0) as R. rewrite E in R. destruct R as (k' & A & ->). exists k'. split; [exact A|]. unfold gen_at. rewrite Nat.add_1_r. reflexivity.
  - intros (k & A & ->). exists (S k). rewrite EG at 1. rewrite (rand_below_complete 8 s v mask (clock g) (pos g) k x k 0 (S k)); [|lia|lia|exact A]. unfold gen_at. rewrite Nat.add_1_r. reflexivity.
Qed.
Lemma rand_uniform_no_panic fuel s v mask g : u64 (clock g) -> RandUniform fuel s v mask g <> Panic.
Proof.
  intros U. assert (EG : g = gen_at (clock g) (pos g) 8 0) by (apply gen_at_zero; exact U).
  intros E. rewrite EG in E. pose proof (rand_below_sound 8 s v mask (clock g) (pos g) fuel 0) as R. unfold RandUniform in E. rewrite E in R. exact R.
Qed.

(** ** The free positions *)
Lemma upd_split {A} (l1 l2 : list A) x y : upd (l1 ++ x :: l2) (length l1) y = l1 ++ y :: l2.
Proof. induction l1 as [|a l1 IH]; [reflexivity|]. cbn [app length upd]. rewrite IH. reflexivity. Qed.
Lemma remove_at_perm free j : (j < length free)%nat -> Permutation free (nth j free 0%nat :: remove_at free j).
Proof.
  intros H. destruct (nth_split free 0%nat H) as (l1 & l2 & E & L). set (x := nth j free 0%nat) in *. clearbody x. unfold remove_at. rewrite E. rewrite <- L. rewrite upd_split.
  destruct (@exists_last _ (x :: l2) ltac:(discriminate)) as (l3 & z & E3).
  assert (EL : last (l1 ++ x :: l2) 0%nat = z) by (rewrite E3, app_assoc; apply last_last). rewrite EL. destruct l3 as [|y l3].
  - cbn in E3. injection E3 as -> ->. rewrite removelast_last. apply Permutation_sym, Permutation_cons_append.
  - cbn in E3. injection E3 as -> ->. assert (ER : removelast (l1 ++ z :: l3 ++ [z]) = l1 ++ z :: l3) by (change (z :: l3 ++ [z]) with ((z :: l3) ++ [z]); rewrite app_assoc; apply removelast_last). rewrite ER.
    apply Permutation_sym. etransitivity; [apply Permutation_middle|]. apply Permutation_app_head. constructor. apply Permutation_cons_append.
Qed.
Lemma remove_at_length free j : (j < length free)%nat -> length (remove_at free j) = (length free - 1)%nat.
Proof. intros H. pose proof (Permutation_length (remove_at_perm free j H)) as L. cbn [length] in L. lia. Qed.
Lemma picks_perm js : forall free, choices (length free) js -> Permutation free (picks free js ++ remaining free js) /\ length (picks free js) = length js.
Proof.
  induction js as [|j js IH]; intros free C; cbn [picks remaining choices length] in *; [split; reflexivity|]. destruct C as [C1 C2]. rewrite <- (remove_at_length free j C1) in C2. destruct (IH _ C2) as [P L]. split; [|congruence].
  etransitivity; [apply (remove_at_perm free j C1)|]. cbn [app]. constructor. exact P.
Qed.
(** Every sequence of distinct positions comes from exactly one sequence of choices. *)
Lemma picks_bijection ps : forall free, NoDup free -> NoDup ps -> incl ps free -> exists js, choices (length free) js /\ picks free js = ps /\ forall js', choices (length free) js' -> picks free js' = ps -> js' = js.
Proof.
  induction ps as [|p ps IH]; intros free NF NP I.
  - exists []. split; [exact Logic.I|]. split; [reflexivity|]. intros [|j js'] _ E; [reflexivity|discriminate].
  - destruct (In_nth free p 0%nat (I p (or_introl eq_refl))) as (j & Hj & Ej). pose proof (remove_at_perm free j Hj) as P. pose proof (Permutation_NoDup P NF) as NP'. rewrite Ej in *. apply NoDup_cons_iff in NP, NP'.
    destruct NP as [NI NP], NP' as [NI' NF']. destruct (IH (remove_at free j) NF' NP) as (js & C & E & U).
    + intros x Hx. assert (Ix : In x (p :: remove_at free j)) by (apply (Permutation_in x P), I; right; exact Hx). destruct Ix as [->|Ix]; [contradiction|exact Ix].
    + rewrite (remove_at_length free j Hj) in C, U. exists (j :: js). cbn [choices picks]. split; [split; assumption|]. split; [congruence|]. intros [|j' js'] C' E'; [discriminate|]. cbn [choices picks] in C', E'. injection E' as E1 E2. destruct C' as [C1 C2].
      assert (j' = j) by (apply (proj1 (NoDup_nth free 0%nat) NF); congruence). subst j'. f_equal. apply U; assumption.
Qed.

(** ** Writing the coefficients *)
Lemma set_coeff_length mont ms : forall pol i v, length (set_coeff mont ms pol i v) = length pol.
Proof. induction ms as [|m ms IH]; intros [|row pol] i v; cbn [set_coeff length]; try reflexivity. rewrite IH. reflexivity. Qed.
Lemma upd_nth_length {A} (l : list A) i x : length (upd l i x) = length l.
Proof. revert i. induction l as [|a l IH]; intros [|i]; cbn; congruence. Qed.
Lemma nth_upd {A} (l : list A) i x j d : (i < length l)%nat -> nth j (upd l i x) d = if Nat.eqb j i then x else nth j l d.
Proof.
  revert i j. induction l as [|a l IH]; intros i j H; [cbn in H; lia|]. destruct i as [|i], j as [|j]; cbn [upd nth Nat.eqb]; try reflexivity. apply IH. cbn in H. lia.
Qed.
Lemma set_coeff_row mont ms : forall pol i v k, nth k (set_coeff mont ms pol i v) [] = if Nat.ltb k (length ms) && Nat.ltb k (length pol) then upd (nth k pol []) i (nth v (matrixValues mont (nth k ms modp0)) 0) else nth k pol [].
Proof.
  induction ms as [|m ms IH]; intros pol i v k; [destruct pol, k; reflexivity|]. destruct pol as [|row pol]; [cbn [set_coeff length]; rewrite andb_comm; destruct k; reflexivity|]. cbn [set_coeff]. destruct k as [|k]; [reflexivity|]. cbn [nth length].
  rewrite IH. reflexivity.
Qed.
(** A list of writes (position, value). *)
Definition writes (mont : bool) (ms : list modp) (ws : list (nat * nat)) (pol : rows) : rows := fold_left (fun pol w => set_coeff mont ms pol (fst w) (snd w)) ws pol.
Lemma writes_app mont ms a b pol : writes mont ms (a ++ b) pol = writes mont ms b (writes mont ms a pol).
Proof. unfold writes. apply fold_left_app. Qed.
Lemma writes_length mont ms ws : forall pol, length (writes mont ms ws pol) = length pol.
Proof. induction ws as [|w ws IH]; intros pol; [reflexivity|]. unfold writes in *. cbn [fold_left]. rewrite IH. apply set_coeff_length. Qed.
Lemma writes_above mont ms ws k : (length ms <= k)%nat -> forall pol, nth k (writes mont ms ws pol) [] = nth k pol [].
Proof. intros H. induction ws as [|w ws IH]; intros pol; [reflexivity|]. unfold writes in *. cbn [fold_left]. rewrite IH, set_coeff_row. rewrite (proj2 (Nat.ltb_ge _ _)) by exact H. reflexivity. Qed.
Lemma writes_row_length mont ms ws k : forall pol, length (nth k (writes mont ms ws pol) []) = length (nth k pol []).
Proof. induction ws as [|w ws IH]; intros pol; [reflexivity|]. unfold writes in *. cbn [fold_left]. rewrite IH, set_coeff_row. destruct (_ && _); [apply upd_nth_length|reflexivity]. Qed.
Lemma writes_value mont ms N k ws : (k < length ms)%nat -> NoDup (map fst ws) -> forall pol, (k < length pol)%nat -> length (nth k pol []) = N -> Forall (fun w => (fst w < N)%nat) ws ->
  (forall i v, In (i, v) ws -> nth i (nth k (writes mont ms ws pol) []) 0 = nth v (matrixValues mont (nth k ms modp0)) 0) /\
  (forall i, ~ In i (map fst ws) -> nth i (nth k (writes mont ms ws pol) []) 0 = nth i (nth k pol []) 0).
Proof.
  intros Hk. induction ws as [|[p u] ws IH]; intros ND pol HP HL HF; [split; [intros i v []|reflexivity]|]. unfold writes in *. cbn [fold_left map fst snd] in *. apply NoDup_cons_iff in ND. destruct ND as [NI ND]. pose proof (Forall_inv HF) as Hp. cbn [fst] in Hp.
  assert (ER : nth k (set_coeff mont ms pol p u) [] = upd (nth k pol []) p (nth u (matrixValues mont (nth k ms modp0)) 0)) by (rewrite set_coeff_row, (proj2 (Nat.ltb_lt _ _) Hk), (proj2 (Nat.ltb_lt _ _) HP); reflexivity).
  destruct (IH ND (set_coeff mont ms pol p u)) as [A B]; [rewrite set_coeff_length; exact HP|rewrite ER, upd_nth_length; exact HL|exact (Forall_inv_tail HF)|]. split.
  - intros i v [E|I]; [injection E as <- <-|exact (A i v I)]. rewrite (B p NI), ER, nth_upd by lia. rewrite Nat.eqb_refl. reflexivity.
  - intros i NIi. rewrite B by (intros I; apply NIi; right; exact I). rewrite ER, nth_upd by lia. destruct (Nat.eqb_spec i p) as [->|]; [exfalso; apply NIi; left; reflexivity|reflexivity].
Qed.
