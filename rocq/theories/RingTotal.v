(** The factors found by getFactors, the root found by primitiveRoot, and the success of NewRing. *)
From Verif Require Import Word ModRed Arith ModRedProofs Fermat PrimRoot SmallPrimes Ring RingProofs RNSSpec Pocklington.
Local Open Scope Z_scope.

(** ** Small factors *)
Lemma divide_out_done fuel : forall m p, 0 < m < 2 ^ Z.of_nat fuel -> 1 < p -> divide_out fuel m p mod p <> 0.
Proof.
  induction fuel as [|f IH]; intros m p Hm Hp; [change (2 ^ Z.of_nat 0) with 1 in Hm; lia|].
  cbn [divide_out]. destruct (Z.eqb_spec (m mod p) 0) as [E|E]; [|exact E].
  apply IH; [|exact Hp]. apply Z.mod_divide in E; [|lia]. destruct E as [k ->]. rewrite Z.div_mul by lia.
  rewrite Nat2Z.inj_succ, Z.pow_succ_r in Hm by lia. generalize dependent (2 ^ Z.of_nat f). intros. nia.
Qed.
Lemma not_div_trans a b p : 1 < p -> (a | b) -> b mod p <> 0 -> a mod p <> 0.
Proof.
  intros Hp D H E. apply H. apply Z.mod_divide in E; [|lia]. apply Z.mod_divide; [lia|]. eapply Z.divide_trans; eassumption.
Qed.
Lemma small_factors_done ps : (forall p, In p ps -> 1 < p) -> forall m factors, 0 < m < 2 ^ 64 ->
  let r := fst (small_factors ps m factors) in 0 < r /\ (r | m) /\ forall p, In p ps -> r mod p <> 0.
Proof.
  induction ps as [|p ps IH]; intros Hps m factors Hm; cbn [small_factors].
  - cbn [fst]. split; [lia|]. split; [apply Z.divide_refl|]. intros p [].
  - assert (Hp : 1 < p) by (apply Hps; left; reflexivity). assert (Hps' : forall q, In q ps -> 1 < q) by (intros q Hq; apply Hps; right; exact Hq).
    destruct (Z.eqb_spec (m mod p) 0) as [E|E].
    + destruct (divide_out_spec 64 m p ltac:(lia) Hp) as [H1 H2].
      assert (H3 : divide_out 64 m p <= m) by (apply Z.divide_pos_le; [lia|exact H2]).
      destruct (IH Hps' (divide_out 64 m p) (factors ++ [p]) ltac:(lia)) as (A & B & C).
      split; [exact A|]. split; [eapply Z.divide_trans; eassumption|]. intros q [<-|Hq]; [|apply C; exact Hq].
      apply (not_div_trans _ _ _ Hp B). apply divide_out_done; [|exact Hp]. change (2 ^ Z.of_nat 64) with (2 ^ 64). lia.
    + destruct (IH Hps' m factors Hm) as (A & B & C). split; [exact A|]. split; [exact B|].
      intros q [<-|Hq]; [|apply C; exact Hq]. apply (not_div_trans _ _ _ Hp B E).
Qed.
Lemma small_factors_list ps : (forall p, In p ps -> prime p) -> NoDup ps -> forall n m factors, 0 < m ->
  (forall p, In p ps -> (n mod p =? 0) = (m mod p =? 0)) ->
  snd (small_factors ps m factors) = factors ++ filter (fun p => n mod p =? 0) ps.
Proof.
  induction ps as [|p ps IH]; intros Hps Hn n m factors Hm H; cbn [small_factors filter]; [rewrite app_nil_r; reflexivity|].
  assert (Hp : prime p) by (apply Hps; left; reflexivity). pose proof (prime_ge_2 p Hp). inversion Hn as [|? ? Hni Hn']; subst.
  rewrite (H p (or_introl eq_refl)). destruct (Z.eqb_spec (m mod p) 0) as [E|E].
  - destruct (divide_out_spec 64 m p Hm ltac:(lia)) as [H1 H2]. rewrite (IH (fun q Hq => Hps q (or_intror Hq)) Hn' n (divide_out 64 m p)); [rewrite <- app_assoc; reflexivity|exact H1|].
    intros q Hq. rewrite (H q (or_intror Hq)).
    assert (Hq' : prime q) by (apply Hps; right; exact Hq). pose proof (prime_ge_2 q Hq').
    assert (Hpq : q <> p) by (intros ->; contradiction).
    assert (G : forall f m, 0 < m -> (m mod q =? 0) = (divide_out f m p mod q =? 0)).
    { clear - Hp Hq' Hpq. induction f as [|f IHf]; intros m Hm; [reflexivity|]. cbn [divide_out]. pose proof (prime_ge_2 p Hp). pose proof (prime_ge_2 q Hq').
      destruct (Z.eqb_spec (m mod p) 0) as [E|E]; [|reflexivity]. apply Z.mod_divide in E; [|lia]. destruct E as [k ->]. rewrite Z.div_mul by lia.
      rewrite <- IHf by nia. apply eq_true_iff_eq. rewrite !Z.eqb_eq, !Z.mod_divide by lia. split; intros D.
      - apply prime_mult in D; [|exact Hq']. destruct D as [D|D]; [exact D|]. apply prime_div_prime in D; [contradiction|exact Hq'|exact Hp].
      - apply Z.divide_mul_l. exact D. }
    apply G. exact Hm.
  - apply (IH (fun q Hq => Hps q (or_intror Hq)) Hn'); [exact Hm|]. intros q Hq. apply H. right. exact Hq.
Qed.
Lemma small_factors_parts ps : (forall p, In p ps -> prime p) -> forall m factors, 0 < m ->
  exists s, m = fst (small_factors ps m factors) * s /\ forall r, prime r -> (r | s) -> In r ps.
Proof.
  assert (G : forall f p m, prime p -> 0 < m -> exists s, m = divide_out f m p * s /\ forall r, prime r -> (r | s) -> r = p).
  { induction f as [|f IH]; intros p m Hp Hm; cbn [divide_out]; pose proof (prime_ge_2 p Hp) as Hp2.
    - exists 1. split; [lia|]. intros r Hr D. pose proof (prime_ge_2 r Hr). apply Z.divide_pos_le in D; lia.
    - destruct (Z.eqb_spec (m mod p) 0) as [E|E].
      + apply Z.mod_divide in E; [|lia]. destruct E as [k ->]. rewrite Z.div_mul by lia.
        destruct (IH p k Hp ltac:(nia)) as (s & E & H). exists (s * p). split; [rewrite E at 1; ring|]. intros r Hr D.
        apply prime_mult in D; [|exact Hr]. destruct D as [D|D]; [apply H; assumption|apply prime_div_prime; assumption].
      + exists 1. split; [lia|]. intros r Hr D. pose proof (prime_ge_2 r Hr). apply Z.divide_pos_le in D; lia. }
  induction ps as [|p ps IH]; intros Hps m factors Hm; cbn [small_factors].
  - exists 1. cbn [fst]. split; [lia|]. intros r Hr D. pose proof (prime_ge_2 r Hr). apply Z.divide_pos_le in D; lia.
  - assert (Hp : prime p) by (apply Hps; left; reflexivity). pose proof (prime_ge_2 p Hp).
    destruct (Z.eqb_spec (m mod p) 0) as [E|E].
    + destruct (divide_out_spec 64 m p Hm ltac:(lia)) as [H1 _]. destruct (G 64%nat p m Hp Hm) as (s1 & E1 & F1).
      destruct (IH (fun q Hq => Hps q (or_intror Hq)) (divide_out 64 m p) (factors ++ [p]) H1) as (s2 & E2 & F2).
      exists (s2 * s1). split; [rewrite Z.mul_assoc, <- E2; exact E1|]. intros r Hr D. apply prime_mult in D; [|exact Hr].
      destruct D as [D|D]; [right; apply F2; assumption|left; symmetry; apply F1; assumption].
    + destruct (IH (fun q Hq => Hps q (or_intror Hq)) m factors Hm) as (s2 & E2 & F2). exists s2. split; [exact E2|]. intros r Hr D. right. apply F2; assumption.
Qed.

(** The table: primes in increasing order. *)
Fixpoint increasing (l : list Z) : bool := match l with x :: (y :: _) as l' => (x <? y) && increasing l' | _ => true end.
Lemma increasing_nodup l : increasing l = true -> NoDup l.
Proof.
  assert (G : forall l x, increasing (x :: l) = true -> (forall y, In y l -> x < y) /\ increasing l = true).
  { induction l0 as [|y l0 IH]; intros x H; [split; [intros y []|reflexivity]|].
    change (increasing (x :: y :: l0)) with ((x <? y) && increasing (y :: l0)) in H. apply andb_true_iff in H. destruct H as [H1 H2]. apply Z.ltb_lt in H1.
    split; [|exact H2]. destruct (IH y H2) as [H3 _]. intros z [<-|Hz]; [exact H1|]. specialize (H3 z Hz). lia. }
  induction l as [|x l IH]; intros H; constructor; destruct (G l x H) as [H1 H2].
  - intros Hx. specialize (H1 x Hx). lia.
  - apply IH. exact H2.
Qed.
Lemma smallPrimes_nodup : NoDup smallPrimes.
Proof. apply increasing_nodup. vm_compute. reflexivity. Qed.
Lemma small_incl p : In p (firstn 42 smallPrimes) -> In p smallPrimes.
Proof. intros Hp. rewrite <- (firstn_skipn 42). apply in_app_iff. left. exact Hp. Qed.
Lemma small_divisor d : 2 <= d <= 178 -> exists p, In p (firstn 42 smallPrimes) /\ (p | d).
Proof.
  assert (G : forallb (fun d => existsb (fun p => d mod p =? 0) (firstn 42 smallPrimes)) (map Z.of_nat (seq 2 177)) = true) by (vm_compute; reflexivity).
  intros Hd. rewrite forallb_forall in G. specialize (G d). rewrite existsb_exists in G. destruct G as (p & Hp & E).
  - apply in_map_iff. exists (Z.to_nat d). split; [lia|]. apply in_seq. lia.
  - exists p. split; [exact Hp|]. assert (Hi := small_incl p Hp). apply Z.eqb_eq in E. apply Z.mod_divide; [|exact E]. pose proof (smallPrimes_gt1 p Hi). lia.
Qed.
Lemma smallPrimes_prime : forall p, In p smallPrimes -> prime p.
Proof.
  assert (G : forallb (fun p => (p <? 17424) && forallb (fun d => (p <=? d) || negb (p mod d =? 0)) (firstn 32 smallPrimes)) smallPrimes = true) by (vm_compute; reflexivity).
  intros p Hp. pose proof (smallPrimes_gt1 p Hp) as Hp1. rewrite forallb_forall in G. specialize (G p Hp). apply andb_true_iff in G. destruct G as [G1 G2]. apply Z.ltb_lt in G1.
  apply prime_by_divisors; [exact Hp1|]. intros r Hr D. pose proof (prime_ge_2 r Hr). destruct (Z_lt_le_dec p (r * r)) as [L|L]; [exact L|]. exfalso.
  assert (Hr2 : 2 <= r <= 131) by nia.
  assert (G3 : forallb (fun d => existsb (fun p => d mod p =? 0) (firstn 32 smallPrimes)) (map Z.of_nat (seq 2 130)) = true) by (vm_compute; reflexivity).
  rewrite forallb_forall in G3. specialize (G3 r). rewrite existsb_exists in G3. destruct G3 as (d & Hd & E).
  - apply in_map_iff. exists (Z.to_nat r). split; [lia|]. apply in_seq. lia.
  - assert (Hd1 : 1 < d). { apply smallPrimes_gt1. rewrite <- (firstn_skipn 32). apply in_app_iff. left. exact Hd. }
    apply Z.eqb_eq in E. apply Z.mod_divide in E; [|lia].
    assert (d = r). { destruct (prime_divisors r Hr d E) as [K|[K|[K|K]]]; lia. } subst d.
    rewrite forallb_forall in G2. specialize (G2 r Hd). apply orb_true_iff in G2. destruct G2 as [G2|G2].
    + apply Z.leb_le in G2. nia.
    + apply negb_true_iff, Z.eqb_neq in G2. apply G2. apply Z.mod_divide; [lia|exact D].
Qed.

(** ** The walk of Pollard's rho stops after two steps *)
Lemma polyrho_eq x m c : 2 <= m -> 2 * m <= W -> 0 <= x < m -> 0 <= c < m -> polynomialPollardsRho x m c = (x ^ 2 + c) mod m.
Proof.
  intros Hm HW Hx Hc. unfold polynomialPollardsRho. rewrite ModExp_correct by lia.
  assert (0 <= x ^ 2 mod m < m) by (apply Z.mod_pos_bound; lia).
  unfold wadd. rewrite w64_small by lia. rewrite Zplus_mod_idemp_l. reflexivity.
Qed.
Lemma rho_walk_stops fuel m c : (2 <= fuel)%nat -> 178 < m -> 2 * m <= W -> 1 <= c <= 9 ->
  (forall d, 2 <= d <= 178 -> ~ (d | m)) -> rho_walk fuel 2 2 m c = Some 0.
Proof.
  intros Hf Hm HW Hc Hd. destruct fuel as [|[|f]]; [lia|lia|]. clear Hf.
  assert (X1 : polynomialPollardsRho 2 m c = 4 + c) by (rewrite polyrho_eq by lia; rewrite Z.mod_small; lia).
  set (y1 := (4 + c) ^ 2 + c). assert (Hy : 4 + c < y1 <= 178) by (unfold y1; rewrite Z.pow_2_r; nia).
  assert (Y1 : polynomialPollardsRho (4 + c) m c = y1) by (rewrite polyrho_eq by lia; rewrite Z.mod_small; unfold y1 in *; lia).
  set (f1 := S f). cbn [rho_walk]. rewrite X1, Y1. replace (4 + c <? y1) with true by (symmetry; apply Z.ltb_lt; lia). unfold f1. clear f1.
  unfold wsub at 1 2 3. rewrite w64_small by lia. unfold gcd at 1 2 3.
  replace (y1 - (4 + c) =? 0) with false by (symmetry; apply Z.eqb_neq; lia). replace (m =? 0) with false by (symmetry; apply Z.eqb_neq; lia). cbn [orb].
  assert (HG : Z.gcd (y1 - (4 + c)) m = 1).
  { assert (0 <= Z.gcd (y1 - (4 + c)) m) by apply Z.gcd_nonneg. pose proof (Z.gcd_divide_l (y1 - (4 + c)) m) as D1. pose proof (Z.gcd_divide_r (y1 - (4 + c)) m) as D2.
    assert (Hpos : 0 < y1 - (4 + c)) by lia. pose proof (Z.divide_pos_le _ _ Hpos D1). assert (Z.gcd (y1 - (4 + c)) m <> 0) by (intros E; rewrite E in D1; destruct D1; lia).
    destruct (Z.eq_dec (Z.gcd (y1 - (4 + c)) m) 1) as [E|E]; [exact E|]. exfalso. apply (Hd (Z.gcd (y1 - (4 + c)) m)); [lia|exact D2]. }
  rewrite HG. cbn [Z.ltb Z.compare Z.eqb]. cbn [rho_walk]. rewrite Y1.
  set (x2 := polynomialPollardsRho y1 m c). rewrite (Z.ltb_irrefl x2). unfold wsub. rewrite (Z.sub_diag x2). reflexivity.
Qed.
Lemma rho_nothing fuel m : (2 <= fuel)%nat -> 178 < m -> 2 * m <= W -> (forall d, 2 <= d <= 178 -> ~ (d | m)) -> factorizationPollardsRho fuel m = Some 0.
Proof.
  intros Hf Hm HW Hd. unfold factorizationPollardsRho.
  assert (G : forall t c, 1 <= c -> c + Z.of_nat t <= 10 -> rho_retry fuel t c m = Some 0).
  { induction t as [|t IH]; intros c H1 H2; cbn [rho_retry]; [reflexivity|].
    rewrite (rho_walk_stops fuel m c Hf Hm HW ltac:(lia) Hd). cbn [Z.ltb Z.compare]. apply IH; lia. }
  apply G; lia.
Qed.

(** ** getFactors: the primes of the table that divide n, then what is left, as a whole *)
Definition rest_of (n : Z) : Z := fst (small_factors smallPrimes n []).
Lemma rest_of_spec n : 0 < n < 2 ^ 64 -> 0 < rest_of n /\ (forall p, In p smallPrimes -> ~ (p | rest_of n)) /\
  exists s, n = rest_of n * s /\ forall r, prime r -> (r | s) -> In r smallPrimes.
Proof.
  intros Hn. pose proof (small_factors_done smallPrimes smallPrimes_gt1 n [] Hn) as H. pose proof (small_factors_parts smallPrimes smallPrimes_prime n [] ltac:(lia)) as H'.
  cbv zeta in H. unfold rest_of. revert H H'. generalize (fst (small_factors smallPrimes n [])). intros m (A & _ & C) H'. split; [exact A|]. split; [|exact H'].
  intros p Hp D. apply (C p Hp). pose proof (smallPrimes_gt1 p Hp). apply Z.mod_divide; [lia|exact D].
Qed.
(** The primes of the table that divide n, and the rest. *)
Definition factors_of (n : Z) : list Z := filter (fun p => n mod p =? 0) smallPrimes ++ (if rest_of n =? 1 then [] else [rest_of n]).
Lemma getFactors_eq fuel n : (2 <= fuel)%nat -> 1 < n -> 2 * n <= W ->
  getFactors fuel n = Some (factors_of n).
Proof.
  intros Hf Hn HW. change W with (2 ^ 64) in HW. destruct (rest_of_spec n ltac:(lia)) as (A & B & s & E & _).
  unfold getFactors, factors_of. pose proof (small_factors_list smallPrimes smallPrimes_prime smallPrimes_nodup n n [] ltac:(lia) (fun _ _ => eq_refl)) as EL.
  assert (ER : rest_of n = fst (small_factors smallPrimes n [])) by (unfold rest_of; apply eq_refl). revert ER EL A B E. generalize (rest_of n).
  destruct (small_factors smallPrimes n []) as [m' factors]. cbn [fst snd app]. intros m -> -> A B E.
  destruct (Z.eqb_spec m' 1) as [->|Hm]; [rewrite app_nil_r; reflexivity|].
  assert (Hs : 0 < s) by nia. assert (Hmn : m' <= n) by (rewrite E; nia).
  assert (Hd : forall d, 2 <= d <= 178 -> ~ (d | m')).
  { intros d Hd D. destruct (small_divisor d Hd) as (p & Hp & D'). apply (B p (small_incl p Hp)). eapply Z.divide_trans; eassumption. }
  assert (Hm178 : 178 < m'). { destruct (Z_lt_le_dec 178 m') as [H|H]; [exact H|]. exfalso. apply (Hd m'); [lia|apply Z.divide_refl]. }
  destruct fuel as [|f]; [lia|]. cbn [large_factors]. change W with (2 ^ 64) in *.
  rewrite rho_nothing; [cbn [Z.eqb]; reflexivity|exact Hf|exact Hm178|change W with (2 ^ 64); lia|exact Hd].
Qed.

(** ** primitiveRoot *)
Lemma root_loop_total q g0 factors : 2 * q <= W -> 3 <= g0 < q -> root_ok q g0 factors = true ->
  forall d g, Z.of_nat d = g0 - 1 - g -> 2 <= g ->
  exists r, 3 <= r < q /\ root_ok q r factors = true /\ forall fuel, (d < fuel)%nat -> primitiveRoot_loop fuel q g factors = Some r.
Proof.
  intros HW H0 R. induction d as [|d IH]; intros g Hd Hg.
  - exists g0. split; [exact H0|]. split; [exact R|]. intros [|f] Hf; [lia|]. cbn [primitiveRoot_loop]. unfold wadd. rewrite w64_small by lia.
    replace (g + 1) with g0 by lia. rewrite R. reflexivity.
  - destruct (root_ok q (g + 1) factors) eqn:E.
    + exists (g + 1). split; [lia|]. split; [exact E|]. intros [|f] Hf; [lia|]. cbn [primitiveRoot_loop]. unfold wadd. rewrite w64_small by lia. rewrite E. reflexivity.
    + destruct (IH (g + 1) ltac:(lia) ltac:(lia)) as (r & R1 & R2 & R3). exists r. split; [exact R1|]. split; [exact R2|].
      intros [|f] Hf; [lia|]. cbn [primitiveRoot_loop]. unfold wadd. rewrite w64_small by lia. rewrite E. apply R3. lia.
Qed.
Lemma generator_ok q g l : prime q -> 2 * q <= W -> 2 <= g < q -> (forall k, 0 <= k -> eqm q (g ^ k) 1 -> (q - 1 | k)) ->
  l <> [] -> good_factors (q - 1) l -> root_ok q g l = true.
Proof.
  intros Hp HqW Hg0 Ho Hl Hg. pose proof (prime_ge_2 q Hp). unfold root_ok. apply andb_true_iff. split.
  - destruct l; [contradiction|reflexivity].
  - apply forallb_forall. intros x Hx. apply negb_true_iff, Z.eqb_neq. intros E1.
    destruct (Hg x Hx) as [Hx1 [k Hk]].
    assert (Ek : (q - 1) / x = k) by (rewrite Hk; apply Z.div_mul; lia).
    rewrite Ek, ModExp_correct in E1 by nia.
    assert (D : (q - 1 | k)).
    { apply Ho; [nia|]. unfold eqm. rewrite E1. symmetry. apply Z.mod_small. lia. }
    apply Z.divide_pos_le in D; nia.
Qed.
Lemma factors_good q : prime q -> 5 <= q -> 2 * q <= W -> good_factors (q - 1) (factors_of (q - 1)) /\ In 2 (factors_of (q - 1)).
Proof.
  intros Hp Hq HW. assert (E := getFactors_eq 2 (q - 1) (le_n 2) ltac:(lia) ltac:(lia)).
  pose proof (prime_odd q Hp ltac:(lia)) as Hodd.
  assert (Hev : Z.even (q - 1) = true) by (rewrite Z.even_sub, <- Z.negb_odd, Hodd; reflexivity).
  apply (getFactors_spec 2 (q - 1)); [lia|exact Hev|exact E].
Qed.
Lemma primitive_root_total q : prime q -> 5 <= q -> 2 * q <= W ->
  exists g, 3 <= g < q /\ root_ok q g (factors_of (q - 1)) = true /\ forall fuel, (Z.to_nat q <= fuel)%nat -> primitiveRoot fuel q = Some g.
Proof.
  intros Hp Hq HW. destruct (factors_good q Hp Hq HW) as [HG H2].
  destruct (primitive_root_exists q Hp Hq) as (g0 & Hg0 & Ho).
  assert (R : root_ok q g0 (factors_of (q - 1)) = true).
  { apply generator_ok; try assumption; [lia|]. intros E. rewrite E in H2. destruct H2. }
  destruct (root_loop_total q g0 (factors_of (q - 1)) HW Hg0 R (Z.to_nat (g0 - 3)) 2 ltac:(lia) ltac:(lia)) as (r & R1 & R2 & R3).
  exists r. split; [exact R1|]. split; [exact R2|]. intros fuel Hf. unfold primitiveRoot.
  rewrite getFactors_eq by lia. apply R3. lia.
Qed.
(** If the factors contain all the primes that divide q-1, the root has order q-1. *)
Lemma root_order q g l : prime q -> 5 <= q -> 2 * q <= W -> (forall r, prime r -> (r | q - 1) -> In r l) ->
  3 <= g < q -> root_ok q g l = true -> forall k, 0 <= k -> eqm q (g ^ k) 1 -> (q - 1 | k).
Proof.
  intros Hp Hq HW HR Hg R k Hk E. change W with (2 ^ 64) in HW.
  assert (Hgq : ~ (q | g)) by (intros D; apply Z.divide_pos_le in D; lia).
  assert (G := order_gcd q g k (q - 1) Hk ltac:(lia) Hp Hgq E (fermat q g Hp Hgq)).
  set (d := Z.gcd k (q - 1)) in *. assert (Hd : (d | q - 1)) by apply Z.gcd_divide_r. assert (Hd0 : 0 <= d) by apply Z.gcd_nonneg. assert (Hdk : (d | k)) by apply Z.gcd_divide_l. clearbody d.
  destruct Hd as [c Hc]. assert (Hdp : 0 < d) by (destruct (Z.eq_dec d 0) as [->|]; [rewrite Z.mul_0_r in Hc; lia|lia]). assert (Hcp : 0 < c) by (apply (Z.mul_pos_cancel_r c d Hdp); lia).
  destruct (Z.eq_dec c 1) as [->|Hc1].
  - rewrite Hc, Z.mul_1_l. exact Hdk.
  - exfalso. destruct (prime_divisor c ltac:(lia)) as (r & Hr & [c' Hc']). pose proof (prime_ge_2 r Hr).
    assert (Hin : In r l) by (apply HR; [exact Hr|]; exists (c' * d); rewrite Hc, Hc'; ring).
    unfold root_ok in R. apply andb_true_iff in R. destruct R as [_ R]. rewrite forallb_forall in R. specialize (R r Hin).
    apply negb_true_iff, Z.eqb_neq in R. apply R.
    assert (Eq : (q - 1) / r = d * c') by (rewrite Hc, Hc'; replace (c' * r * d) with (d * c' * r) by ring; apply Z.div_mul; lia).
    rewrite Eq. assert (0 < c') by (clear - Hc' Hcp H; nia). assert (0 < d * c') by (apply Z.mul_pos_pos; assumption). rewrite ModExp_correct by (change W with (2 ^ 64); lia).
    assert (F : eqm q (g ^ (d * c')) 1) by (apply eqm_1_pow; [lia|lia|exact G]). unfold eqm in F. rewrite F. apply Z.mod_small. lia.
Qed.
Lemma factors_complete n : 0 < n < 2 ^ 64 -> rest_of n = 1 \/ prime (rest_of n) -> forall r, prime r -> (r | n) -> In r (factors_of n).
Proof.
  intros Hn. destruct (rest_of_spec n Hn) as (A & _ & s & Es & Hs). unfold factors_of. revert A Es. generalize (rest_of n). intros m A Es HR r Hr D.
  pose proof (prime_ge_2 r Hr). apply in_app_iff. assert (D' := D). rewrite Es in D'. apply prime_mult in D'; [|exact Hr]. destruct D' as [D'|D'].
  - right. destruct HR as [HR|HR]; [rewrite HR in D'; apply Z.divide_pos_le in D'; lia|]. apply prime_div_prime in D'; [|exact Hr|exact HR].
    pose proof (prime_ge_2 _ HR). destruct (Z.eqb_spec m 1); [lia|left; symmetry; exact D'].
  - left. apply filter_In. split; [apply Hs; assumption|]. apply Z.eqb_eq. apply Z.mod_divide; [lia|exact D].
Qed.

(** ** NewRing *)
Lemma gen_total NthRoot q : prime q -> 5 <= q -> 2 * q <= W -> exists m, mq m = q /\ forall fuel, (Z.to_nat q <= fuel)%nat -> gen_modp fuel NthRoot q = Some m.
Proof.
  intros Hp Hq HW. destruct (primitive_root_total q Hp Hq HW) as (g & _ & _ & H). eexists. split; [|intros fuel Hf; unfold gen_modp; rewrite (H fuel Hf); reflexivity].
  reflexivity.
Qed.
Lemma gen_all NthRoot ms : (forall q, In q ms -> prime q /\ 5 <= q /\ 2 * q <= W) ->
  exists mps, map mq mps = ms /\ forall fuel, (forall q, In q ms -> (Z.to_nat q <= fuel)%nat) -> sequence (map (gen_modp fuel NthRoot) ms) = Some mps.
Proof.
  induction ms as [|q ms IH]; intros H; [exists []; split; [reflexivity|intros; reflexivity]|].
  destruct IH as (mps & E1 & E2); [intros q' Hq'; apply H; right; exact Hq'|].
  destruct (H q (or_introl eq_refl)) as (H1 & H2 & H3). destruct (gen_total NthRoot q H1 H2 H3) as (m & M1 & M2).
  exists (m :: mps). split; [cbn [map]; rewrite M1, E1; reflexivity|]. intros fuel Hf. cbn [map sequence].
  rewrite M2 by (apply Hf; left; reflexivity). rewrite E2; [reflexivity|]. intros q' Hq'. apply Hf. right. exact Hq'.
Qed.
Lemma pow2_land k : Z.land (2 ^ Z.of_nat k) (2 ^ Z.of_nat k - 1) = 0.
Proof.
  replace (2 ^ Z.of_nat k - 1) with (Z.ones (Z.of_nat k)) by (rewrite Z.ones_equiv; lia). rewrite Z.land_ones by lia. apply Z.mod_same. apply Z.pow_nonzero; lia.
Qed.
(** What the moduli of a ring of degree 2^k must be. *)
Definition ring_moduli (k : nat) (ms : list Z) : Prop :=
  ms <> [] /\ NoDup ms /\ forall q, In q ms -> prime q /\ q mod 2 ^ Z.of_nat (k + 1) = 1 /\ 2 * q <= W.
Lemma new_ring_total k ms : (4 <= k)%nat -> ring_moduli k ms ->
  exists r, moduli r = ms /\ rN r = (2 ^ k)%nat /\ exists f0, forall fuel, (f0 <= fuel)%nat -> NewRing fuel (2 ^ Z.of_nat k) ms = inl r.
Proof.
  intros Hk (H1 & H2 & H3).
  assert (H4 : 2 * 2 ^ Z.of_nat k = 2 ^ Z.of_nat (k + 1)) by (replace (k + 1)%nat with (S k) by lia; rewrite pow2_S; reflexivity).
  assert (HK : 16 <= 2 ^ Z.of_nat k) by (change 16 with (2 ^ 4); apply Z.pow_le_mono_r; lia).
  destruct (gen_all (2 * 2 ^ Z.of_nat k) ms) as (mps & E1 & E2).
  { intros q Hq. destruct (H3 q Hq) as (A & B & C). split; [exact A|]. split; [|exact C]. pose proof (prime_ge_2 q A).
    destruct (Z_lt_le_dec q (2 ^ Z.of_nat (k + 1))) as [L|L]; [|lia]. rewrite Z.mod_small in B by lia. lia. }
  exists (mkRing (Z.to_nat (2 ^ Z.of_nat k)) (2 * 2 ^ Z.of_nat k) mps (fold_left Z.mul ms 1) (rescale_params ms)).
  split; [exact E1|]. split; [cbn [rN]; rewrite <- two_pow_nat; apply Nat2Z.id|].
  exists (fold_right Nat.max 0%nat (map Z.to_nat ms)). intros fuel Hf. unfold NewRing, NewRingWithCustomNTT.
  replace ((2 ^ Z.of_nat k <? 16) || negb (Z.land (2 ^ Z.of_nat k) (2 ^ Z.of_nat k - 1) =? 0)) with false
    by (rewrite pow2_land; symmetry; apply orb_false_iff; split; [apply Z.ltb_ge; exact HK|reflexivity]).
  replace (Nat.eqb (length ms) 0) with false by (symmetry; apply Nat.eqb_neq; destruct ms; [contradiction|discriminate]).
  replace (AllDistinct ms) with true by (symmetry; apply AllDistinct_spec; exact H2). cbn [negb].
  replace (forallb IsPrime ms) with true by (symmetry; apply forallb_forall; intros q Hq; apply IsPrime_spec; apply (H3 q Hq)). cbn [negb].
  replace (forallb (fun qi => Z.land qi (2 * 2 ^ Z.of_nat k - 1) =? 1) ms) with true.
  2:{ symmetry. apply forallb_forall. intros q Hq. destruct (H3 q Hq) as (A & B & C). pose proof (prime_ge_2 q A). rewrite H4, land_mod_pow2 by lia. apply Z.eqb_eq. exact B. }
  cbn [negb]. rewrite E2; [reflexivity|]. clear - Hf. intros q Hq. revert Hf. induction ms as [|x ms IH]; [destruct Hq|]. cbn [map fold_right]. intros Hf. destruct Hq as [->|Hq]; [lia|apply IH; [exact Hq|lia]].
Qed.
