(** Correctness of ring construction. *)
From Verif Require Import Word ModRed Arith ModRedProofs Fermat PrimRoot SmallPrimes Ring.

(** ** Primality *)
Lemma trial_true f : forall d q, trial f d q = true -> 2 <= d ->
  forall k, d <= k < d + Z.of_nat f -> k * k <= q -> q mod k <> 0.
Proof.
  induction f as [|f IH]; intros d q H Hd k Hk Hkk; [lia|].
  cbn [trial] in H. destruct (Z.ltb_spec q (d * d)) as [Hlt|Hle]; [nia|].
  destruct (Z.eqb_spec (q mod d) 0) as [E|E]; [discriminate|].
  destruct (Z.eq_dec k d) as [->|Hkd]; [exact E|].
  apply (IH (d + 1) q H); lia.
Qed.

Lemma trial_prime f : forall d q, prime q -> 2 <= d -> trial f d q = true.
Proof.
  induction f as [|f IH]; intros d q Hp Hd; [reflexivity|].
  cbn [trial]. destruct (Z.ltb_spec q (d * d)) as [Hlt|Hle]; [reflexivity|].
  destruct (Z.eqb_spec (q mod d) 0) as [E|E].
  - exfalso. apply Z.mod_divide in E; [|lia].
    destruct (prime_divisors q Hp d E) as [H|[H|[H|H]]]; nia.
  - apply IH; [assumption|lia].
Qed.

Lemma IsPrime_spec q : IsPrime q = true <-> prime q.
Proof.
  unfold IsPrime. rewrite andb_true_iff, Z.leb_le. split.
  - intros [H2 Ht]. destruct (prime_dec q) as [Hp|Hn]; [exact Hp|]. exfalso.
    destruct (not_prime_divide q ltac:(lia) Hn) as (n & Hn1 & [m Hm]).
    pose proof (Z.sqrt_spec q ltac:(lia)) as Hs. cbv zeta in Hs.
    assert (Hsn : 0 <= Z.sqrt q) by apply Z.sqrt_nonneg.
    set (s := Z.sqrt q) in *.
    assert (G : forall k, 2 <= k -> k * k <= q -> q mod k <> 0).
    { intros k Hk Hkk. apply (trial_true (Z.to_nat s) 2 q Ht); [lia| |exact Hkk].
      assert (k <= s) by nia. lia. }
    destruct (Z.le_gt_cases (n * n) q) as [H|H].
    + apply (G n); [lia|exact H|]. rewrite Hm. apply Z.mod_mul. lia.
    + apply (G m); [nia|nia|]. rewrite Hm, Z.mul_comm. apply Z.mod_mul. nia.
  - intros Hp. split; [apply prime_ge_2; assumption|]. apply trial_prime; [assumption|lia].
Qed.

(** ** Factor lists *)
Definition good_factors (n : Z) (l : list Z) : Prop := forall f, In f l -> 1 < f /\ (f | n).

Lemma divide_out_spec fuel : forall m p, 0 < m -> 1 < p -> 0 < divide_out fuel m p /\ (divide_out fuel m p | m).
Proof.
  induction fuel as [|f IH]; intros m p Hm Hp; cbn [divide_out]; [split; [lia|apply Z.divide_refl]|].
  destruct (Z.eqb_spec (m mod p) 0) as [E|E]; [|split; [lia|apply Z.divide_refl]].
  apply Z.mod_divide in E; [|lia]. destruct E as [k ->].
  rewrite Z.div_mul by lia. destruct (IH k p) as [H1 H2]; [nia|lia|].
  split; [exact H1|]. eapply Z.divide_trans; [exact H2|]. exists p. ring.
Qed.

Lemma small_factors_spec n ps : (forall p, In p ps -> 1 < p) -> forall m factors,
  0 < m -> (m | n) -> good_factors n factors ->
  0 < fst (small_factors ps m factors) /\ (fst (small_factors ps m factors) | n) /\
  good_factors n (snd (small_factors ps m factors)) /\
  (forall f, In f factors -> In f (snd (small_factors ps m factors))).
Proof.
  induction ps as [|p ps IH]; intros Hps m factors Hm Hd Hg; cbn [small_factors].
  - cbn [fst snd]. repeat split; try assumption; auto; apply Hg; assumption.
  - assert (Hp : 1 < p) by (apply Hps; left; reflexivity).
    destruct (Z.eqb_spec (m mod p) 0) as [E|E].
    + apply Z.mod_divide in E; [|lia].
      destruct (divide_out_spec 64 m p Hm Hp) as [H1 H2].
      destruct (IH (fun q Hq => Hps q (or_intror Hq)) (divide_out 64 m p) (factors ++ [p]))
        as (A & B & C & D); [exact H1|eapply Z.divide_trans; eassumption| |].
      * intros f Hf. apply in_app_iff in Hf. destruct Hf as [Hf|[<-|[]]]; [apply Hg; assumption|].
        split; [assumption|]. eapply Z.divide_trans; eassumption.
      * repeat split; try assumption; try (apply C; assumption).
        intros f Hf. apply D. apply in_app_iff. left. exact Hf.
    + apply IH; try assumption. intros q Hq. apply Hps. right. exact Hq.
Qed.

Lemma polyrho_range x m c : 1 < m -> 0 <= polynomialPollardsRho x m c < m.
Proof. intros. apply Z.mod_pos_bound. lia. Qed.

Lemma gcd_spec a m : 0 <= a < m -> gcd a m = 0 \/ (1 <= gcd a m < m /\ (gcd a m | m)).
Proof.
  intros H. unfold gcd. destruct (Z.eqb_spec a 0); [left; reflexivity|].
  destruct (Z.eqb_spec m 0); [lia|]. cbn [orb]. right.
  assert (0 <= Z.gcd a m) by apply Z.gcd_nonneg.
  pose proof (Z.gcd_divide_l a m) as Hl. pose proof (Z.gcd_divide_r a m) as Hr.
  assert (Z.gcd a m <= a) by (apply Z.divide_pos_le; [lia|assumption]).
  assert (Z.gcd a m <> 0) by (intros E; rewrite E in Hl; destruct Hl as [k Hk]; lia).
  split; [lia|assumption].
Qed.

Lemma rho_walk_spec fuel : forall x y m c d, 1 < m <= W ->
  rho_walk fuel x y m c = Some d -> d = 0 \/ (1 < d < m /\ (d | m)).
Proof.
  induction fuel as [|f IH]; intros x y m c d Hm H; [discriminate|].
  cbn [rho_walk] in H.
  set (x' := polynomialPollardsRho x m c) in *.
  set (y' := polynomialPollardsRho (polynomialPollardsRho y m c) m c) in *.
  assert (Hx : 0 <= x' < m) by (apply polyrho_range; lia).
  assert (Hy : 0 <= y' < m) by (apply polyrho_range; lia).
  assert (G : forall a b, 0 <= b <= a -> a < m ->
    (if 1 <? gcd (wsub a b) m then Some (gcd (wsub a b) m)
     else if gcd (wsub a b) m =? 0 then Some 0 else rho_walk f a b m c) = Some d ->
     d = 0 \/ (1 < d < m /\ (d | m))).
  { intros a b Hab Ha H'.
    assert (E : wsub a b = a - b) by (apply w64_small; lia).
    rewrite E in H'. pose proof (gcd_spec (a - b) m ltac:(lia)) as HG.
    destruct (Z.ltb_spec 1 (gcd (a - b) m)).
    - injection H' as <-. destruct HG as [HG|[HG1 HG2]]; [lia|]. right. split; [lia|assumption].
    - destruct (Z.eqb_spec (gcd (a - b) m) 0).
      + injection H' as <-. left. reflexivity.
      + apply (IH _ _ _ _ _ Hm H'). }
  destruct (Z.ltb_spec x' y') as [Hlt|Hle].
  - apply (G y' x'); [lia|lia|exact H].
  - apply (G x' y'); [lia|lia|exact H].
Qed.

Lemma rho_retry_spec fuel tries : forall c m d, 1 < m <= W ->
  rho_retry fuel tries c m = Some d -> d = 0 \/ (1 < d < m /\ (d | m)).
Proof.
  induction tries as [|t IH]; intros c m d Hm H; cbn [rho_retry] in H.
  - injection H as <-. left. reflexivity.
  - destruct (rho_walk fuel 2 2 m c) as [d'|] eqn:E; [|discriminate].
    destruct (Z.ltb_spec 1 d').
    + injection H as <-. eapply rho_walk_spec; eassumption.
    + eapply IH; eassumption.
Qed.

Lemma large_factors_spec n fuel : forall m factors l, 1 < m <= W -> (m | n) -> good_factors n factors ->
  large_factors fuel m factors = Some l ->
  good_factors n l /\ (forall f, In f factors -> In f l).
Proof.
  induction fuel as [|fu IH]; intros m factors l Hm Hd Hg H; [discriminate|].
  cbn [large_factors] in H.
  destruct (factorizationPollardsRho (S fu) m) as [d|] eqn:E; [|discriminate].
  assert (HD := rho_retry_spec _ _ _ _ _ Hm E).
  destruct (Z.eqb_spec d 0) as [->|Hd0].
  - injection H as <-. split.
    + intros f Hf. apply in_app_iff in Hf. destruct Hf as [Hf|[<-|[]]]; [apply Hg; assumption|].
      split; [lia|assumption].
    + intros f Hf. apply in_app_iff. left. assumption.
  - destruct HD as [HD|[HD1 HD2]]; [contradiction|].
    assert (Hdn : (d | n)) by (eapply Z.divide_trans; eassumption).
    destruct HD2 as [k Hk].
    assert (Ek : m / d = k) by (rewrite Hk; apply Z.div_mul; lia).
    rewrite Ek in H.
    assert (Hk1 : 1 < k <= W) by nia.
    assert (Hkn : (k | n)).
    { eapply Z.divide_trans; [|exact Hd]. exists d. rewrite Hk. ring. }
    destruct (negb (length factors =? 0)%nat && (d =? last factors 0)).
    + apply (IH k factors l); assumption.
    + destruct (IH k (factors ++ [d]) l Hk1 Hkn) as [A B].
      * intros f Hf. apply in_app_iff in Hf. destruct Hf as [Hf|[<-|[]]]; [apply Hg; assumption|].
        split; [lia|assumption].
      * exact H.
      * split; [exact A|]. intros f Hf. apply B. apply in_app_iff. left. exact Hf.
Qed.

Lemma smallPrimes_gt1 : forall p, In p smallPrimes -> 1 < p.
Proof.
  intros p Hp. assert (G : forallb (fun p => 1 <? p) smallPrimes = true) by (vm_compute; reflexivity).
  rewrite forallb_forall in G. specialize (G p Hp). apply Z.ltb_lt. exact G.
Qed.

Lemma smallPrimes_cons : smallPrimes = 2 :: tl smallPrimes.
Proof. reflexivity. Qed.
Lemma smallPrimes_tl_gt1 : forall p, In p (tl smallPrimes) -> 1 < p.
Proof. intros p Hp. apply smallPrimes_gt1. rewrite smallPrimes_cons. right. exact Hp. Qed.
Lemma small_factors_2 ps n : Z.even n = true ->
  small_factors (2 :: ps) n [] = small_factors ps (divide_out 64 n 2) [2].
Proof.
  intros He. cbn [small_factors]. apply Z.even_spec in He. destruct He as [h Hh].
  replace (n mod 2 =? 0) with true; [reflexivity|]. symmetry. apply Z.eqb_eq.
  rewrite Hh, Z.mul_comm. apply Z.mod_mul. lia.
Qed.
Opaque smallPrimes.

Lemma getFactors_spec fuel n l : 1 < n < W -> Z.even n = true -> getFactors fuel n = Some l ->
  good_factors n l /\ In 2 l.
Proof.
  intros Hn He H. unfold getFactors in H.
  destruct (small_factors smallPrimes n []) as [m factors] eqn:E.
  assert (G0 : good_factors n []) by (intros f []).
  pose proof (small_factors_spec n smallPrimes smallPrimes_gt1 n [] ltac:(lia) (Z.divide_refl n) G0)
    as (A & B & C & _).
  rewrite E in A, B, C. cbn [fst snd] in A, B, C.
  assert (H2 : In 2 factors).
  { rewrite smallPrimes_cons, small_factors_2 in E by exact He.
    destruct (divide_out_spec 64 n 2 ltac:(lia) ltac:(lia)) as [D1 D2].
    pose proof (small_factors_spec n (tl smallPrimes)
       smallPrimes_tl_gt1 (divide_out 64 n 2) [2] D1 D2) as S.
    destruct S as (_ & _ & _ & S).
    - intros f [<-|[]]. split; [lia|]. apply Z.even_spec in He. destruct He as [h Hh]. exists h. lia.
    - rewrite E in S. apply S. left. reflexivity. }
  destruct (Z.eqb_spec m 1) as [->|Hm1].
  - injection H as <-. split; assumption.
  - assert (m <= n) by (apply Z.divide_pos_le; [lia|assumption]).
    destruct (large_factors_spec n fuel m factors l) as [F1 F2]; try assumption; [lia|].
    split; [exact F1|apply F2; exact H2].
Qed.

(** ** The root found by primitiveRoot *)
Lemma primitiveRoot_loop_spec q g0 factors : prime q -> 5 <= q -> 2 * q <= W ->
  good_factors (q - 1) factors -> In 2 factors ->
  3 <= g0 < q -> (forall k, 0 <= k -> eqm q (g0 ^ k) 1 -> (q - 1 | k)) ->
  forall fuel g r, 2 <= g < g0 -> primitiveRoot_loop fuel q g factors = Some r ->
  3 <= r < q /\ root_ok q r factors = true.
Proof.
  intros Hp Hq HqW Hg H2 Hg0 Ho. induction fuel as [|f IH]; intros g r Hgr H; [discriminate|].
  cbn [primitiveRoot_loop] in H.
  assert (Ew : wadd g 1 = g + 1) by (apply w64_small; lia).
  rewrite Ew in H.
  destruct (root_ok q (g + 1) factors) eqn:R.
  - injection H as <-. split; [lia|exact R].
  - destruct (Z.eq_dec (g + 1) g0) as [E|E]; [|apply (IH (g + 1) r); [lia|exact H]].
    exfalso. rewrite E in R. unfold root_ok in R.
    apply andb_false_iff in R. destruct R as [R|R].
    + apply negb_false_iff, Nat.eqb_eq in R. destruct factors; [destruct H2|discriminate].
    + assert (forallb (fun f => negb (ModExp g0 ((q - 1) / f) q =? 1)) factors = true); [|congruence].
      apply forallb_forall. intros x Hx. apply negb_true_iff, Z.eqb_neq. intros E1.
      destruct (Hg x Hx) as [Hx1 [k Hk]].
      assert (Ek : (q - 1) / x = k) by (rewrite Hk; apply Z.div_mul; lia).
      rewrite Ek, ModExp_correct in E1 by nia.
      assert (D : (q - 1 | k)).
      { apply Ho; [nia|]. unfold eqm. rewrite E1. symmetry. apply Z.mod_small. lia. }
      apply Z.divide_pos_le in D; nia.
Qed.

Lemma primitiveRoot_spec fuel q g : prime q -> 5 <= q -> 2 * q <= W ->
  primitiveRoot fuel q = Some g -> 3 <= g < q /\ eqm q (g ^ ((q - 1) / 2)) (-1).
Proof.
  intros Hp Hq HqW H. unfold primitiveRoot in H.
  destruct (getFactors fuel (q - 1)) as [l|] eqn:E; [|discriminate].
  pose proof (prime_odd q Hp ltac:(lia)) as Hodd.
  assert (Hev : Z.even (q - 1) = true) by (rewrite Z.even_sub, <- Z.negb_odd, Hodd; reflexivity).
  destruct (getFactors_spec fuel (q - 1) l ltac:(lia) Hev E) as [Hg H2].
  destruct (primitive_root_exists q Hp Hq) as (g0 & Hg0 & Ho).
  destruct (primitiveRoot_loop_spec q g0 l Hp Hq HqW Hg H2 Hg0 Ho fuel 2 g ltac:(lia) H) as [R1 R2].
  split; [exact R1|].
  unfold root_ok in R2. apply andb_true_iff in R2. destruct R2 as [_ R2].
  rewrite forallb_forall in R2. specialize (R2 2 H2).
  apply negb_true_iff, Z.eqb_neq in R2.
  apply Z.even_spec in Hev. destruct Hev as [h Hh].
  assert (Eh : (q - 1) / 2 = h) by (rewrite Hh, Z.mul_comm; apply Z.div_mul; lia).
  rewrite Eh in *. rewrite ModExp_correct in R2 by lia.
  assert (Hnd : ~ (q | g)) by (intros D; apply Z.divide_pos_le in D; lia).
  assert (Sq : eqm q (g ^ h * g ^ h) 1).
  { rewrite <- Z.pow_add_r by lia. replace (h + h) with (q - 1) by lia. apply fermat; assumption. }
  destruct (prime_sqrt_one q (g ^ h) Hp Sq) as [S1|S1]; [|exact S1].
  exfalso. apply R2. unfold eqm in S1. rewrite S1. apply Z.mod_small. lia.
Qed.

(** ** Bit reversal *)
Lemma pow2_pos n : 0 < 2 ^ Z.of_nat n.
Proof. apply Z.pow_pos_nonneg; lia. Qed.
Lemma pow2_S n : 2 ^ Z.of_nat (S n) = 2 * 2 ^ Z.of_nat n.
Proof. rewrite Nat2Z.inj_succ, Z.pow_succ_r by lia. reflexivity. Qed.

Lemma rev_bits_range n : forall x, 0 <= rev_bits n x < 2 ^ Z.of_nat n.
Proof.
  induction n as [|n IH]; intros x; [cbn; lia|].
  cbn [rev_bits]. rewrite pow2_S. pose proof (IH (x / 2)). pose proof (pow2_pos n).
  assert (0 <= x mod 2 < 2) by (apply Z.mod_pos_bound; lia). nia.
Qed.

Lemma rev_bits_0 n : rev_bits n 0 = 0.
Proof. induction n as [|n IH]; [reflexivity|]. cbn [rev_bits]. rewrite Zdiv_0_l, IH. reflexivity. Qed.

Lemma rev_bits_top n : forall x, 0 <= x ->
  rev_bits (S n) x = 2 * rev_bits n (x mod 2 ^ Z.of_nat n) + (x / 2 ^ Z.of_nat n) mod 2.
Proof.
  induction n as [|n IH]; intros x Hx.
  - cbn [rev_bits]. change (2 ^ Z.of_nat 0) with 1. rewrite Z.div_1_r. lia.
  - pose proof (pow2_pos n) as Hn.
    change (rev_bits (S (S n)) x) with ((x mod 2) * 2 ^ Z.of_nat (S n) + rev_bits (S n) (x / 2)).
    rewrite IH by (apply Z.div_pos; lia).
    change (rev_bits (S n) (x mod 2 ^ Z.of_nat (S n))) with
      (((x mod 2 ^ Z.of_nat (S n)) mod 2) * 2 ^ Z.of_nat n + rev_bits n ((x mod 2 ^ Z.of_nat (S n)) / 2)).
    rewrite pow2_S.
    assert (E1 : (x mod (2 * 2 ^ Z.of_nat n)) mod 2 = x mod 2).
    { rewrite Z.rem_mul_r by lia. rewrite Z.mul_comm, Z.mod_add by lia. apply Z.mod_mod. lia. }
    assert (E2 : (x mod (2 * 2 ^ Z.of_nat n)) / 2 = (x / 2) mod 2 ^ Z.of_nat n).
    { rewrite Z.rem_mul_r by lia. rewrite Z.mul_comm, Z.div_add by lia.
      rewrite Zmod_div. lia. }
    rewrite E1, E2. rewrite Z.div_div by lia. ring.
Qed.

Lemma rev_bits_invol n : forall x, 0 <= x < 2 ^ Z.of_nat n -> rev_bits n (rev_bits n x) = x.
Proof.
  induction n as [|n IH]; intros x Hx.
  - cbn in *. lia.
  - pose proof (pow2_pos n) as Hn. rewrite pow2_S in Hx.
    rewrite rev_bits_top by (apply rev_bits_range).
    change (rev_bits (S n) x) with ((x mod 2) * 2 ^ Z.of_nat n + rev_bits n (x / 2)).
    pose proof (rev_bits_range n (x / 2)) as R.
    rewrite (Z.add_comm (_ * _) (rev_bits n _)), Z.mod_add, Z.div_add by lia.
    rewrite (Z.mod_small (rev_bits _ _)), (Z.div_small (rev_bits _ _)) by assumption.
    rewrite IH by (split; [apply Z.div_pos; lia|apply Z.div_lt_upper_bound; lia]).
    rewrite Z.add_0_l, Z.mod_mod by lia. pose proof (Z.div_mod x 2 ltac:(lia)). lia.
Qed.

Lemma rev_bits_split n m : forall x, 0 <= x ->
  rev_bits (n + m) x = rev_bits n x * 2 ^ Z.of_nat m + rev_bits m (x / 2 ^ Z.of_nat n).
Proof.
  induction n as [|n IH]; intros x Hx.
  - cbn [Nat.add rev_bits]. change (2 ^ Z.of_nat 0) with 1. rewrite Z.div_1_r. lia.
  - cbn [Nat.add rev_bits]. rewrite IH by (apply Z.div_pos; lia).
    rewrite Z.div_div by (try lia; apply pow2_pos). rewrite <- pow2_S.
    rewrite Nat2Z.inj_add, Z.pow_add_r by lia. ring.
Qed.

Lemma BitReverse64_rev_bits L x : (L <= 64)%nat -> 0 <= x < 2 ^ Z.of_nat L ->
  BitReverse64 x (Z.of_nat L) = rev_bits L x.
Proof.
  intros HL Hx. unfold BitReverse64, Reverse64, wshr.
  assert (E : rev_bits 64 x = rev_bits (L + (64 - L)) x) by (f_equal; lia).
  rewrite E, rev_bits_split by lia. rewrite (Z.div_small x) by assumption.
  rewrite rev_bits_0, Z.add_0_r.
  replace (64 - Z.of_nat L) with (Z.of_nat (64 - L)) by lia.
  apply Z.div_mul. pose proof (pow2_pos (64 - L)). lia.
Qed.

(** ** List update *)
Lemma upd_length {A} (l : list A) i v : length (upd l i v) = length l.
Proof. revert i. induction l as [|x l IH]; intros [|i]; cbn; auto. Qed.
Lemma nth_upd_same {A} (l : list A) i v d : (i < length l)%nat -> nth i (upd l i v) d = v.
Proof. revert i. induction l as [|x l IH]; intros [|i] H; cbn in *; try lia; auto. apply IH. lia. Qed.
Lemma nth_upd_diff {A} (l : list A) i j v d : i <> j -> nth j (upd l i v) d = nth j l d.
Proof.
  revert i j. induction l as [|x l IH]; intros [|i] [|j] H; cbn; auto; try contradiction.
Qed.

(** ** The tables *)
Definition brvn (L : nat) (k : nat) : nat := Z.to_nat (rev_bits L (Z.of_nat k)).

Lemma two_pow_nat L : Z.of_nat (2 ^ L) = 2 ^ Z.of_nat L.
Proof. rewrite Nat2Z.inj_pow. reflexivity. Qed.

Lemma brvn_lt L k : (brvn L k < 2 ^ L)%nat.
Proof. unfold brvn. pose proof (rev_bits_range L (Z.of_nat k)). rewrite <- two_pow_nat in *. lia. Qed.

Lemma brvn_Z L k : Z.of_nat (brvn L k) = rev_bits L (Z.of_nat k).
Proof. unfold brvn. pose proof (rev_bits_range L (Z.of_nat k)). lia. Qed.

Lemma brvn_invol L k : (k < 2 ^ L)%nat -> brvn L (brvn L k) = k.
Proof.
  intros Hk. apply Nat2Z.inj. rewrite !brvn_Z.
  apply rev_bits_invol. rewrite <- two_pow_nat. lia.
Qed.

Lemma brvn_inj L i j : (i < 2 ^ L)%nat -> (j < 2 ^ L)%nat -> brvn L i = brvn L j -> i = j.
Proof. intros Hi Hj E. rewrite <- (brvn_invol L i), <- (brvn_invol L j) by assumption. congruence. Qed.

Lemma brvn_0 L : brvn L 0 = O.
Proof. unfold brvn. cbn [Z.of_nat]. rewrite rev_bits_0. reflexivity. Qed.

Lemma ntt_table_spec L q b : (L <= 62)%nat -> Z.odd q = true -> 2 <= q -> 2 * q <= W ->
  let tbl := ntt_table (2 ^ L) (Z.of_nat L) q (MRedParams q) (BRedParams q) ((b * W) mod q) in
  length tbl = (2 ^ L)%nat /\
  forall k, (k < 2 ^ L)%nat -> nth k tbl 0 = (b ^ rev_bits L (Z.of_nat k) * W) mod q.
Proof.
  intros HL Ho Hq HqW.
  assert (HN : (1 <= 2 ^ L)%nat) by (clear; induction L; cbn; lia).
  pose proof (MRedParams_inv q Ho) as Hinv.
  assert (Hr : 0 <= (b * W) mod q < q) by (apply Z.mod_pos_bound; lia).
  set (root := (b * W) mod q) in *.
  assert (G : forall n, (n <= 2 ^ L - 1)%nat ->
    let tbl := fold_left (fun tbl j =>
      let prev := Z.to_nat (BitReverse64 (Z.of_nat j - 1) (Z.of_nat L)) in
      let next := Z.to_nat (BitReverse64 (Z.of_nat j) (Z.of_nat L)) in
      upd tbl next (MRed (nth prev tbl 0) root q (MRedParams q)))
      (seq 1 n) (upd (repeat 0 (2 ^ L)) 0 (MForm 1 q (BRedParams q))) in
    length tbl = (2 ^ L)%nat /\
    forall k, (k <= n)%nat -> nth (brvn L k) tbl 0 = (b ^ Z.of_nat k * W) mod q).
  { induction n as [|n IH]; intros Hn; cbv zeta.
    - cbn [seq fold_left]. rewrite upd_length, repeat_length. split; [reflexivity|].
      intros k Hk. replace k with O by lia. rewrite brvn_0, nth_upd_same by (rewrite repeat_length; lia).
      rewrite MForm_correct by first [assumption|split; [lia|reflexivity]]. reflexivity.
    - rewrite seq_S, fold_left_app. cbn [fold_left].
      destruct (IH ltac:(lia)) as [Hlen Hnth]. cbv zeta in Hlen, Hnth.
      set (tbl := fold_left _ (seq 1 n) _) in *.
      assert (Hlt : forall j, (j < 2 ^ L)%nat -> 0 <= Z.of_nat j < 2 ^ Z.of_nat L)
        by (intros j Hj; rewrite <- two_pow_nat; lia).
      rewrite upd_length. split; [exact Hlen|].
      intros k Hk.
      replace (Z.of_nat (1 + n) - 1) with (Z.of_nat n) by lia.
      rewrite !BitReverse64_rev_bits by (first [lia|apply Hlt; lia]).
      fold (brvn L n). fold (brvn L (1 + n)).
      destruct (Nat.eq_dec k (1 + n)) as [->|Hne].
      + rewrite nth_upd_same by (rewrite Hlen; apply brvn_lt).
        rewrite Hnth by lia.
        assert (Hp : 0 <= (b ^ Z.of_nat n * W) mod q < q) by (apply Z.mod_pos_bound; lia).
        apply eqm_mod_eq.
        * apply MRed_range; try lia; try assumption. nia.
        * apply odd_cancel_W; [lia|assumption|].
          rewrite MRed_eqm by (try lia; try assumption; nia).
          unfold root. rewrite !eqm_mod.
          change (1 + n)%nat with (S n). rewrite Nat2Z.inj_succ, Z.pow_succ_r by lia.
          apply eqm_eq. ring.
      + rewrite nth_upd_diff; [apply Hnth; lia|].
        intros E. apply brvn_inj in E; lia. }
  specialize (G (2 ^ L - 1)%nat (Nat.le_refl _)). cbv zeta in G.
  cbv zeta. unfold ntt_table.
  destruct G as [Hlen Hnth]. split; [exact Hlen|].
  intros k Hk. rewrite <- (brvn_invol L k) at 1 by assumption.
  pose proof (brvn_lt L k). rewrite Hnth by lia. rewrite brvn_Z. reflexivity.
Qed.

(** ** Well-formed moduli *)

(** The 2^(L+1)-th root of unity used by the tables of a modulus, out of
    Montgomery form. *)
Definition psi_of (m : modp) : Z := InvMForm (mpsiMont m) (mq m) (mqinv m).
Definition psiInv_of (m : modp) : Z := InvMForm (mpsiInvMont m) (mq m) (mqinv m).

(** [wf_modp L m]: m is a prime with correct reduction constants and tables of
    length 2^L. *)
Record wf_modp (L : nat) (m : modp) : Prop := {
  wf_prime : prime (mq m);
  wf_ge : 5 <= mq m;
  wf_W : 2 * mq m <= W;
  wf_odd : Z.odd (mq m) = true;
  wf_cong : (2 ^ Z.of_nat (S L) | mq m - 1);
  wf_bred : mbred m = BRedParams (mq m);
  wf_qinv : mqinv m = MRedParams (mq m);
  wf_inv : eqm W (mq m * mqinv m) 1;
  wf_psi_range : 0 <= psi_of m < mq m;
  wf_psi : eqm (mq m) (psi_of m ^ 2 ^ Z.of_nat L) (-1);
  wf_psiInv_range : 0 <= psiInv_of m < mq m;
  wf_psiInv : eqm (mq m) (psi_of m * psiInv_of m) 1;
  wf_tbl_len : length (mpsi m) = (2 ^ L)%nat;
  wf_tblInv_len : length (mpsiInv m) = (2 ^ L)%nat;
  wf_tbl : forall k, (k < 2 ^ L)%nat ->
     nth k (mpsi m) 0 = (psi_of m ^ rev_bits L (Z.of_nat k) * W) mod (mq m);
  wf_tblInv : forall k, (k < 2 ^ L)%nat ->
     nth k (mpsiInv m) 0 = (psiInv_of m ^ rev_bits L (Z.of_nat k) * W) mod (mq m);
  wf_ninv_range : 0 <= mninv m < mq m;
  wf_ninv : eqm (mq m) (mninv m * 2 ^ Z.of_nat L) W }.

Lemma InvMForm_of_mont q b : Z.odd q = true -> 2 <= q -> 2 * q <= W -> 0 <= b < q ->
  InvMForm ((b * W) mod q) q (MRedParams q) = b.
Proof.
  intros Ho Hq HqW Hb. rewrite <- (MForm_correct b q) by lia.
  rewrite InvMForm_MForm by (assumption || lia). apply Z.mod_small. assumption.
Qed.

Lemma MForm_ModExp x e q : 2 <= q -> 2 * q <= W -> 0 <= x < W -> 0 <= e ->
  MForm (ModExp x e q) q (BRedParams q) = ((x ^ e) mod q * W) mod q.
Proof.
  intros. rewrite ModExp_correct by assumption. apply MForm_correct; try assumption.
  pose proof (Z.mod_pos_bound (x ^ e) q ltac:(lia)). lia.
Qed.

Lemma gen_modp_wf fuel L q m :
  (3 <= L <= 62)%nat -> prime q -> 2 * q <= W -> (2 ^ Z.of_nat (S L) | q - 1) ->
  gen_modp fuel (2 ^ Z.of_nat (S L)) q = Some m -> wf_modp L m /\ mq m = q.
Proof.
  intros HL Hp HqW Hd H.
  pose proof (prime_ge_2 q Hp) as Hq2. pose proof (pow2_pos L) as HLp.
  destruct Hd as [c Hc]. rewrite pow2_S in Hc.
  assert (H8 : 8 <= 2 ^ Z.of_nat L) by (change 8 with (2 ^ 3); apply Z.pow_le_mono_r; lia).
  assert (Hcp : 0 < c) by nia.
  assert (Hq5 : 5 <= q) by nia.
  pose proof (prime_odd q Hp ltac:(lia)) as Ho.
  unfold gen_modp in H.
  destruct (primitiveRoot fuel q) as [g|] eqn:Eg; [|discriminate].
  destruct (primitiveRoot_spec fuel q g Hp Hq5 HqW Eg) as [Hg Hgm].
  assert (Ehalf : wshr (2 ^ Z.of_nat (S L)) 1 = 2 ^ Z.of_nat L).
  { unfold wshr. rewrite pow2_S. rewrite Z.pow_1_r, Z.mul_comm. apply Z.div_mul. lia. }
  assert (Elen : Len64 (2 ^ Z.of_nat L) - 1 = Z.of_nat L).
  { unfold Len64. destruct (Z.eqb_spec (2 ^ Z.of_nat L) 0); [lia|].
    rewrite Z.log2_pow2 by lia. lia. }
  assert (Enat : Z.to_nat (2 ^ Z.of_nat L) = (2 ^ L)%nat) by (rewrite <- two_pow_nat; lia).
  assert (Epow : (q - 1) / 2 ^ Z.of_nat (S L) = c).
  { rewrite pow2_S, Hc. apply Z.div_mul. lia. }
  rewrite Ehalf, Elen, Enat, Epow in H.
  assert (HcW : c < q) by nia.
  assert (HLW : 2 ^ Z.of_nat L < W).
  { rewrite W_pow. apply Z.pow_lt_mono_r; lia. }
  clear Elen Enat Epow Ehalf.
  assert (HgW : 0 <= g < W) by (clear -Hg HqW Hq2; lia).
  assert (HcI : 0 <= q - 1 - c) by (clear -HcW; lia).
  rewrite (MForm_ModExp g c q) in H by first [assumption|lia].
  rewrite (MForm_ModExp g (q - 1 - c) q) in H by first [assumption|lia].
  rewrite (MForm_ModExp (2 ^ Z.of_nat L) (q - 2) q) in H by first [assumption|lia].
  set (psi := (g ^ c) mod q) in *. set (psiI := (g ^ (q - 1 - c)) mod q) in *.
  assert (Hpsi : 0 <= psi < q) by (apply Z.mod_pos_bound; lia).
  assert (HpsiI : 0 <= psiI < q) by (apply Z.mod_pos_bound; lia).
  pose proof (ntt_table_spec L q psi ltac:(lia) Ho Hq2 HqW) as [T1 T2].
  pose proof (ntt_table_spec L q psiI ltac:(lia) Ho Hq2 HqW) as [T3 T4].
  cbv zeta in H. injection H as <-. split; [|reflexivity].
  assert (Hnd : ~ (q | g)) by (intros D; apply Z.divide_pos_le in D; lia).
  assert (E1 : forall b, 0 <= b < q -> InvMForm ((b * W) mod q) q (MRedParams q) = b).
  { intros b Hb. apply InvMForm_of_mont; assumption. }
  assert (Hh : (q - 1) / 2 = c * 2 ^ Z.of_nat L).
  { rewrite Hc. replace (c * (2 * 2 ^ Z.of_nat L)) with (c * 2 ^ Z.of_nat L * 2) by ring.
    apply Z.div_mul. lia. }
  constructor; cbn [mq mbred mqinv mpsiMont mpsiInvMont mpsi mpsiInv mninv]; unfold psi_of, psiInv_of;
    cbn [mq mbred mqinv mpsiMont mpsiInvMont mpsi mpsiInv mninv]; rewrite ?(E1 psi), ?(E1 psiI) by assumption;
    try assumption; try reflexivity.
  - exists c. rewrite pow2_S. exact Hc.
  - apply MRedParams_inv. assumption.
  - unfold psi. rewrite (eqm_pow q _ _ _ (eqm_mod q (g ^ c))). rewrite <- Z.pow_mul_r by lia.
    rewrite <- Hh. exact Hgm.
  - unfold psi, psiI. rewrite !eqm_mod. rewrite <- Z.pow_add_r by lia.
    replace (c + (q - 1 - c)) with (q - 1) by ring. apply fermat; assumption.
  - apply Z.mod_pos_bound. lia.
  - rewrite eqm_mod. rewrite eqm_mod.
    assert (Hn2 : ~ (q | 2 ^ Z.of_nat L)).
    { intros D.
      assert (R : rel_prime q (2 ^ Z.of_nat L)).
      { apply Zgcd_1_rel_prime. rewrite Z.gcd_comm. apply odd_gcd_pow2; [assumption|lia]. }
      destruct R as [_ _ R]. specialize (R q (Z.divide_refl q) D).
      apply Z.divide_1_r_nonneg in R; lia. }
    pose proof (fermat_inv q (2 ^ Z.of_nat L) Hp Hn2) as F.
    replace ((2 ^ Z.of_nat L) ^ (q - 2) * W * 2 ^ Z.of_nat L)
      with (2 ^ Z.of_nat L * (2 ^ Z.of_nat L) ^ (q - 2) * W) by ring.
    rewrite F. apply eqm_eq. ring.
Qed.

(** ** Well-formed rings *)
Record wf_ring (L logN : nat) (r : Ring) : Prop := {
  wfr_N : rN r = (2 ^ logN)%nat;
  wfr_logN : (4 <= logN <= 60)%nat;
  wfr_mods : forall m, In m (rmods r) -> wf_modp L m;
  wfr_distinct : NoDup (moduli r);
  wfr_ne : rmods r <> [];
  wfr_Q : rbigQ r = fold_right Z.mul 1 (moduli r);
  wfr_rescale : rrescale r = rescale_params (moduli r) }.

Lemma sequence_spec {A B} (f : A -> option B) l : forall r,
  sequence (map f l) = Some r -> Forall2 (fun a b => f a = Some b) l r.
Proof.
  induction l as [|a l IH]; intros r H; cbn in H.
  - injection H as <-. constructor.
  - destruct (f a) as [b|] eqn:E; [|discriminate].
    destruct (sequence (map f l)) as [bs|] eqn:E2; [|discriminate].
    injection H as <-. constructor; [exact E|apply IH; reflexivity].
Qed.

Lemma AllDistinct_loop_spec s : forall seen,
  AllDistinct_loop seen s = true <-> NoDup s /\ (forall x, In x s -> ~ In x seen).
Proof.
  induction s as [|a s IH]; intros seen; cbn [AllDistinct_loop].
  - split; [intros _; split; [constructor|intros x []]|reflexivity].
  - destruct (existsb (Z.eqb a) seen) eqn:E.
    + split; [discriminate|]. intros [_ H]. exfalso. apply existsb_exists in E.
      destruct E as (x & Hx & Ex). apply Z.eqb_eq in Ex. subst x.
      apply (H a); [left; reflexivity|exact Hx].
    + assert (Hna : ~ In a seen).
      { intros Hi. assert (existsb (Z.eqb a) seen = true); [|congruence].
        apply existsb_exists. exists a. split; [exact Hi|apply Z.eqb_refl]. }
      rewrite IH. split.
      * intros [Hnd H]. split.
        -- constructor; [|exact Hnd]. intros Hi. apply (H a Hi). left. reflexivity.
        -- intros x [<-|Hx]; [exact Hna|]. intros Hi. apply (H x Hx). right. exact Hi.
      * intros [Hnd H]. inversion Hnd as [|? ? Hni Hnd']; subst. split; [exact Hnd'|].
        intros x Hx [->|Hi]; [contradiction|]. apply (H x); [right; exact Hx|exact Hi].
Qed.

Lemma AllDistinct_spec s : AllDistinct s = true <-> NoDup s.
Proof.
  unfold AllDistinct. rewrite AllDistinct_loop_spec. split; [tauto|]. intros H. split; [exact H|].
  intros x _ [].
Qed.

Lemma fold_left_mul_acc l : forall a, fold_left Z.mul l a = a * fold_right Z.mul 1 l.
Proof. induction l as [|x l IH]; intros a; cbn; [ring|]. rewrite IH. ring. Qed.

Lemma pow2_of_land N : 16 <= N -> Z.land N (N - 1) = 0 -> exists k, (4 <= k)%nat /\ N = 2 ^ Z.of_nat k.
Proof.
  intros HN HL. exists (Z.to_nat (Z.log2 N)).
  assert (Hlog : 4 <= Z.log2 N) by (change 4 with (Z.log2 16); apply Z.log2_le_mono; lia).
  split; [lia|]. rewrite Z2Nat.id by lia.
  pose proof (Z.log2_spec N ltac:(lia)) as [Hl Hu].
  destruct (Z.eq_dec N (2 ^ Z.log2 N)) as [E|E]; [exact E|]. exfalso.
  set (k := Z.log2 N) in *.
  assert (T1 : Z.testbit N k = true) by (apply Z.bit_log2; lia).
  assert (T2 : Z.testbit (N - 1) k = true).
  { replace k with (Z.log2 (N - 1)); [apply Z.bit_log2; lia|].
    apply Z.log2_unique; [lia|]. rewrite Z.pow_succ_r in * by lia. lia. }
  assert (Z.testbit (Z.land N (N - 1)) k = true) by (rewrite Z.land_spec, T1, T2; reflexivity).
  rewrite HL, Z.bits_0 in H. discriminate.
Qed.

Lemma land_mod_pow2 q k : 0 <= q -> Z.land q (2 ^ Z.of_nat k - 1) = q mod 2 ^ Z.of_nat k.
Proof.
  intros Hq. rewrite <- Z.land_ones by lia. f_equal. rewrite Z.ones_equiv. lia.
Qed.

(** Everything the constructor checks, and what it builds: a standard ring has
    L = logN, a conjugate-invariant ring L = logN + 1. *)
Lemma NewRingWithCustomNTT_wf fuel N ms extra r :
  (extra = 1 \/ extra = 2)%nat -> N <= 2 ^ 60 ->
  (forall q, In q ms -> 2 * q <= W) ->
  NewRingWithCustomNTT fuel N ms (2 ^ Z.of_nat extra * N) = inl r ->
  exists logN, N = 2 ^ Z.of_nat logN /\ wf_ring (logN + extra - 1) logN r /\ moduli r = ms.
Proof.
  intros Hex HN60 Hms H. unfold NewRingWithCustomNTT in H.
  destruct (Z.ltb_spec N 16); [discriminate|].
  destruct (Z.eqb_spec (Z.land N (N - 1)) 0) as [HL|]; [|discriminate]. cbn [orb negb] in H.
  destruct (Nat.eqb_spec (length ms) 0) as [|Hne]; [discriminate|].
  destruct (AllDistinct ms) eqn:HD; [|discriminate]. cbn [negb] in H.
  destruct (forallb IsPrime ms) eqn:HP; [|discriminate]. cbn [negb] in H.
  destruct (forallb (fun qi => Z.land qi (2 ^ Z.of_nat extra * N - 1) =? 1) ms) eqn:HT; [|discriminate].
  cbn [negb] in H.
  destruct (sequence (map (gen_modp fuel (2 ^ Z.of_nat extra * N)) ms)) as [mps|] eqn:HS; [|discriminate].
  injection H as <-.
  destruct (pow2_of_land N ltac:(lia) HL) as (k & Hk & ->).
  assert (Hk60 : (k <= 60)%nat).
  { assert (Z.of_nat k <= 60); [|lia]. apply (Z.pow_le_mono_r_iff 2); lia. }
  exists k. split; [reflexivity|].
  set (L := (k + extra - 1)%nat).
  assert (EL : 2 ^ Z.of_nat extra * 2 ^ Z.of_nat k = 2 ^ Z.of_nat (S L)).
  { rewrite <- Z.pow_add_r by lia. f_equal. unfold L. lia. }
  rewrite EL in *.
  apply sequence_spec in HS.
  rewrite forallb_forall in HP, HT.
  assert (G : Forall2 (fun q m => wf_modp L m /\ mq m = q) ms mps).
  { clear -HS HP HT Hms Hk Hk60 Hex.
    induction HS as [|q m ms mps Hg HS IH]; constructor.
    - assert (Hp : prime q) by (apply IsPrime_spec, HP; left; reflexivity).
      pose proof (prime_ge_2 q Hp).
      apply (gen_modp_wf fuel L q m).
      + unfold L. lia.
      + exact Hp.
      + apply Hms. left. reflexivity.
      + specialize (HT q (or_introl eq_refl)). apply Z.eqb_eq in HT.
        rewrite land_mod_pow2 in HT by lia.
        exists (q / 2 ^ Z.of_nat (S L)). pose proof (pow2_pos (S L)).
        pose proof (Z.div_mod q (2 ^ Z.of_nat (S L)) ltac:(lia)). lia.
      + exact Hg.
    - apply IH; intros; (apply HP || apply HT || apply Hms); right; assumption. }
  assert (Em : map mq mps = ms).
  { clear -G. induction G as [|q m ms mps [_ E] G IH]; [reflexivity|]. cbn. rewrite E, IH. reflexivity. }
  split; [|exact Em].
  constructor; cbn [rN rmods rbigQ rrescale]; unfold moduli; cbn [rmods]; rewrite ?Em.
  - rewrite <- two_pow_nat. lia.
  - lia.
  - intros m Hm. clear -G Hm. induction G as [|q m' ms mps [Hw _] G IH]; [destruct Hm|].
    destruct Hm as [<-|Hm]; [exact Hw|apply IH; exact Hm].
  - apply AllDistinct_spec. exact HD.
  - intros ->. apply Hne. rewrite <- Em. reflexivity.
  - rewrite fold_left_mul_acc. ring.
  - reflexivity.
Qed.

Lemma NewRing_wf fuel N ms r :
  N <= 2 ^ 60 -> (forall q, In q ms -> 2 * q <= W) -> NewRing fuel N ms = inl r ->
  exists logN, N = 2 ^ Z.of_nat logN /\ wf_ring logN logN r /\ moduli r = ms.
Proof.
  intros HN Hm H. destruct (NewRingWithCustomNTT_wf fuel N ms 1 r) as (k & E & Hw & Em); auto.
  exists k. split; [exact E|]. split; [|exact Em]. replace (k + 1 - 1)%nat with k in Hw by lia. exact Hw.
Qed.
