(** The statements about the utilities of a ring. *)
From Verif Require Import Word Arith PolySpec PolyProofs ModRed ModRedProofs Ring RingOps RingProofs RNSSpec NTT RowProofs NTTProps OpsProofs OpsProps Repr CI CISpec CISwap CIEx BasisEx RingUtil RingUtilSpec RingUtilProofs.

Lemma built_L' r L : built_ring 2 r -> rN r = (2 ^ L)%nat -> wf_ring L L r /\ (4 <= L <= 60)%nat.
Proof.
  intros Hr HN. destruct (built_ring_wf 2 r ltac:(lia) Hr) as (L' & Hw & _). pose proof (wfr_N _ _ _ Hw) as E. rewrite HN in E. apply Nat.pow_inj_r in E; [|lia]. subst L'. split; [exact Hw|exact (wfr_logN _ _ _ Hw)].
Qed.

Lemma bit_reverse_lemma r L p1 p2 : built_ring 2 r -> rN r = (2 ^ L)%nat -> fits r p1 -> fits r p2 ->
  length (BitReverse r p1 p2) = length p2 /\
  (forall i, (i < length (rmods r))%nat -> length (nth i (BitReverse r p1 p2) []) = length (nth i p2 []) /\
     (forall j, (j < rN r)%nat -> coeff (BitReverse r p1 p2) i (bitrev L j) = coeff p1 i j) /\
     (forall k, (rN r <= k)%nat -> coeff (BitReverse r p1 p2) i k = coeff p2 i k)) /\
  (forall i, (length (rmods r) <= i)%nat -> nth i (BitReverse r p1 p2) [] = nth i p2 []).
Proof.
  intros Hr HN _ (H1 & H2). destruct (built_L' r L Hr HN) as (_ & HL). destruct (reverse_kept r p1 p2 H1) as (A & B). split; [exact A|]. split; [|exact B].
  intros i Hi. apply (reverse_row r L HN); [lia|exact Hi|apply H2; exact Hi].
Qed.

Lemma in_place_lemma r p : built_ring 2 r -> fits r p -> BitReverseInPlace r p = BitReverse r p p.
Proof.
  intros Hr (H1 & H2). destruct (built_ring_wf 2 r ltac:(lia) Hr) as (L & Hw & _). pose proof (wfr_N _ _ _ Hw) as HN. pose proof (wfr_logN _ _ _ Hw) as HL.
  apply (nth_ext _ _ [] []); [unfold BitReverseInPlace, BitReverse; rewrite !lvl_length; reflexivity|]. intros i _.
  destruct (Nat.lt_ge_cases i (length (rmods r))) as [Hi|Hi].
  - apply (in_place_row r L HN); [lia|exact Hi|apply H2; exact Hi].
  - unfold BitReverseInPlace, BitReverse. rewrite !lvl_nth_ge by exact Hi. reflexivity.
Qed.

Lemma fits_reverse r p1 p2 : built_ring 2 r -> fits r p2 -> fits r (BitReverse r p1 p2).
Proof.
  intros Hr (H1 & H2). destruct (built_ring_wf 2 r ltac:(lia) Hr) as (L & Hw & _). pose proof (wfr_N _ _ _ Hw) as HN. pose proof (wfr_logN _ _ _ Hw) as HL.
  split; [rewrite (proj1 (reverse_kept r p1 p2 H1)); exact H1|]. intros i Hi. destruct (reverse_row r L HN ltac:(lia) p1 p2 i Hi (H2 i Hi)) as (A & _). rewrite A. apply H2. exact Hi.
Qed.

Lemma involution_lemma r p1 p2 p3 : built_ring 2 r -> fits r p1 -> fits r p2 -> fits r p3 ->
  forall i j, (i < length (rmods r))%nat -> (j < rN r)%nat -> coeff (BitReverse r (BitReverse r p1 p2) p3) i j = coeff p1 i j.
Proof.
  intros Hr _ (_ & H2) (_ & H3) i j Hi Hj. destruct (built_ring_wf 2 r ltac:(lia) Hr) as (L & Hw & _). pose proof (wfr_N _ _ _ Hw) as HN. pose proof (wfr_logN _ _ _ Hw) as HL.
  rewrite (reverse_at r L HN ltac:(lia) _ _ i j Hi (H3 i Hi) Hj). rewrite (reverse_at r L HN ltac:(lia)); [|exact Hi|apply H2; exact Hi|rewrite HN, bitrev_brvn; apply brvn_lt].
  rewrite !bitrev_brvn, brvn_invol by (rewrite <- HN; exact Hj). reflexivity.
Qed.

Lemma natural_lemma r L level B p out X : built_ring 2 r -> rN r = (2 ^ L)%nat -> rns_ntt r L level B p X -> S level = length (rmods r) -> fits r out ->
  forall i, (i <= level)%nat -> natural_row L (rmod r i) (B (mq (rmod r i))) (nth i (BitReverse r p out) []) X.
Proof.
  intros Hr HN (_ & _ & H) Hl Ho i Hi. destruct (built_L' r L Hr HN) as (_ & HL). destruct (fits_reverse r p out Hr Ho) as (_ & F).
  split; [rewrite <- HN; apply F; lia|]. intros j Hj. change (nth j (nth i (BitReverse r p out) []) 0) with (coeff (BitReverse r p out) i j).
  rewrite (reverse_at r L HN ltac:(lia) p out i j ltac:(lia) (proj2 Ho i ltac:(lia)) ltac:(lia)).
  rewrite bitrev_brvn. destruct (H i Hi) as (_ & G). destruct (G (brvn L j) (brvn_lt L j)) as (G1 & G2). split; [exact G1|]. etransitivity; [exact G2|].
  unfold values, pt. rewrite bitrev_brvn, brvn_invol by exact Hj. reflexivity.
Qed.

Lemma back_lemma r L i B p out X : built_ring 2 r -> rN r = (2 ^ L)%nat -> (i < length (rmods r))%nat -> natural_row L (rmod r i) B (nth i p []) X -> length (nth i out []) = rN r ->
  ntt_repr L (rmod r i) B (nth i (BitReverse r p out) []) X.
Proof.
  intros Hr HN Hi (_ & H) Ho. destruct (built_L' r L Hr HN) as (_ & HL).
  destruct (reverse_row r L HN ltac:(lia) p out i Hi ltac:(lia)) as (A & _). split; [rewrite A, Ho; exact HN|]. intros k Hk.
  change (nth k (nth i (BitReverse r p out) []) 0) with (coeff (BitReverse r p out) i k). rewrite (reverse_at r L HN ltac:(lia) p out i k Hi ltac:(lia) ltac:(lia)).
  rewrite bitrev_brvn. destruct (H (brvn L k) (brvn_lt L k)) as (G1 & G2). split; [exact G1|]. etransitivity; [exact G2|]. unfold values, pt. rewrite bitrev_brvn. reflexivity.
Qed.

(** ** Rotations *)
Lemma rotate_raw r p n p2 : built_ring 2 r -> word_rows r p -> forall i, (i < length (rmods r))%nat ->
  let out := fst (Rotate r p n p2) in let m := rmod r i in let e := Z.max 0 (rotate_exponent (rN r) n) in
  length (nth i out []) = length (nth i p []) /\ coeff out i 0 = coeff p i 0 /\ (forall k, (rN r <= k)%nat -> coeff out i k = coeff p i k) /\
  forall j, (0 < j < rN r)%nat -> 0 <= coeff out i j < mq m /\ eqm (mq m) (coeff out i j) (coeff p i j * psi_of m ^ (2 * e * Z.of_nat j)).
Proof.
  intros Hr ((H1 & H2) & H3) i Hi out m e. unfold out, Rotate, coeff. cbn [fst]. rewrite lvl_nth_lt by exact Hi. unfold prow.
  destruct (built_mod 2 r i ltac:(lia) Hr Hi) as (Q5 & Q2 & Qo & Eb & Ei & Hinv). destruct (modp_mont 2 r i ltac:(lia) Hr Hi) as (M1 & M2).
  apply (rotate_row_spec (rN r) (rmod r i) (rotate_exponent (rN r) n) (nth i p []) (psi_of (rmod r i))); try assumption; [apply H2; exact Hi|].
  intros k Hk. apply (H3 i k Hi Hk).
Qed.

Lemma psi_order r L i : built_ring 2 r -> rN r = (2 ^ L)%nat -> (i < length (rmods r))%nat -> forall c, 0 <= c -> eqm (mq (rmod r i)) (psi_of (rmod r i) ^ (2 * Z.of_nat (rN r) * c)) 1.
Proof.
  intros Hr HN Hi c Hc. destruct (built_L' r L Hr HN) as (Hw & _). pose proof (wf_psi _ _ (wf_ring_mod _ _ _ i Hw Hi)) as P.
  rewrite HN, two_pow_nat. replace (2 * 2 ^ Z.of_nat L * c) with (2 ^ Z.of_nat L * (2 * c)) by ring. rewrite Z.pow_mul_r by lia.
  etransitivity; [apply (eqm_pow _ _ _ _ P)|]. rewrite Z.pow_mul_r by lia. change ((-1) ^ 2) with 1. rewrite Z.pow_1_l by lia. reflexivity.
Qed.

Lemma small_pow N : (1 <= N)%nat -> forall L, N = (2 ^ L)%nat -> exists c, 0 <= c /\ 2 ^ Z.of_nat N = Z.of_nat N * c.
Proof.
  intros HN L E. assert (HL : (L <= N)%nat). { rewrite E. pose proof (Nat.pow_gt_lin_r 2 L ltac:(lia)). lia. }
  exists (2 ^ Z.of_nat (N - L)). split; [apply Z.pow_nonneg; lia|]. rewrite E at 2. rewrite two_pow_nat, <- Z.pow_add_r by lia. f_equal. lia.
Qed.

(** Rotation by n: a positive power on any ring, any power on the rings of degree 16 and 32. *)
Lemma rotate_lemma r p n p2 : built_ring 2 r -> word_rows r p -> 0 <= n ->
  forall i, (i < length (rmods r))%nat -> let out := fst (Rotate r p n p2) in let m := rmod r i in
  length (nth i out []) = length (nth i p []) /\ coeff out i 0 = coeff p i 0 /\ (forall k, (rN r <= k)%nat -> coeff out i k = coeff p i k) /\
  forall j, (0 < j < rN r)%nat -> 0 <= coeff out i j < mq m /\ eqm (mq m) (coeff out i j) (coeff p i j * psi_of m ^ (2 * n * Z.of_nat j)).
Proof.
  intros Hr Hp Hn i Hi out m. destruct (rotate_raw r p n p2 Hr Hp i Hi) as (A & B & C & D). split; [exact A|]. split; [exact B|]. split; [exact C|].
  intros j Hj. destruct (D j Hj) as (D1 & D2). split; [exact D1|]. etransitivity; [exact D2|]. apply eqm_mul; [reflexivity|]. fold m.
  destruct (built_ring_wf 2 r ltac:(lia) Hr) as (L & Hw & _). pose proof (wfr_N _ _ _ Hw) as HN.
  destruct (Nat.le_gt_cases 64 (rN r)) as [Hl|Hl].
  - rewrite exponent_large by exact Hl. rewrite Z.max_r by lia. reflexivity.
  - assert (HL5 : (L <= 5)%nat). { rewrite HN in Hl. change 64%nat with (2 ^ 6)%nat in Hl. apply Nat.pow_lt_mono_r_iff in Hl; lia. }
    assert (H62 : (rN r <= 62)%nat). { rewrite HN. apply (Nat.le_trans _ (2 ^ 5)); [apply Nat.pow_le_mono_r; lia|cbn; lia]. }
    rewrite exponent_small by exact H62. destruct (small_pow (rN r) ltac:(rewrite HN; pose proof (Nat.pow_nonzero 2 L); lia) L HN) as (c & Hc & Ec). rewrite Ec.
    pose proof (psi_order r L i Hr HN Hi) as PO. fold m in PO. 
    assert (HM : 0 < Z.of_nat (rN r) * c) by (rewrite <- Ec; apply Z.pow_pos_nonneg; lia).
    set (M := Z.of_nat (rN r) * c) in *. pose proof (Z.div_mod n M ltac:(lia)) as E. pose proof (Z.mod_pos_bound n M HM) as Hb. pose proof (Z.div_pos n M Hn HM) as Hd.
    rewrite Z.max_r by lia. set (t := n / M) in *. set (s := n mod M) in *. clearbody t s. rewrite E.
    replace (2 * (M * t + s) * Z.of_nat j) with (2 * Z.of_nat (rN r) * (c * t * Z.of_nat j) + 2 * s * Z.of_nat j) by (unfold M; ring).
    assert (0 <= c * t * Z.of_nat j) by (apply Z.mul_nonneg_nonneg; [apply Z.mul_nonneg_nonneg; assumption|lia]).
    assert (0 <= 2 * s * Z.of_nat j) by (apply Z.mul_nonneg_nonneg; [clear - Hb; lia|clear; lia]).
    rewrite Z.pow_add_r by first [assumption|apply Z.mul_nonneg_nonneg; [clear; lia|assumption]]. etransitivity; [|apply eqm_mul; [symmetry; apply PO; assumption|reflexivity]]. rewrite Z.mul_1_l. reflexivity.
Qed.

Lemma rotate_negative_small_lemma r p n p2 : built_ring 2 r -> word_rows r p -> (rN r < 64)%nat -> n < 0 ->
  forall i j, (i < length (rmods r))%nat -> (0 < j < rN r)%nat -> let out := fst (Rotate r p n p2) in let m := rmod r i in
  0 <= coeff out i j < mq m /\ eqm (mq m) (coeff out i j * psi_of m ^ (2 * - n * Z.of_nat j)) (coeff p i j).
Proof.
  intros Hr Hp Hl Hn i j Hi Hj out m. destruct (rotate_raw r p n p2 Hr Hp i Hi) as (_ & _ & _ & D). destruct (D j Hj) as (D1 & D2). fold m out in D1, D2. split; [exact D1|].
  etransitivity; [apply eqm_mul; [exact D2|reflexivity]|].
  destruct (built_ring_wf 2 r ltac:(lia) Hr) as (L & Hw & _). pose proof (wfr_N _ _ _ Hw) as HN.
  assert (HL5 : (L <= 5)%nat). { rewrite HN in Hl. change 64%nat with (2 ^ 6)%nat in Hl. apply Nat.pow_lt_mono_r_iff in Hl; lia. }
  assert (H62 : (rN r <= 62)%nat). { rewrite HN. apply (Nat.le_trans _ (2 ^ 5)); [apply Nat.pow_le_mono_r; lia|cbn; lia]. }
  rewrite exponent_small by exact H62. destruct (small_pow (rN r) ltac:(rewrite HN; pose proof (Nat.pow_nonzero 2 L); lia) L HN) as (c & Hc & Ec). rewrite Ec.
  pose proof (psi_order r L i Hr HN Hi) as PO. fold m in PO.
  assert (HM : 0 < Z.of_nat (rN r) * c) by (rewrite <- Ec; apply Z.pow_pos_nonneg; lia).
  set (M := Z.of_nat (rN r) * c) in *. pose proof (Z.div_mod n M ltac:(lia)) as E. pose proof (Z.mod_pos_bound n M HM) as Hb. assert (Hd : n / M < 0) by (apply Z.div_lt_upper_bound; lia).
  rewrite Z.max_r by lia. set (t := n / M) in *. set (s := n mod M) in *. clearbody t s.
  assert (0 <= c * - t * Z.of_nat j) by (apply Z.mul_nonneg_nonneg; [apply Z.mul_nonneg_nonneg; lia|lia]).
  assert (H1 : 0 <= 2 * s * Z.of_nat j) by (apply Z.mul_nonneg_nonneg; [clear - Hb; lia|clear; lia]). assert (H2 : 0 <= 2 * - n * Z.of_nat j) by (apply Z.mul_nonneg_nonneg; [clear - Hn; lia|clear; lia]).
  rewrite <- Z.mul_assoc, <- Z.pow_add_r by assumption.
  replace (2 * s * Z.of_nat j + 2 * - n * Z.of_nat j) with (2 * Z.of_nat (rN r) * (c * - t * Z.of_nat j)) by (rewrite E; unfold M; ring).
  etransitivity; [apply eqm_mul; [reflexivity|apply PO; assumption]|]. rewrite Z.mul_1_r. reflexivity.
Qed.

Lemma rotate_negative_large_lemma r p n p2 : built_ring 2 r -> word_rows r p -> (64 <= rN r)%nat -> n < 0 ->
  forall i j, (i < length (rmods r))%nat -> (j < rN r)%nat -> eqm (mq (rmod r i)) (coeff (fst (Rotate r p n p2)) i j) (coeff p i j).
Proof.
  intros Hr Hp Hl Hn i j Hi Hj. destruct (rotate_raw r p n p2 Hr Hp i Hi) as (_ & B & _ & D). destruct (Nat.eq_dec j 0) as [->|Hj0]; [rewrite B; reflexivity|].
  destruct (D j ltac:(lia)) as (_ & D2). etransitivity; [exact D2|]. rewrite exponent_large by exact Hl. rewrite Z.max_l by lia. cbn [Z.mul]. rewrite Z.pow_0_r, Z.mul_1_r. reflexivity.
Qed.

Lemma rotate_monomial_lemma r L p n p2 : built_ring 2 r -> rN r = (2 ^ L)%nat -> word_rows r p -> 0 <= n -> forall i X, (i < length (rmods r))%nat ->
  let m := rmod r i in natural_row L m (mq m) (nth i p []) X ->
  exists Y, peq (rN r) (mq m) (pscale (psi_of m ^ n) Y) (pmul (rN r) (pmono (rN r) (Z.to_nat n)) X) /\
    natural_row L m (mq m) (nth i (fst (Rotate r p n p2)) []) Y.
Proof.
  intros Hr HN Hp Hn i X Hi m (Hx1 & Hx2). destruct (rotate_lemma r p n p2 Hr Hp Hn i Hi) as (A & B & _ & D). fold m in D. set (out := fst (Rotate r p n p2)) in *. clearbody out.
  destruct (built_L' r L Hr HN) as (Hw & HL). pose proof (wf_ring_mod _ _ _ i Hw Hi) as Hm. fold m in Hm. pose proof (wf_psiInv _ _ Hm) as PI. pose proof (wf_psi _ _ Hm) as P. pose proof (wf_ge _ _ Hm) as H5.
  rewrite HN in *. set (N := (2 ^ L)%nat) in *. set (Y0 := pmul N (pmono N (Z.to_nat n)) X). exists (pscale (psiInv_of m ^ n) Y0).
  assert (HN1 : (1 < N)%nat). { unfold N. apply (Nat.lt_le_trans _ (2 ^ 4)); [cbn; lia|apply Nat.pow_le_mono_r; lia]. }
  assert (PIn : eqm (mq m) (psi_of m ^ n * psiInv_of m ^ n) 1).
  { rewrite <- Z.pow_mul_l. etransitivity; [apply (eqm_pow _ _ _ _ PI)|]. rewrite Z.pow_1_l by lia. reflexivity. }
  split.
  { intros k Hk. unfold pscale. rewrite Z.mul_assoc. etransitivity; [apply eqm_mul; [exact PIn|reflexivity]|]. rewrite Z.mul_1_l. reflexivity. }
  assert (PS : forall c Z0 x, peval N (pscale c Z0) x = c * peval N Z0 x).
  { intros c Z0 x. unfold peval, pscale. rewrite <- bigsum_scale. apply bigsum_ext. intros. ring. }
  split; [rewrite A; exact Hx1|]. intros j Hj. change (nth j (nth i out []) 0) with (coeff out i j). set (x := psi_of m ^ (2 * Z.of_nat j + 1)) in *.
  assert (Hroot : eqm (mq m) (x ^ Z.of_nat N) (-1)).
  { unfold x. rewrite <- Z.pow_mul_r by lia. unfold N. rewrite two_pow_nat. rewrite Z.mul_comm, Z.pow_mul_r by lia. etransitivity; [apply (eqm_pow _ _ _ _ P)|].
    rewrite Z.pow_add_r, Z.pow_mul_r by lia. change ((-1) ^ 2) with 1. rewrite Z.pow_1_l by lia. reflexivity. }
  assert (EV : eqm (mq m) (peval N (pscale (psiInv_of m ^ n) Y0) x) (psi_of m ^ (2 * n * Z.of_nat j) * peval N X x)).
  { rewrite PS. etransitivity; [apply eqm_mul; [reflexivity|apply peval_mul; [lia|exact Hroot]]|].
    etransitivity; [apply eqm_mul; [reflexivity|apply eqm_mul; [apply peval_pmono; [exact HN1|exact Hroot]|reflexivity]]|].
    rewrite Z2Nat.id by exact Hn. rewrite Z.mul_assoc. apply eqm_mul; [|reflexivity]. unfold x. rewrite <- Z.pow_mul_r by (clear - Hn; lia).
    replace ((2 * Z.of_nat j + 1) * n) with (n + 2 * n * Z.of_nat j) by ring. assert (0 <= 2 * n * Z.of_nat j) by (apply Z.mul_nonneg_nonneg; [clear - Hn; lia|clear; lia]).
    rewrite Z.pow_add_r by assumption. rewrite Z.mul_assoc. etransitivity; [apply eqm_mul; [rewrite Z.mul_comm; exact PIn|reflexivity]|]. rewrite Z.mul_1_l. reflexivity. }
  destruct (Hx2 j Hj) as (X1 & X2). change (nth j (nth i p []) 0) with (coeff p i j) in X1, X2.
  destruct (Nat.eq_dec j 0) as [->|Hj0].
  - rewrite B. split; [exact X1|]. etransitivity; [exact X2|]. symmetry. etransitivity; [exact EV|]. rewrite Z.mul_0_r, Z.pow_0_r, Z.mul_1_l. reflexivity.
  - destruct (D j ltac:(clear - Hj Hj0; unfold N; lia)) as (D1 & D2). split; [exact D1|]. etransitivity; [exact D2|]. symmetry. etransitivity; [exact EV|]. rewrite Z.mul_comm. apply eqm_mul; [symmetry; exact X2|reflexivity].
Qed.

(** ** The shift of values *)
Lemma peval_point N q a x y : eqm q x y -> eqm q (peval N a x) (peval N a y).
Proof. intros H. unfold peval. apply bigsum_eqm. intros i Hi. apply eqm_mul; [reflexivity|apply eqm_pow; exact H]. Qed.
Lemma peval_twist N a w x : peval N (fun k => a k * w ^ Z.of_nat k) x = peval N a (w * x).
Proof. unfold peval. apply bigsum_ext. intros k Hk. rewrite Z.pow_mul_l. ring. Qed.

Lemma galois_shift_lemma r level p n t1 t2 t3 t4 t5 : built_ring 8 r -> S level = length (rmods r) -> words r level canon p -> sized r t1 -> sized r t5 -> 0 <= n ->
  forall i j, (i <= level)%nat -> (j < rN r)%nat ->
  coeff (BitReverse r (NTTLvl r level (fst (Rotate r (InvNTTLvl r level (BitReverse r p t1) t2) n t3)) t4) t5) i j = coeff p i ((j + Z.to_nat n) mod rN r).
Proof.
  intros Hr Hl Hp (S1 & S2) (S3 & S4) Hn i j Hi Hj.
  assert (H2 : built_ring 2 r) by (apply (built_weaken 8); [lia|exact Hr]).
  destruct (built_ring_wf 8 r ltac:(lia) Hr) as (L & Hw & H8). assert (HN := wfr_N _ _ _ Hw). assert (HL := wfr_logN _ _ _ Hw).
  set (u := BitReverse r p t1). set (a := InvNTTLvl r level u t2). set (b := fst (Rotate r a n t3)).
  assert (Hu : forall i, (i <= level)%nat -> length (nth i u []) = rN r /\ forall k, (k < rN r)%nat -> coeff u i k = coeff p i (bitrev L k)).
  { intros i0 Hi0. pose proof (S2 i0 ltac:(lia)) as E. split.
    - destruct (reverse_row r L HN ltac:(lia) p t1 i0 ltac:(lia) ltac:(lia)) as (A & _). unfold u. rewrite A. exact E.
    - intros k Hk. apply (reverse_at r L HN); lia. }
  assert (Hbr : forall k, (bitrev L k < rN r)%nat) by (intros k; rewrite bitrev_brvn, HN; apply brvn_lt).
  assert (Hrow : forall i, (i <= level)%nat -> let m := rmod r i in
     let X := co (invntt_row (2 ^ L) m (nth i u [])) in ntt_repr L m (2 * mq m) (nth i u []) X /\ row_repr (2 ^ L) (mq m) (mq m) (nth i a []) X).
  { intros i0 Hi0 m X. assert (Hwf := wf_ring_mod _ _ _ i0 Hw ltac:(lia)). assert (G := wf_ge _ _ Hwf). specialize (H8 i0 ltac:(lia)). destruct (Hu i0 Hi0) as (U1 & U2). fold m in Hwf, G, H8. assert (H6 : 6 * mq m <= W) by (clear - H8 G; lia).
    assert (HX : ntt_repr L m (2 * mq m) (nth i0 u []) X).
    { apply ntt_repr_exists; [lia|exact Hwf|exact H6|rewrite <- HN; exact U1|]. apply (row_repr_below (rN r) (mq m) _ _ (co (nth i0 u []))). split; [exact U1|]. intros k Hk.
      split; [|reflexivity]. change (nth k (nth i0 u []) 0) with (coeff u i0 k). rewrite U2 by exact Hk. destruct Hp as (_ & Hp). destruct (Hp i0 Hi0) as (_ & P). specialize (P _ (Hbr k)). unfold canon in P. fold m in P. lia. }
    split; [exact HX|]. unfold a, InvNTTLvl. rewrite lvl_nth_lt by lia. rewrite HN. apply invntt_row_repr; [lia|exact Hwf|exact H6|exact HX]. }
  assert (Ha : word_rows r a).
  { split; [split; [unfold a, InvNTTLvl; rewrite lvl_length; lia|]|].
    - intros i0 Hi0. destruct (Hrow i0 ltac:(lia)) as (_ & (E & _)). rewrite E, HN. apply le_n.
    - intros i0 k Hi0 Hk. destruct (Hrow i0 ltac:(lia)) as (_ & (_ & E)). specialize (E k ltac:(lia)). specialize (H8 i0 Hi0). assert (Hwf := wf_ring_mod _ _ _ i0 Hw Hi0). assert (G := wf_ge _ _ Hwf). unfold coeff. lia. }
  destruct (rotate_lemma r a n t3 H2 Ha Hn i ltac:(lia)) as (B1 & B2 & _ & B3). fold b in B1, B2, B3.
  destruct (Hrow i Hi) as (X1 & X2). set (m := rmod r i) in *. set (X := co (invntt_row (2 ^ L) m (nth i u []))) in *. clearbody X.
  assert (Hwf := wf_ring_mod _ _ _ i Hw ltac:(lia)). fold m in Hwf. assert (G := wf_ge _ _ Hwf). specialize (H8 i ltac:(lia)). fold m in H8.
  set (w := psi_of m ^ (2 * n)).
  assert (Y : row_repr (2 ^ L) (mq m) (mq m) (nth i b []) (fun k => X k * w ^ Z.of_nat k)).
  { split; [rewrite B1; apply X2|]. intros k Hk. destruct (proj2 X2 k Hk) as (X3 & X4). change (nth k (nth i b []) 0) with (coeff b i k).
    destruct (Nat.eq_dec k 0) as [->|Hk0].
    - rewrite B2. split; [exact X3|]. cbn [Z.of_nat]. rewrite Z.pow_0_r, Z.mul_1_r. exact X4.
    - destruct (B3 k ltac:(lia)) as (B4 & B5). split; [exact B4|]. etransitivity; [exact B5|]. apply eqm_mul; [exact X4|]. unfold w. rewrite <- Z.pow_mul_r by lia. reflexivity. }
  assert (F := ntt_row_repr L m ltac:(lia) Hwf (mq m) _ _ ltac:(lia) H8 Y).
  rewrite (reverse_at r L HN ltac:(lia) _ t5 i j ltac:(lia) ltac:(rewrite (S4 i ltac:(lia)); apply le_n) Hj).
  unfold coeff at 1. unfold NTTLvl. rewrite lvl_nth_lt by lia. rewrite HN. fold m. unfold prow.
  rewrite (row_repr_nth _ (mq m) _ _ (bitrev L j) ltac:(lia) F ltac:(rewrite <- HN; apply Hbr)).
  unfold values, pt. rewrite peval_twist. rewrite HN in Hj. rewrite (bitrev_brvn L (bitrev L j)), (bitrev_brvn L j), brvn_invol by exact Hj.
  set (N := (2 ^ L)%nat) in *. set (j' := ((j + Z.to_nat n) mod N)%nat).
  pose proof (Hbr j') as Hbj.
  assert (Hj' : (j' < N)%nat) by (apply Nat.mod_upper_bound; unfold N; apply Nat.pow_nonzero; lia).
  destruct (proj2 X1 (bitrev L j') ltac:(fold N; rewrite <- HN; apply Hbr)) as (_ & X5). change (nth (bitrev L j') (nth i u []) 0) with (coeff u i (bitrev L j')) in X5.
  rewrite (proj2 (Hu i Hi)) in X5 by apply Hbr. unfold values, pt in X5. rewrite (bitrev_brvn L (bitrev L j')), (bitrev_brvn L j'), brvn_invol in X5 by exact Hj'.
  assert (P : 0 <= coeff p i j' < mq m). { destruct Hp as (_ & Hp). apply (Hp i Hi). rewrite HN. exact Hj'. }
  rewrite <- (Z.mod_small (coeff p i j') (mq m) P). symmetry. change (eqm (mq m) (coeff p i j') (peval N X (w * psi_of m ^ (2 * Z.of_nat j + 1)))).
  etransitivity; [exact X5|]. apply peval_point. unfold w. rewrite <- Z.pow_add_r by (clear - Hn; lia).
  pose proof (Nat.div_mod (j + Z.to_nat n) N ltac:(unfold N; apply Nat.pow_nonzero; lia)) as E. fold j' in E. set (t := ((j + Z.to_nat n) / N)%nat) in *. clearbody t j'.
  replace (2 * n + (2 * Z.of_nat j + 1)) with (2 * Z.of_nat (rN r) * Z.of_nat t + (2 * Z.of_nat j' + 1)) by (rewrite HN; clear - E Hn; nia).
  rewrite (Z.pow_add_r _ (2 * Z.of_nat (rN r) * Z.of_nat t)) by (clear; nia). pose proof (psi_order r L i H2 HN ltac:(clear - Hl Hi; lia) (Z.of_nat t) ltac:(clear; lia)) as PO. fold m in PO.
  etransitivity; [|apply eqm_mul; [symmetry; exact PO|reflexivity]]. rewrite Z.mul_1_l. reflexivity.
Qed.

(** ** Export *)
Opaque gen_modp.
Lemma sequence_moduli fuel R ms : forall l, sequence (map (gen_modp fuel R) ms) = Some l -> map mq l = ms.
Proof.
  induction ms as [|q ms IH]; intros l H; cbn [map sequence] in H; [injection H as <-; reflexivity|].
  destruct (gen_modp fuel R q) as [m|] eqn:E; [|discriminate]. destruct (sequence (map (gen_modp fuel R) ms)) as [t|] eqn:Et; [|discriminate]. injection H as <-. cbn [map]. rewrite (gen_modp_mq _ _ _ _ E), (IH t eq_refl). reflexivity.
Qed.
Lemma marshal_custom fuel N ms R r : NewRingWithCustomNTT fuel N ms R = inl r -> MarshalBinary r = mkRingParams N R ms.
Proof.
  intros H. destruct (custom_inv fuel N ms R r H) as ((HN & _) & mps & ES & ->). unfold MarshalBinary, moduli. cbn [rN rNthRoot rmods]. rewrite (sequence_moduli _ _ _ _ ES), Z2Nat.id by lia. reflexivity.
Qed.
Lemma from_type_inv fuel N ms t o : NewRingFromType fuel N ms t = inl o ->
  exists r R, o = mkObj (Some r) (Some t) /\ NewRingWithCustomNTT fuel N ms R = inl r /\ R = (match t with Standard => 2 | ConjugateInvariant => 4 end) * N /\ 1 <= R.
Proof.
  unfold NewRingFromType, NewRing, NewRingConjugateInvariant. intros H.
  assert (G : forall R r, NewRingWithCustomNTT fuel N ms R = inl r -> 16 <= N). { intros R r E. apply (custom_inv fuel N ms R r E). }
  destruct t; [destruct (NewRingWithCustomNTT fuel N ms (2 * N)) as [r|] eqn:E; [|discriminate]|destruct (NewRingWithCustomNTT fuel N ms (4 * N)) as [r|] eqn:E; [|discriminate]];
    injection H as <-; exists r; eexists; (split; [reflexivity|]); (split; [exact E|]); (split; [reflexivity|]); specialize (G _ _ E); lia.
Qed.
Lemma unmarshal_done fuel N ms R r o' : 1 <= R -> NewRingWithCustomNTT fuel N ms R = inl r -> UnmarshalBinary fuel o' (mkRingParams N R ms) = Done (mkObj (Some r) (ro_ntt o')).
Proof. intros HR E. unfold UnmarshalBinary. cbn [pN pModulus pNthRoot]. rewrite E. destruct (Z.ltb_spec R 1); [lia|reflexivity]. Qed.
Lemma round_trip_lemma fuel N ms t o : NewRingFromType fuel N ms t = inl o ->
  exists r, ro_ring o = Some r /\ forall o', UnmarshalBinary fuel o' (MarshalBinary r) = Done (mkObj (Some r) (ro_ntt o')).
Proof.
  intros H. destruct (from_type_inv fuel N ms t o H) as (r & R & -> & E & _ & HR). exists r. split; [reflexivity|]. intros o'. rewrite (marshal_custom _ _ _ _ _ E). apply unmarshal_done; assumption.
Qed.
Lemma faithful_lemma f N ms t o f' N' ms' t' o' r r' : NewRingFromType f N ms t = inl o -> NewRingFromType f' N' ms' t' = inl o' ->
  ro_ring o = Some r -> ro_ring o' = Some r' -> MarshalBinary r = MarshalBinary r' -> o = o'.
Proof.
  intros H H' E1 E2 EM. destruct (from_type_inv _ _ _ _ _ H) as (q & R & -> & E & ER & HR). destruct (from_type_inv _ _ _ _ _ H') as (q' & R' & -> & E' & ER' & HR').
  cbn [ro_ring] in E1, E2. injection E1 as ->. injection E2 as ->. rewrite (marshal_custom _ _ _ _ _ E), (marshal_custom _ _ _ _ _ E') in EM. injection EM as -> -> ->.
  destruct (custom_inv _ _ _ _ _ E) as ((HN & _) & mps & ES & ->). destruct (custom_inv _ _ _ _ _ E') as (_ & mps' & ES' & ->). rewrite (gen_all_unique _ _ _ _ _ _ ES ES').
  f_equal. f_equal. destruct t, t'; try reflexivity; lia.
Qed.
Lemma fresh_lemma fuel N ms t o : NewRingFromType fuel N ms t = inl o ->
  exists r o', ro_ring o = Some r /\ UnmarshalBinary fuel new_ring (MarshalBinary r) = Done o' /\ ro_ring o' = Some r /\
    Type_ o = Done t /\ Type_ o' = Panicked /\ forall p1 p2, ObjNTT o' p1 p2 = Panicked.
Proof.
  intros H. destruct (round_trip_lemma fuel N ms t o H) as (r & Er & U). exists r, (mkObj (Some r) None). split; [exact Er|]. split; [exact (U new_ring)|].
  split; [reflexivity|]. split; [|split; [reflexivity|reflexivity]]. destruct (from_type_inv _ _ _ _ _ H) as (q & R & -> & _). reflexivity.
Qed.

(** ** A concrete case *)
Lemma unmarshal_type_lemma : exists o r o' p1 p2, NewRingFromType 1000 16 [193; 257; 449] ConjugateInvariant = inl o /\ ro_ring o = Some r /\
  UnmarshalBinary 1000 (mkObj None (Some Standard)) (MarshalBinary r) = Done o' /\ Type_ o' = Done Standard /\ ObjNTT o' p1 p2 <> ObjNTT o p1 p2.
Proof.
  assert (E : NewRingFromType 1000 16 [193; 257; 449] ConjugateInvariant = inl (mkObj (Some ci16) (Some ConjugateInvariant))) by (vm_compute; reflexivity).
  destruct (round_trip_lemma _ _ _ _ _ E) as (r & Er & U). cbn [ro_ring] in Er. injection Er as <-.
  exists (mkObj (Some ci16) (Some ConjugateInvariant)), ci16, (mkObj (Some ci16) (Some Standard)), ci_a, (blank 16).
  split; [exact E|]. split; [reflexivity|]. split; [exact (U _)|]. split; [reflexivity|]. vm_compute. discriminate.
Qed.

Lemma words_check r p : (length (rmods r) <= length p)%nat -> forallb (fun i => Nat.leb (rN r) (length (nth i p [])) && forallb (fun k => (0 <=? coeff p i k) && (coeff p i k <? W)) (seq 0 (rN r))) (seq 0 (length (rmods r))) = true -> word_rows r p.
Proof.
  intros HL H. rewrite forallb_forall in H.
  assert (G : forall i, (i < length (rmods r))%nat -> (rN r <= length (nth i p []))%nat /\ forall k, (k < rN r)%nat -> 0 <= coeff p i k < W).
  { intros i Hi. specialize (H i ltac:(apply in_seq; lia)). apply andb_prop in H. destruct H as (H1 & H2). apply Nat.leb_le in H1. rewrite forallb_forall in H2. split; [exact H1|].
    intros k Hk. specialize (H2 k ltac:(apply in_seq; lia)). apply andb_prop in H2. destruct H2 as (H2 & H3). apply Z.leb_le in H2. apply Z.ltb_lt in H3. lia. }
  split; [split; [exact HL|]; intros i Hi; apply G; exact Hi|]. intros i k Hi Hk. apply G; assumption.
Qed.
Lemma ci_a_words : word_rows ringP16 ci_a.
Proof. apply words_check; [vm_compute; repeat constructor|vm_compute; reflexivity]. Qed.
Lemma blank_words : word_rows ringP16 (blank 16).
Proof. apply words_check; [vm_compute; repeat constructor|vm_compute; reflexivity]. Qed.
Lemma rotate_destination_lemma : exists r p n p2, built_ring 8 r /\ word_rows r p /\ word_rows r p2 /\ 0 <= n /\
  snd (Rotate r p n p2) = p2 /\ fst (Rotate r p n p2) <> p /\ fst (Rotate r p n p2) <> p2.
Proof.
  exists ringP16, ci_a, 3, (blank 16). split; [exact ringP16_built|]. split; [exact ci_a_words|]. split; [exact blank_words|]. split; [lia|]. split; [reflexivity|].
  split; vm_compute; discriminate.
Qed.
