(** float64 and fixed point: the accuracy of the encoder's conversions. *)
From Coq Require Import ZArith Reals Lra Lia List.
From Flocq Require Import Core.Core IEEE754.BinarySingleNaN.
From Flocq.Prop Require Import Relative.
From Verif Require Import Word ModRed ModRedProofs Arith RingProofs Ring RingOps Float64 FloatProofs Ckks CkksSpec CkksFloat Encoder EncSpec.
Open Scope Z_scope.
Open Scope R_scope.

Notation big := (bpow radix2 1000).
Lemma big_Z : IZR (2 ^ 1000) = big.
Proof. apply (IZR_Zpower radix2 1000). discriminate. Qed.
Lemma rnd_gen x y : generic_format radix2 (SpecFloat.fexp prec64 emax64) y -> x <= y -> rnd x <= y.
Proof. intros G H. rewrite <- (round_generic radix2 (SpecFloat.fexp prec64 emax64) (round_mode mode_NE) y) by exact G. apply rnd_le. exact H. Qed.
Lemma rnd_gen' x y : generic_format radix2 (SpecFloat.fexp prec64 emax64) y -> y <= x -> y <= rnd x.
Proof. intros G H. rewrite <- (round_generic radix2 (SpecFloat.fexp prec64 emax64) (round_mode mode_NE) y) by exact G. apply rnd_le. exact H. Qed.
Lemma fmt_bpow e : (-1074 <= e <= 1024)%Z -> generic_format radix2 (SpecFloat.fexp prec64 emax64) (bpow radix2 e).
Proof.
  intros H. apply generic_format_bpow. unfold SpecFloat.fexp, SpecFloat.emin, prec64, emax64. lia.
Qed.
Lemma rnd_big x : Rabs x <= bpow radix2 1001 -> Rlt_bool (Rabs (rnd x)) (bpow radix2 emax64) = true.
Proof.
  intros H. apply Rlt_bool_true. apply Rle_lt_trans with (bpow radix2 1001).
  - apply abs_round_le_generic; try apply _; [|exact H]. apply fmt_bpow. lia.
  - apply bpow_lt. reflexivity.
Qed.
Lemma big_le_1001 : big <= bpow radix2 1001.
Proof. apply bpow_le. lia. Qed.
Lemma of_Z_big z : Rabs (IZR z) <= bpow radix2 1001 -> B2R (f64_of_Z z) = rnd (IZR z) /\ is_finite (f64_of_Z z) = true.
Proof.
  intros H. unfold f64_of_Z.
  assert (C := binary_normalize_correct prec64 emax64 prec64_gt_0 prec64_lt_emax mode_NE z 0 false).
  cbv zeta in C. replace (F2R (Float radix2 z 0)) with (IZR z) in C by (unfold F2R; simpl; lra).
  rewrite rnd_big in C by exact H. destruct C as (C1 & C2 & _). split; assumption.
Qed.
Lemma mul_big x y : is_finite x = true -> is_finite y = true -> Rabs (B2R x * B2R y) <= bpow radix2 1001 ->
  B2R (f64_mul x y) = rnd (B2R x * B2R y) /\ is_finite (f64_mul x y) = true.
Proof.
  intros Hx Hy H. unfold f64_mul. assert (C := Bmult_correct prec64 emax64 prec64_gt_0 prec64_lt_emax mode_NE x y).
  rewrite rnd_big in C by exact H. destruct C as (C1 & C2 & _). rewrite C2, Hx, Hy. split; [exact C1|reflexivity].
Qed.
Lemma sub_big x y : is_finite x = true -> is_finite y = true -> Rabs (B2R x - B2R y) <= bpow radix2 1001 ->
  B2R (f64_sub x y) = rnd (B2R x - B2R y) /\ is_finite (f64_sub x y) = true.
Proof.
  intros Hx Hy H. unfold f64_sub. assert (C := Bminus_correct prec64 emax64 prec64_gt_0 prec64_lt_emax mode_NE x y Hx Hy).
  rewrite rnd_big in C by exact H. destruct C as (C1 & C2 & _). split; assumption.
Qed.
Lemma add_big x y : is_finite x = true -> is_finite y = true -> Rabs (B2R x + B2R y) <= bpow radix2 1001 ->
  B2R (f64_add x y) = rnd (B2R x + B2R y) /\ is_finite (f64_add x y) = true.
Proof.
  intros Hx Hy H. unfold f64_add. assert (C := Bplus_correct prec64 emax64 prec64_gt_0 prec64_lt_emax mode_NE x y Hx Hy).
  rewrite rnd_big in C by exact H. destruct C as (C1 & C2 & _). split; assumption.
Qed.
Lemma div_big x y : is_finite x = true -> B2R y <> 0 -> Rabs (B2R x / B2R y) <= bpow radix2 1001 ->
  B2R (f64_div x y) = rnd (B2R x / B2R y) /\ is_finite (f64_div x y) = true.
Proof.
  intros Hx Hy H. unfold f64_div. assert (C := Bdiv_correct prec64 emax64 prec64_gt_0 prec64_lt_emax mode_NE x y Hy).
  rewrite rnd_big in C by exact H. destruct C as (C1 & C2 & _). rewrite C2. split; assumption.
Qed.

(** ** The integer of a value *)
Definition fixed_abs (x s : float64) : Z :=
  f64_trunc (f64_add (f64_mul x (if f64_lt x f64_zero then f64_opp s else s)) f64_half).
Definition fixed_int (x s : float64) : Z := if f64_lt x f64_zero then (- fixed_abs x s)%Z else fixed_abs x s.

Section Fixed.
  Variables (x s : float64).
  Hypothesis (Fx : is_finite x = true) (Fs : is_finite s = true) (Ps : 0 <= B2R s).
  Let v := B2R x * B2R s.
  Hypothesis Hb : Rabs v <= big.
  Let y := f64_mul x (if f64_lt x f64_zero then f64_opp s else s).

  Lemma fixed_prod : is_finite y = true /\ B2R y = rnd (Rabs v).
  Proof.
    unfold y. rewrite (lt_zero x Fx). pose proof big_le_1001. destruct (Rlt_bool_spec (B2R x) 0) as [N|N].
    - destruct (mul_big x (f64_opp s)) as [E2 F2]; [exact Fx|unfold f64_opp; rewrite is_finite_Bopp; exact Fs| |].
      + unfold f64_opp. rewrite B2R_Bopp. replace (B2R x * - B2R s) with (- v) by (unfold v; ring). rewrite Rabs_Ropp. lra.
      + split; [exact F2|]. rewrite E2. unfold f64_opp. rewrite B2R_Bopp. replace (B2R x * - B2R s) with (- v) by (unfold v; ring).
        f_equal. rewrite Rabs_left1; [reflexivity|]. unfold v. rewrite <- (Rmult_0_r (B2R x)). apply Rmult_le_compat_neg_l; lra.
    - destruct (mul_big x s Fx Fs) as [E2 F2]; [fold v; lra|]. split; [exact F2|]. rewrite E2. fold v.
      f_equal. rewrite Rabs_pos_eq; [reflexivity|]. unfold v. apply Rmult_le_pos; lra.
  Qed.
  Lemma fixed_prod_pos : 0 <= B2R y <= big.
  Proof.
    destruct fixed_prod as [_ ->]. split; [apply rnd_gen'; [apply generic_format_0|apply Rabs_pos]|apply rnd_gen; [apply fmt_bpow; lia|exact Hb]].
  Qed.
  Lemma fixed_sum : B2R (f64_add y f64_half) = rnd (B2R y + / 2) /\ 0 <= B2R (f64_add y f64_half).
  Proof.
    destruct half_val as [Fh Eh]. pose proof fixed_prod_pos as P. assert (B1 : 1 <= big) by (change 1 with (bpow radix2 0); apply bpow_le; lia).
    assert (E1001 : bpow radix2 1001 = 2 * big) by (change 1001%Z with (1 + 1000)%Z; rewrite bpow_plus; reflexivity).
    destruct (add_big y f64_half (proj1 fixed_prod) Fh) as [E3 F3]; [rewrite Eh, Rabs_pos_eq by lra; lra|]. rewrite Eh in E3.
    split; [exact E3|]. rewrite E3. apply rnd_gen'; [apply generic_format_0|lra].
  Qed.
  Lemma fixed_near : exists z, fixed_abs x s = Zfloor z /\ 0 <= z /\ Rabs (z - (Rabs v + / 2)) <= (Rabs v + 1) * bpow radix2 (-51).
  Proof.
    assert (A0 : 0 <= Rabs v) by apply Rabs_pos. pose proof fixed_prod_pos as P. destruct fixed_prod as [Fy Ey]. destruct fixed_sum as [E3 Z0].
    exists (B2R (f64_add y f64_half)). split; [apply trunc_correct; exact Z0|]. split; [exact Z0|].
    pose proof (rnd_abs_err (Rabs v)) as X1. pose proof (rnd_abs_err (B2R y + / 2)) as X2. rewrite <- E3 in X2. rewrite <- Ey in X1.
    rewrite Rabs_Rabsolu in X1. rewrite (Rabs_pos_eq (B2R y + / 2)) in X2 by lra.
    assert (T1000 : bpow radix2 (-1000) <= bpow radix2 (-60)) by (apply bpow_le; lia).
    assert (T60 : bpow radix2 (-60) = / IZR (2 ^ 60)) by reflexivity. change (IZR (2 ^ 60)) with 1152921504606846976 in T60.
    assert (T51 : bpow radix2 (-51) = / IZR (2 ^ 51)) by reflexivity. change (IZR (2 ^ 51)) with 2251799813685248 in T51.
    rewrite u64f_val in X1, X2. apply Rabs_le_inv in X1. apply Rabs_le_inv in X2. rewrite T51. apply Rabs_le. lra.
  Qed.
  Lemma fixed_accuracy : near_product x s (fixed_int x s).
  Proof.
    unfold near_product. fold v. replace (/ 2 ^ 51) with (bpow radix2 (-51)) by (rewrite (pow_IZR 2 51); reflexivity).
    destruct fixed_near as (z & E & Pz & Hz). unfold fixed_int. rewrite E. rewrite (lt_zero x Fx).
    apply Rabs_le_inv in Hz. pose proof (Zfloor_lb z) as L1. pose proof (Zfloor_ub z) as U1. pose proof (bpow_gt_0 radix2 (-51)).
    destruct (Rlt_bool_spec (B2R x) 0) as [N|N].
    - assert (Ev : Rabs v = - v) by (apply Rabs_left1; unfold v; rewrite <- (Rmult_0_r (B2R x)); apply Rmult_le_compat_neg_l; lra).
      rewrite Ev in *. rewrite opp_IZR. apply Rabs_le. lra.
    - assert (Ev : Rabs v = v) by (apply Rabs_pos_eq; unfold v; apply Rmult_le_pos; lra). rewrite Ev in *. apply Rabs_le. lra.
  Qed.
  Lemma fixed_abs_nonneg : (0 <= fixed_abs x s)%Z.
  Proof. destruct fixed_near as (z & -> & Pz & _). apply Zfloor_lub. exact Pz. Qed.

  (** Away from 2^64, the test of the code selects the values that are not words. *)
  Lemma fixed_word_range : Rabs v < IZR (2 ^ 64 - 2 ^ 12) \/ IZR (2 ^ 64 + 2 ^ 12) < Rabs v ->
    f64_lt f64_two64 y = false -> (fixed_abs x s < W)%Z.
  Proof.
    intros HV HL. destruct fixed_prod as [Fy Ey].
    assert (T : is_finite f64_two64 = true /\ B2R f64_two64 = IZR (2 ^ 64)).
    { unfold f64_two64. destruct (of_Z_big (2 ^ 64)) as [E F].
      - rewrite Rabs_pos_eq by (apply IZR_le; discriminate). change (IZR (2 ^ 64)) with (bpow radix2 64). apply bpow_le. lia.
      - split; [exact F|]. rewrite E. apply round_generic; [apply _|]. change (IZR (2 ^ 64)) with (bpow radix2 64). apply fmt_bpow. lia. }
    destruct T as [F2 E2]. unfold f64_lt in HL. rewrite Bltb_correct in HL by assumption. rewrite E2 in HL.
    destruct (Rlt_bool_spec (IZR (2 ^ 64)) (B2R y)) as [?|HY]; [discriminate|]. clear HL.
    assert (G1 : generic_format radix2 (SpecFloat.fexp prec64 emax64) (IZR (2 ^ 64 - 2 ^ 12))).
    { apply (generic_format_FLT radix2 (SpecFloat.emin prec64 emax64) prec64).
      apply (FLT_spec _ _ _ _ (Float radix2 (2 ^ 52 - 1) 12)); [unfold F2R; simpl; rewrite <- mult_IZR; reflexivity|reflexivity|vm_compute; discriminate]. }
    assert (G2 : generic_format radix2 (SpecFloat.fexp prec64 emax64) (IZR (2 ^ 64 + 2 ^ 12))).
    { apply (generic_format_FLT radix2 (SpecFloat.emin prec64 emax64) prec64).
      apply (FLT_spec _ _ _ _ (Float radix2 (2 ^ 52 + 1) 12)); [unfold F2R; simpl; rewrite <- mult_IZR; reflexivity|reflexivity|vm_compute; discriminate]. }
    assert (G3 : generic_format radix2 (SpecFloat.fexp prec64 emax64) (IZR (2 ^ 64 - 2 ^ 11))).
    { apply (generic_format_FLT radix2 (SpecFloat.emin prec64 emax64) prec64).
      apply (FLT_spec _ _ _ _ (Float radix2 (2 ^ 53 - 1) 11)); [unfold F2R; simpl; rewrite <- mult_IZR; reflexivity|reflexivity|vm_compute; discriminate]. }
    assert (HV' : Rabs v <= IZR (2 ^ 64 - 2 ^ 12)).
    { destruct HV as [HV|HV]; [lra|]. exfalso. assert (X : IZR (2 ^ 64 + 2 ^ 12) <= B2R y) by (rewrite Ey; apply rnd_gen'; [exact G2|lra]).
      apply (Rle_trans _ _ _ X) in HY. apply le_IZR in HY. apply HY. reflexivity. }
    assert (Y2 : B2R y <= IZR (2 ^ 64 - 2 ^ 12)) by (rewrite Ey; apply rnd_gen; assumption).
    destruct fixed_sum as [E3 Z0]. assert (S2 : B2R (f64_add y f64_half) <= IZR (2 ^ 64 - 2 ^ 11)).
    { rewrite E3. apply rnd_gen; [exact G3|]. apply Rle_trans with (IZR (2 ^ 64 - 2 ^ 12) + 1); [lra|]. rewrite <- plus_IZR. apply IZR_le. discriminate. }
    unfold fixed_abs. fold y. rewrite trunc_correct by exact Z0. apply Z.le_lt_trans with (2 ^ 64 - 2 ^ 11)%Z; [|reflexivity].
    apply le_IZR. apply Rle_trans with (2 := S2). apply Zfloor_lb.
  Qed.
End Fixed.

(** ** The words *)
Definition word_bound (q : Z) : Z := Z.max (q + 1) (2 ^ 61).
Lemma fixed_word_ok L m x s : wf_modp L m -> is_finite s = true -> 0 <= B2R s -> encodable x s ->
  (0 <= fixed_word x s m < word_bound (mq m))%Z /\ eqm (mq m) (fixed_word x s m) (fixed_int x s).
Proof.
  intros Hwf Fs Ps (Fx & Hb & HV). rewrite big_Z in Hb. pose proof (wf_ge L m Hwf) as G. pose proof (wf_W L m Hwf) as G2.
  pose proof (fixed_abs_nonneg x s Fx Fs Ps Hb) as P0. pose proof (fixed_word_range x s Fx Fs Ps Hb HV) as PW.
  unfold fixed_word, fixed_int. cbv zeta. rewrite (wf_bred L m Hwf). change (f64_trunc (f64_add (f64_mul x (if f64_lt x f64_zero then f64_opp s else s)) f64_half)) with (fixed_abs x s).
  set (c := fixed_abs x s) in *. clearbody c. set (q := mq m) in *. clearbody q. unfold word_bound.
  assert (SUB : forall t, (0 <= t <= q)%Z -> wsub q t = (q - t)%Z) by (intros t Ht; unfold wsub; apply w64_small; lia).
  destruct (f64_lt f64_two64 _) eqn:HL.
  - pose proof (Z.mod_pos_bound c q ltac:(lia)) as R. destruct (f64_lt x f64_zero).
    + rewrite SUB by lia. split; [lia|]. transitivity (- (c mod q))%Z; [apply (eqm_intro _ _ _ 1); ring|]. apply eqm_opp. apply eqm_mod.
    + split; [lia|apply eqm_mod].
  - specialize (PW eq_refl). assert (RED : BRedAdd c q (BRedParams q) = (c mod q)%Z) by (apply BRedAdd_correct; lia).
    pose proof (Z.mod_pos_bound c q ltac:(lia)) as R. destruct (f64_lt x f64_zero).
    + destruct (Z.ltb_spec q c).
      * rewrite RED, SUB by lia. split; [lia|]. transitivity (- (c mod q))%Z; [apply (eqm_intro _ _ _ 1); ring|]. apply eqm_opp. apply eqm_mod.
      * rewrite SUB by lia. split; [lia|]. apply (eqm_intro _ _ _ 1); ring.
    + destruct (Z.ltb_spec 0x1fffffffffffffff c).
      * rewrite RED. split; [lia|apply eqm_mod].
      * split; [lia|reflexivity].
Qed.
