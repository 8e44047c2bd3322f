(** The integers used for constants. *)
From Coq Require Import ZArith Reals Lra Lia List.
From Flocq Require Import Core.Core IEEE754.BinarySingleNaN.
From Flocq.Prop Require Import Relative.
From Verif Require Import Float64 FloatProofs Ckks CkksSpec.
Open Scope Z_scope.
Open Scope R_scope.

Lemma round_FIX0 (f : R -> Z) {V : Valid_rnd f} x : round radix2 (FIX_exp 0) f x = IZR (f x).
Proof. unfold round, F2R, scaled_mantissa, cexp, FIX_exp. simpl. rewrite !Rmult_1_r. reflexivity. Qed.

Lemma trunc_int x k : B2R x = IZR k -> f64_trunc x = k.
Proof.
  intros H. unfold f64_trunc. apply eq_IZR. rewrite (Btrunc_correct prec64 emax64 prec64_lt_emax). rewrite round_FIX0 by apply _. rewrite H, Ztrunc_IZR. reflexivity.
Qed.

Lemma of_Z_int k : (Z.abs k <= 2 ^ 53)%Z -> float_int (f64_of_Z k) k.
Proof.
  intros H. destruct (of_Z_correct k) as [E F]; [apply Z.le_trans with (1 := H); discriminate|]. split; [exact F|]. rewrite E. apply rnd_Z. exact H.
Qed.

Lemma mul_correct x y : is_finite x = true -> is_finite y = true -> Rabs (B2R x * B2R y) <= IZR (2 ^ 64) ->
  B2R (f64_mul x y) = rnd (B2R x * B2R y) /\ is_finite (f64_mul x y) = true.
Proof.
  intros Hx Hy H. unfold f64_mul. assert (C := Bmult_correct prec64 emax64 prec64_gt_0 prec64_lt_emax mode_NE x y).
  rewrite rnd_small in C by exact H. destruct C as (C1 & C2 & _). rewrite C2, Hx, Hy. split; [exact C1|reflexivity].
Qed.
Lemma sub_correct x y : is_finite x = true -> is_finite y = true -> Rabs (B2R x - B2R y) <= IZR (2 ^ 64) ->
  B2R (f64_sub x y) = rnd (B2R x - B2R y) /\ is_finite (f64_sub x y) = true.
Proof.
  intros Hx Hy H. unfold f64_sub. assert (C := Bminus_correct prec64 emax64 prec64_gt_0 prec64_lt_emax mode_NE x y Hx Hy).
  rewrite rnd_small in C by exact H. destruct C as (C1 & C2 & _). split; assumption.
Qed.

Lemma zero_int : float_int f64_zero 0.
Proof. apply of_Z_int. discriminate. Qed.
Lemma one_int : float_int (f64_of_Z 1) 1.
Proof. apply of_Z_int. discriminate. Qed.
Lemma half_val : is_finite f64_half = true /\ B2R f64_half = / 2.
Proof.
  unfold f64_half. destruct one_int as [F1 E1]. destruct (of_Z_int 2 ltac:(discriminate)) as [F2 E2].
  destruct (div_correct (f64_of_Z 1) (f64_of_Z 2) F1) as [E F].
  - rewrite E2. lra.
  - rewrite E1, E2. replace (1 / 2) with (/ 2) by lra. rewrite Rabs_pos_eq by lra. apply Rle_trans with 1; [lra|]. apply IZR_le. discriminate.
  - split; [exact F|]. rewrite E, E1, E2. replace (1 / 2) with (bpow radix2 (-1)) by (simpl; lra).
    rewrite round_generic; [simpl; lra|apply _|]. apply generic_format_bpow. vm_compute. discriminate.
Qed.

Lemma eq_zero x : is_finite x = true -> f64_eq x f64_zero = Req_bool (B2R x) 0.
Proof. intros H. unfold f64_eq. rewrite Beqb_correct by (try exact H; apply zero_int). destruct zero_int as [_ ->]. reflexivity. Qed.
Lemma lt_zero x : is_finite x = true -> f64_lt x f64_zero = Rlt_bool (B2R x) 0.
Proof. intros H. unfold f64_lt. rewrite Bltb_correct by (try exact H; apply zero_int). destruct zero_int as [_ ->]. reflexivity. Qed.

Lemma needs_scale_int x k : float_int x k -> (Z.abs k < 2 ^ 53)%Z -> needs_scale x = false.
Proof.
  intros [F E] Hk. unfold needs_scale. rewrite (trunc_int x k E). destruct (of_Z_int k ltac:(lia)) as [F2 E2].
  destruct (sub_correct x (f64_of_Z k) F F2) as [E3 F3].
  - rewrite E, E2. rewrite Rminus_diag_eq by reflexivity. rewrite Rabs_R0. apply IZR_le. discriminate.
  - rewrite (eq_zero _ F3), E3, E, E2, Rminus_diag_eq by reflexivity. rewrite round_0 by apply _.
    rewrite Req_bool_true by reflexivity. cbn. rewrite Bool.andb_false_r. reflexivity.
Qed.

(** k + 1/2 is a float64 for k < 2^52. *)
Lemma fmt_half k : (0 <= k < 2 ^ 52)%Z -> generic_format radix2 (SpecFloat.fexp prec64 emax64) (IZR k + / 2).
Proof.
  intros Hk. apply (generic_format_FLT radix2 (SpecFloat.emin prec64 emax64) prec64).
  assert (E : exists m, (0 <= m < 2 ^ 53)%Z /\ IZR m = 2 * IZR k + 1).
  { exists (2 * k + 1)%Z. split; [change (2 ^ 53)%Z with (2 * 2 ^ 52)%Z; lia|]. rewrite plus_IZR, mult_IZR. reflexivity. }
  destruct E as (m & Hm & E). apply (FLT_spec _ _ _ _ (Float radix2 m (-1))); simpl.
  - unfold F2R. simpl. rewrite E. lra.
  - change (Z.pow_pos 2 53) with (2 ^ 53)%Z. lia.
  - vm_compute. discriminate.
Qed.

Lemma abs_scaled_int x k : float_int x k -> (Z.abs k < 2 ^ 52)%Z -> scaled_abs x (f64_of_Z 1) = Z.abs k.
Proof.
  intros [F E] Hk. unfold scaled_abs. rewrite (lt_zero x F), E. destruct one_int as [F1 E1]. destruct half_val as [Fh Eh].
  assert (Hmul : exists y, (if Rlt_bool (IZR k) 0 then f64_mul (f64_opp (f64_of_Z 1)) x else f64_mul (f64_of_Z 1) x) = y /\ is_finite y = true /\ B2R y = IZR (Z.abs k)).
  { eexists. split; [reflexivity|].
    assert (A : Rabs (IZR k) <= IZR (2 ^ 64)) by (rewrite <- abs_IZR; apply IZR_le; apply Z.le_trans with (2 ^ 52)%Z; [lia|discriminate]).
    destruct (Rlt_bool_spec (IZR k) 0) as [N|N].
    - apply lt_IZR in N. destruct (mul_correct (f64_opp (f64_of_Z 1)) x) as [E2 F2].
      + unfold f64_opp. rewrite is_finite_Bopp. exact F1.
      + exact F.
      + unfold f64_opp. rewrite B2R_Bopp, E1, E. rewrite Ropp_mult_distr_l_reverse, Rabs_Ropp, Rmult_1_l. exact A.
      + split; [exact F2|]. rewrite E2. unfold f64_opp. rewrite B2R_Bopp, E1, E. replace (Ropp 1 * IZR k) with (IZR (Z.abs k)).
        * apply rnd_Z. lia.
        * rewrite Z.abs_neq by lia. rewrite opp_IZR. ring.
    - apply le_IZR in N. destruct (mul_correct (f64_of_Z 1) x F1 F) as [E2 F2].
      + rewrite E1, E, Rmult_1_l. exact A.
      + split; [exact F2|]. rewrite E2, E1, E, Rmult_1_l, Z.abs_eq by exact N. apply rnd_Z. lia. }
  destruct Hmul as (y & -> & Fy & Ey).
  assert (P : 0 <= IZR (Z.abs k)) by (apply IZR_le; lia).
  destruct (add_correct y f64_half Fy Fh) as [E3 F3].
  { rewrite Ey, Eh. rewrite Rabs_pos_eq by lra. apply Rle_trans with (IZR (2 ^ 52) + / 2); [apply Rplus_le_compat_r; apply IZR_le; lia|].
    apply Rle_trans with (IZR (2 ^ 52 + 1)); [rewrite plus_IZR; lra|apply IZR_le; discriminate]. }
  rewrite trunc_correct.
  - rewrite E3, Ey, Eh, round_generic by (try apply _; apply fmt_half; lia). apply Zfloor_imp. rewrite plus_IZR. lra.
  - rewrite E3, Ey, Eh, round_generic by (try apply _; apply fmt_half; lia). lra.
Qed.

Lemma scaled_int x k : float_int x k -> (Z.abs k < 2 ^ 52)%Z -> scaled x (f64_of_Z 1) = k.
Proof.
  intros H Hk. unfold scaled. rewrite (abs_scaled_int x k H Hk). destruct H as [F E]. rewrite (eq_zero x F), (lt_zero x F), E.
  destruct (Req_bool_spec (IZR k) 0) as [Z0|Z0]; [apply eq_IZR in Z0; lia|].
  destruct (Rlt_bool_spec (IZR k) 0) as [N|N]; [apply lt_IZR in N; lia|apply le_IZR in N; lia].
Qed.

(** The quotient of the scales. *)
Lemma factor_int a b f : scale_ratio a b = Some f -> (1 <= f64_trunc f)%Z -> float_int f (f64_trunc f).
Proof.
  unfold scale_ratio. set (g := f64_floor (f64_div a b)). destruct (_ && _)%bool; [|discriminate]. intros E; injection E as <-. intros Ht.
  assert (Fg : is_finite g = true) by (destruct g; try reflexivity; exfalso; revert Ht; cbn; lia).
  destruct (Bnearbyint_correct prec64 emax64 prec64_lt_emax mode_DN (f64_div a b)) as (N1 & _ & _). fold (f64_floor (f64_div a b)) in N1. fold g in N1.
  rewrite round_FIX0 in N1 by apply _. split; [exact Fg|]. rewrite (trunc_int g _ N1). exact N1.
Qed.

(** ** Accuracy *)
Lemma rnd_abs_err x : Rabs (rnd x - x) <= u64f * Rabs x + bpow radix2 (-1000).
Proof.
  destruct (error_N_FLT radix2 (SpecFloat.emin prec64 emax64) prec64 prec64_gt_0 (fun x => negb (Z.even x)) x) as (e & t & He & Ht & _ & E).
  change (rnd x) with (round radix2 (FLT_exp (SpecFloat.emin prec64 emax64) prec64) (Znearest (fun x => negb (Z.even x))) x). rewrite E.
  replace (x * (1 + e) + t - x) with (x * e + t) by ring. apply Rle_trans with (1 := Rabs_triang _ _). apply Rplus_le_compat.
  - rewrite Rabs_mult, Rmult_comm. apply Rmult_le_compat_r; [apply Rabs_pos|]. exact He.
  - apply Rle_trans with (1 := Ht). apply Rle_trans with (bpow radix2 (SpecFloat.emin prec64 emax64)).
    + pose proof (bpow_gt_0 radix2 (SpecFloat.emin prec64 emax64)). lra.
    + apply bpow_le. vm_compute. discriminate.
Qed.

Lemma scaled_accuracy x s : is_finite x = true -> is_finite s = true -> 0 <= B2R s -> Rabs (B2R x * B2R s) <= IZR (2 ^ 63) ->
  Rabs (IZR (scaled x s) - B2R x * B2R s) <= / 2 + (Rabs (B2R x * B2R s) + 1) * bpow radix2 (-51).
Proof.
  intros Fx Fs Ps Hb. set (v := B2R x * B2R s) in *. pose proof (bpow_gt_0 radix2 (-51)) as P51.
  assert (A0 : 0 <= Rabs v) by apply Rabs_pos.
  unfold scaled. rewrite (eq_zero x Fx), (lt_zero x Fx). destruct (Req_bool_spec (B2R x) 0) as [Z0|Z0].
  { unfold v. rewrite Z0, Rmult_0_l, Rminus_0_r, Rabs_R0. apply Rplus_le_le_0_compat; [lra|]. apply Rmult_le_pos; lra. }
  destruct half_val as [Fh Eh].
  assert (B63 : IZR (2 ^ 63) + 1 <= IZR (2 ^ 64)) by (rewrite <- plus_IZR; apply IZR_le; discriminate).
  assert (Hsc : exists z, scaled_abs x s = Zfloor z /\ 0 <= z /\ Rabs (z - (Rabs v + / 2)) <= (Rabs v + 1) * bpow radix2 (-51)).
  { unfold scaled_abs. rewrite (lt_zero x Fx).
    assert (Hy : exists y, (if Rlt_bool (B2R x) 0 then f64_mul (f64_opp s) x else f64_mul s x) = y /\ is_finite y = true /\ B2R y = rnd (Rabs v)).
    { eexists. split; [reflexivity|]. destruct (Rlt_bool_spec (B2R x) 0) as [N|N].
      - destruct (mul_correct (f64_opp s) x) as [E2 F2]; [unfold f64_opp; rewrite is_finite_Bopp; exact Fs|exact Fx| |].
        + unfold f64_opp. rewrite B2R_Bopp. replace (- B2R s * B2R x) with (- v) by (unfold v; ring). rewrite Rabs_Ropp. lra.
        + split; [exact F2|]. rewrite E2. unfold f64_opp. rewrite B2R_Bopp. replace (- B2R s * B2R x) with (- v) by (unfold v; ring).
          f_equal. rewrite Rabs_left1; [reflexivity|]. unfold v. rewrite <- (Rmult_0_r (B2R x)). apply Rmult_le_compat_neg_l; lra.
      - destruct (mul_correct s x Fs Fx) as [E2 F2]; [rewrite Rmult_comm; fold v; lra|]. split; [exact F2|]. rewrite E2, Rmult_comm. fold v.
        f_equal. rewrite Rabs_pos_eq; [reflexivity|]. unfold v. apply Rmult_le_pos; lra. }
    destruct Hy as (y & -> & Fy & Ey).
    assert (R0 : 0 <= B2R y) by (rewrite Ey, <- (round_0 radix2 (SpecFloat.fexp prec64 emax64) (round_mode mode_NE)); apply rnd_le; exact A0).
    assert (R1 : B2R y <= IZR (2 ^ 63)).
    { rewrite Ey. replace (IZR (2 ^ 63)) with (rnd (IZR (2 ^ 63))); [apply rnd_le; exact Hb|].
      apply round_generic; [apply _|]. change (IZR (2 ^ 63)) with (bpow radix2 63). apply generic_format_bpow. vm_compute. discriminate. }
    destruct (add_correct y f64_half Fy Fh) as [E3 F3]; [rewrite Eh, Rabs_pos_eq by lra; lra|].
    exists (B2R (f64_add y f64_half)).
    assert (Z0' : 0 <= B2R (f64_add y f64_half)).
    { rewrite E3, <- (round_0 radix2 (SpecFloat.fexp prec64 emax64) (round_mode mode_NE)). apply rnd_le. rewrite Eh. lra. }
    split; [apply trunc_correct; exact Z0'|]. split; [exact Z0'|].
    pose proof (rnd_abs_err (Rabs v)) as X1. pose proof (rnd_abs_err (B2R y + B2R f64_half)) as X2. rewrite <- E3 in X2. rewrite <- Ey in X1.
    rewrite Rabs_Rabsolu in X1. rewrite (Rabs_pos_eq (B2R y + B2R f64_half)) in X2 by (rewrite Eh; lra). rewrite Eh in X2.
    assert (T1000 : bpow radix2 (-1000) <= bpow radix2 (-60)) by (apply bpow_le; lia).
    assert (T60 : bpow radix2 (-60) = / IZR (2 ^ 60)) by reflexivity. change (IZR (2 ^ 60)) with 1152921504606846976 in T60.
    assert (T51 : bpow radix2 (-51) = / IZR (2 ^ 51)) by reflexivity. change (IZR (2 ^ 51)) with 2251799813685248 in T51.
    rewrite u64f_val in X1, X2. apply Rabs_le_inv in X1. apply Rabs_le_inv in X2. rewrite T51. apply Rabs_le. lra. }
  destruct Hsc as (z & -> & Pz & Hz). apply Rabs_le_inv in Hz. pose proof (Zfloor_lb z) as L1. pose proof (Zfloor_ub z) as U1.
  destruct (Rlt_bool_spec (B2R x) 0) as [N|N].
  - assert (Ev : Rabs v = - v) by (apply Rabs_left1; unfold v; rewrite <- (Rmult_0_r (B2R x)); apply Rmult_le_compat_neg_l; lra).
    rewrite Ev in *. rewrite opp_IZR. apply Rabs_le. lra.
  - assert (Ev : Rabs v = v) by (apply Rabs_pos_eq; unfold v; apply Rmult_le_pos; lra). rewrite Ev in *. apply Rabs_le. lra.
Qed.

Lemma mul_one x : is_finite x = true -> f64_mul x (f64_of_Z 1) = x.
Proof.
  intros Fx. unfold f64_mul. destruct one_int as [F1 E1]. assert (C := Bmult_correct prec64 emax64 prec64_gt_0 prec64_lt_emax mode_NE x (f64_of_Z 1)).
  rewrite E1, Rmult_1_r in C. rewrite round_generic in C by (try apply _; apply generic_format_B2R).
  rewrite Rlt_bool_true in C by (apply abs_B2R_lt_emax). destruct C as (C1 & C2 & C3). rewrite Fx, F1 in C2.
  apply B2R_Bsign_inj; try assumption. rewrite C3 by (destruct (Bmult _ _ _); [reflexivity|discriminate C2|discriminate C2|reflexivity]).
  change (Bsign (f64_of_Z 1)) with false. apply Bool.xorb_false_r.
Qed.
