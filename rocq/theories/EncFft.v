(** The rounding errors of the special transforms on complex128. *)
From Coq Require Import ZArith Reals Lra Lia List Arith.
From Flocq Require Import Core.Core IEEE754.BinarySingleNaN.
From Coquelicot Require Import Complex.
From Verif Require Import Word Ring RingProofs NTT NTTProofs Float64 FloatProofs Ckks CkksFloat Fft FftSpec FftProofs FftRing FftTop SlotSpec SlotProofs Encoder EncSpec EncFloat.
Import ListNotations.
Open Scope R_scope.

Notation eta := (bpow radix2 (-1000)).
Notation top := (bpow radix2 1001).
Lemma eta_small : 0 < eta <= / 1000000000000000000000000.
Proof.
  split; [apply bpow_gt_0|]. apply Rle_trans with (bpow radix2 (-80)); [apply bpow_le; lia|]. change (bpow radix2 (-80)) with (/ IZR (2 ^ 80)).
  apply Rinv_le; [apply IZR_lt; reflexivity|]. apply IZR_le. apply Z.leb_le. reflexivity.
Qed.
Lemma Cmod_sum (x y : R) : Cmod (x, y) <= Rabs x + Rabs y.
Proof.
  replace ((x, y) : C) with (Cplus (RtoC x) (Cmult Ci (RtoC y))) by (unfold Cplus, Cmult, Ci, RtoC; cbn [fst snd]; f_equal; ring).
  apply Rle_trans with (1 := Cmod_triangle _ _). rewrite Cmod_mult, !Cmod_R. replace (Cmod Ci) with 1; [lra|].
  unfold Cmod, Ci. cbn [fst snd]. replace (0 ^ 2 + 1 ^ 2) with 1 by ring. symmetry. apply sqrt_1.
Qed.
Lemma Cmod_fst (z : C) : Rabs (fst z) <= Cmod z.
Proof. apply Rle_trans with (2 := Rmax_Cmod z). apply Rmax_l. Qed.
Lemma Cmod_snd (z : C) : Rabs (snd z) <= Cmod z.
Proof. apply Rle_trans with (2 := Rmax_Cmod z). apply Rmax_r. Qed.
Lemma Cmod_near (x y : C) e : Cmod (x - y)%C <= e -> Cmod x <= Cmod y + e.
Proof. intros H. replace x with (Cplus y (Cminus x y)) by (unfold Cminus; ring). apply Rle_trans with (1 := Cmod_triangle _ _). lra. Qed.
Lemma Cmod_via (x y z : C) d e : Cmod (x - y)%C <= d -> Cmod (y - z)%C <= e -> Cmod (x - z)%C <= d + e.
Proof. intros H1 H2. replace (Cminus x z) with (Cplus (Cminus x y) (Cminus y z)) by (unfold Cminus; ring). apply Rle_trans with (1 := Cmod_triangle _ _). lra. Qed.
Lemma Cmod_diff (x y : C) : Cmod (x - y)%C <= Cmod x + Cmod y.
Proof. unfold Cminus. apply Rle_trans with (1 := Cmod_triangle _ _). rewrite Cmod_opp. lra. Qed.

(** ** The operations *)
Lemma c_add_near x y : cfinite x -> cfinite y -> Cmod (cnum x + cnum y)%C <= top ->
  cfinite (c_add x y) /\ Cmod (cnum (c_add x y) - (cnum x + cnum y))%C <= 2 * u64f * Cmod (cnum x + cnum y)%C + 2 * eta.
Proof.
  intros [X1 X2] [Y1 Y2] B. set (w := Cplus (cnum x) (cnum y)) in *. assert (B1 := Cmod_fst w). assert (B2 := Cmod_snd w).
  destruct (add_big (fst x) (fst y) X1 Y1) as [E1 F1]; [change (B2R (fst x) + B2R (fst y)) with (fst w); lra|].
  destruct (add_big (snd x) (snd y) X2 Y2) as [E2 F2]; [change (B2R (snd x) + B2R (snd y)) with (snd w); lra|].
  split; [split; assumption|]. unfold c_add, cnum at 1. cbn [fst snd]. rewrite E1, E2.
  pose proof (rnd_abs_err (B2R (fst x) + B2R (fst y))) as G1. pose proof (rnd_abs_err (B2R (snd x) + B2R (snd y))) as G2.
  change (B2R (fst x) + B2R (fst y)) with (fst w) in *. change (B2R (snd x) + B2R (snd y)) with (snd w) in *.
  clearbody w. unfold Cminus, Cplus, Copp. cbn [fst snd]. apply Rle_trans with (1 := Cmod_sum _ _). change (rnd (fst w) + - fst w) with (rnd (fst w) - fst w). change (rnd (snd w) + - snd w) with (rnd (snd w) - snd w).
  rewrite u64f_val in *. lra.
Qed.
Lemma c_sub_near x y : cfinite x -> cfinite y -> Cmod (cnum x - cnum y)%C <= top ->
  cfinite (c_sub x y) /\ Cmod (cnum (c_sub x y) - (cnum x - cnum y))%C <= 2 * u64f * Cmod (cnum x - cnum y)%C + 2 * eta.
Proof.
  intros [X1 X2] [Y1 Y2] B. set (w := Cminus (cnum x) (cnum y)) in *. assert (B1 := Cmod_fst w). assert (B2 := Cmod_snd w).
  destruct (sub_big (fst x) (fst y) X1 Y1) as [E1 F1]; [change (B2R (fst x) - B2R (fst y)) with (fst w); lra|].
  destruct (sub_big (snd x) (snd y) X2 Y2) as [E2 F2]; [change (B2R (snd x) - B2R (snd y)) with (snd w); lra|].
  split; [split; assumption|]. unfold c_sub, cnum at 1. cbn [fst snd]. rewrite E1, E2.
  pose proof (rnd_abs_err (B2R (fst x) - B2R (fst y))) as G1. pose proof (rnd_abs_err (B2R (snd x) - B2R (snd y))) as G2.
  change (B2R (fst x) - B2R (fst y)) with (fst w) in *. change (B2R (snd x) - B2R (snd y)) with (snd w) in *.
  clearbody w. unfold Cminus, Cplus, Copp. cbn [fst snd]. apply Rle_trans with (1 := Cmod_sum _ _). change (rnd (fst w) + - fst w) with (rnd (fst w) - fst w). change (rnd (snd w) + - snd w) with (rnd (snd w) - snd w).
  rewrite u64f_val in *. lra.
Qed.

Lemma prod_le (a b : R) (x y : C) : Rabs a <= Cmod x -> Rabs b <= Cmod y -> Rabs (a * b) <= Cmod x * Cmod y.
Proof. intros H1 H2. rewrite Rabs_mult. apply Rmult_le_compat; try apply Rabs_pos; assumption. Qed.
Lemma top_990 : 2 * bpow radix2 990 + 2 <= top /\ 1 <= bpow radix2 990.
Proof.
  assert (1 <= bpow radix2 990) by (change 1 with (bpow radix2 0); apply bpow_le; lia). split; [|assumption].
  apply Rle_trans with (bpow radix2 (2 + 990)); [rewrite bpow_plus; change (bpow radix2 2) with 4; lra|apply bpow_le; lia].
Qed.
Lemma c_mul_near x y : cfinite x -> cfinite y -> Cmod (cnum x) * Cmod (cnum y) <= bpow radix2 990 ->
  cfinite (c_mul x y) /\ Cmod (cnum (c_mul x y) - cnum x * cnum y)%C <= 7 * u64f * (Cmod (cnum x) * Cmod (cnum y)) + 8 * eta.
Proof.
  intros [X1 X2] [Y1 Y2] B. destruct top_990 as [T1 T2]. pose proof eta_small as ES. pose proof u64f_val as U.
  assert (P0 : 0 <= Cmod (cnum x) * Cmod (cnum y)) by (apply Rmult_le_pos; apply Cmod_ge_0).
  assert (XY1 := prod_le _ _ _ _ (Cmod_fst (cnum x)) (Cmod_fst (cnum y))). assert (XY2 := prod_le _ _ _ _ (Cmod_snd (cnum x)) (Cmod_snd (cnum y))).
  assert (XY3 := prod_le _ _ _ _ (Cmod_fst (cnum x)) (Cmod_snd (cnum y))). assert (XY4 := prod_le _ _ _ _ (Cmod_snd (cnum x)) (Cmod_fst (cnum y))).
  assert (RE := Cmod_fst (Cmult (cnum x) (cnum y))). assert (IM := Cmod_snd (Cmult (cnum x) (cnum y))). rewrite Cmod_mult in RE, IM.
  cbn [cnum fst snd Cmult] in XY1, XY2, XY3, XY4, RE, IM. unfold cnum in XY1, XY2, XY3, XY4, RE, IM. cbn [fst snd] in XY1, XY2, XY3, XY4, RE, IM.
  unfold Cmult in RE, IM. cbn [fst snd] in RE, IM.
  fold (cnum x) in XY1, XY2, XY3, XY4, RE, IM. fold (cnum y) in XY1, XY2, XY3, XY4, RE, IM.
  destruct (mul_big (fst x) (fst y) X1 Y1) as [E1 F1]; [lra|]. destruct (mul_big (snd x) (snd y) X2 Y2) as [E2 F2]; [lra|].
  destruct (mul_big (fst x) (snd y) X1 Y2) as [E3 F3]; [lra|]. destruct (mul_big (snd x) (fst y) X2 Y1) as [E4 F4]; [lra|].
  unfold c_mul. cbn [fst snd]. unfold cfinite. cbn [fst snd].
  pose proof (rnd_abs_err (B2R (fst x) * B2R (fst y))) as G1. pose proof (rnd_abs_err (B2R (snd x) * B2R (snd y))) as G2.
  pose proof (rnd_abs_err (B2R (fst x) * B2R (snd y))) as G3. pose proof (rnd_abs_err (B2R (snd x) * B2R (fst y))) as G4.
  rewrite <- E1 in G1. rewrite <- E2 in G2. rewrite <- E3 in G3. rewrite <- E4 in G4.
  rewrite U in *.
  set (p := Cmod (cnum x) * Cmod (cnum y)) in *. clearbody p.
  set (a := B2R (fst x) * B2R (fst y)) in *. set (b := B2R (snd x) * B2R (snd y)) in *. set (c := B2R (fst x) * B2R (snd y)) in *. set (d := B2R (snd x) * B2R (fst y)) in *.
  assert (NR : Rabs (B2R (f64_mul (fst x) (fst y)) - B2R (f64_mul (snd x) (snd y)) - (a - b)) <= 2 * (/ 9007199254740992 * p + eta)).
  { replace (B2R (f64_mul (fst x) (fst y)) - B2R (f64_mul (snd x) (snd y)) - (a - b)) with ((B2R (f64_mul (fst x) (fst y)) - a) + - (B2R (f64_mul (snd x) (snd y)) - b)) by ring.
    apply Rle_trans with (1 := Rabs_triang _ _). rewrite Rabs_Ropp. lra. }
  assert (NI : Rabs (B2R (f64_mul (fst x) (snd y)) + B2R (f64_mul (snd x) (fst y)) - (c + d)) <= 2 * (/ 9007199254740992 * p + eta)).
  { replace (B2R (f64_mul (fst x) (snd y)) + B2R (f64_mul (snd x) (fst y)) - (c + d)) with ((B2R (f64_mul (fst x) (snd y)) - c) + (B2R (f64_mul (snd x) (fst y)) - d)) by ring.
    apply Rle_trans with (1 := Rabs_triang _ _). lra. }
  assert (VR : Rabs (B2R (f64_mul (fst x) (fst y)) - B2R (f64_mul (snd x) (snd y))) <= p + 2 * (/ 9007199254740992 * p + eta)).
  { replace (B2R (f64_mul (fst x) (fst y)) - B2R (f64_mul (snd x) (snd y))) with ((B2R (f64_mul (fst x) (fst y)) - B2R (f64_mul (snd x) (snd y)) - (a - b)) + (a - b)) by ring.
    apply Rle_trans with (1 := Rabs_triang _ _). lra. }
  assert (VI : Rabs (B2R (f64_mul (fst x) (snd y)) + B2R (f64_mul (snd x) (fst y))) <= p + 2 * (/ 9007199254740992 * p + eta)).
  { replace (B2R (f64_mul (fst x) (snd y)) + B2R (f64_mul (snd x) (fst y))) with ((B2R (f64_mul (fst x) (snd y)) + B2R (f64_mul (snd x) (fst y)) - (c + d)) + (c + d)) by ring.
    apply Rle_trans with (1 := Rabs_triang _ _). lra. }
  destruct (sub_big (f64_mul (fst x) (fst y)) (f64_mul (snd x) (snd y)) F1 F2) as [E5 F5]; [lra|].
  destruct (add_big (f64_mul (fst x) (snd y)) (f64_mul (snd x) (fst y)) F3 F4) as [E6 F6]; [lra|].
  split; [split; assumption|]. unfold cnum at 1. cbn [fst snd]. rewrite E5, E6.
  pose proof (rnd_abs_err (B2R (f64_mul (fst x) (fst y)) - B2R (f64_mul (snd x) (snd y)))) as G5. pose proof (rnd_abs_err (B2R (f64_mul (fst x) (snd y)) + B2R (f64_mul (snd x) (fst y)))) as G6.
  rewrite U in G5, G6. unfold Cminus, Cmult, Cplus, Copp, cnum. cbn [fst snd]. fold a b c d. apply Rle_trans with (1 := Cmod_sum _ _).
  set (s1 := B2R (f64_mul (fst x) (fst y)) - B2R (f64_mul (snd x) (snd y))) in *. set (s2 := B2R (f64_mul (fst x) (snd y)) + B2R (f64_mul (snd x) (fst y))) in *. clearbody s1 s2.
  replace (rnd s1 + - (a - b)) with ((rnd s1 - s1) + (s1 - (a - b))) by ring. replace (rnd s2 + - (c + d)) with ((rnd s2 - s2) + (s2 - (c + d))) by ring.
  pose proof (Rabs_triang (rnd s1 - s1) (s1 - (a - b))). pose proof (Rabs_triang (rnd s2 - s2) (s2 - (c + d))). lra.
Qed.

(** Division by a real. *)
Lemma c_div_parts x d : cfinite x -> is_finite d = true -> 0 < B2R d -> Cmod (cnum x) / B2R d <= top -> Cmod (cnum x) <= top ->
  cfinite (c_div_real x d) /\ cnum (c_div_real x d) = (rnd (B2R (fst x) / B2R d), rnd (B2R (snd x) / B2R d)) /\
  Rabs (B2R (fst x) / B2R d) <= Cmod (cnum x) / B2R d /\ Rabs (B2R (snd x) / B2R d) <= Cmod (cnum x) / B2R d.
Proof.
  intros [X1 X2] Fd Pd B B'. assert (Z0 : is_finite f64_zero = true /\ B2R f64_zero = 0) by (split; reflexivity). destruct Z0 as [Fz Ez].
  assert (T0 : 0 <= top) by (apply bpow_ge_0). assert (R0 : rnd 0 = 0) by (apply round_0; apply _).
  assert (EX : forall t : float64, is_finite t = true -> rnd (B2R t) = B2R t) by (intros t Ft; apply round_generic; [apply _|apply generic_format_B2R]).
  destruct (div_big f64_zero d Fz) as [E1 F1]; [lra|rewrite Ez; unfold Rdiv; rewrite Rmult_0_l, Rabs_R0; exact T0|]. rewrite Ez in E1. replace (0 / B2R d) with 0 in E1 by (unfold Rdiv; ring). rewrite R0 in E1.
  set (ratio := f64_div f64_zero d) in *.
  destruct (mul_big ratio f64_zero F1 Fz) as [E2 F2]; [rewrite E1, Rmult_0_l, Rabs_R0; exact T0|]. rewrite E1, Rmult_0_l, R0 in E2.
  assert (Bd : Rabs (B2R d) < bpow radix2 emax64) by apply abs_B2R_lt_emax.
  assert (DEN : is_finite (f64_add d (f64_mul ratio f64_zero)) = true /\ B2R (f64_add d (f64_mul ratio f64_zero)) = B2R d).
  { assert (C := Bplus_correct prec64 emax64 prec64_gt_0 prec64_lt_emax mode_NE d (f64_mul ratio f64_zero) Fd F2). rewrite E2, Rplus_0_r in C.
    change (round radix2 (SpecFloat.fexp prec64 emax64) (round_mode mode_NE) (B2R d)) with (rnd (B2R d)) in C. rewrite (EX d Fd) in C.
    rewrite Rlt_bool_true in C by exact Bd. destruct C as [C1 [C2 _]]. split; [exact C2|exact C1]. }
  unfold c_div_real. fold ratio. cbv zeta. set (denom := f64_add d (f64_mul ratio f64_zero)) in *. destruct DEN as [Fden Eden].
  assert (B1 := Cmod_fst (cnum x)). assert (B2 := Cmod_snd (cnum x)). unfold cnum in B1, B2. cbn [fst snd] in B1, B2. fold (cnum x) in B1, B2.
  destruct (mul_big (snd x) ratio X2 F1) as [E3 F3]; [rewrite E1, Rmult_0_r, Rabs_R0; exact T0|]. rewrite E1, Rmult_0_r, R0 in E3.
  destruct (mul_big (fst x) ratio X1 F1) as [E4 F4]; [rewrite E1, Rmult_0_r, Rabs_R0; exact T0|]. rewrite E1, Rmult_0_r, R0 in E4.
  destruct (add_big (fst x) (f64_mul (snd x) ratio) X1 F3) as [E5 F5]; [rewrite E3, Rplus_0_r; lra|]. rewrite E3, Rplus_0_r, (EX _ X1) in E5.
  destruct (sub_big (snd x) (f64_mul (fst x) ratio) X2 F4) as [E6 F6]; [rewrite E4, Rminus_0_r; lra|]. rewrite E4, Rminus_0_r, (EX _ X2) in E6.
  assert (Pi : 0 < / B2R d) by (apply Rinv_0_lt_compat; exact Pd).
  assert (Q : forall t, Rabs t <= Cmod (cnum x) -> Rabs (t / B2R d) <= Cmod (cnum x) / B2R d).
  { intros t Ht. unfold Rdiv. rewrite Rabs_mult, (Rabs_pos_eq (/ B2R d)) by lra. apply Rmult_le_compat_r; lra. }
  assert (Q1 := Q _ B1). assert (Q2 := Q _ B2).
  destruct (div_big (f64_add (fst x) (f64_mul (snd x) ratio)) denom F5) as [E7 F7]; [rewrite Eden; lra|rewrite E5, Eden; lra|].
  destruct (div_big (f64_sub (snd x) (f64_mul (fst x) ratio)) denom F6) as [E8 F8]; [rewrite Eden; lra|rewrite E6, Eden; lra|].
  rewrite E5, Eden in E7. rewrite E6, Eden in E8. split; [split; assumption|]. unfold cnum at 1. cbn [fst snd]. rewrite E7, E8. split; [reflexivity|split; assumption].
Qed.
Lemma c_div_near x d : cfinite x -> is_finite d = true -> 0 < B2R d -> Cmod (cnum x) / B2R d <= top -> Cmod (cnum x) <= top ->
  cfinite (c_div_real x d) /\ Cmod (cnum (c_div_real x d) - cnum x / RtoC (B2R d))%C <= 2 * u64f * (Cmod (cnum x) / B2R d) + 2 * eta.
Proof.
  intros Fx Fd Pd B B'. destruct (c_div_parts x d Fx Fd Pd B B') as (F & E & Q1 & Q2). split; [exact F|]. rewrite E.
  pose proof (rnd_abs_err (B2R (fst x) / B2R d)) as G1. pose proof (rnd_abs_err (B2R (snd x) / B2R d)) as G2.
  replace (cnum x / RtoC (B2R d))%C with ((B2R (fst x) / B2R d, B2R (snd x) / B2R d) : C).
  2:{ unfold Cdiv, Cinv, Cmult, RtoC, cnum. cbn [fst snd]. f_equal; field; lra. }
  unfold Cminus, Cplus, Copp. cbn [fst snd]. apply Rle_trans with (1 := Cmod_sum _ _).
  change (rnd (B2R (fst x) / B2R d) + - (B2R (fst x) / B2R d)) with (rnd (B2R (fst x) / B2R d) - B2R (fst x) / B2R d). change (rnd (B2R (snd x) / B2R d) + - (B2R (snd x) / B2R d)) with (rnd (B2R (snd x) / B2R d) - B2R (snd x) / B2R d).
  rewrite u64f_val in *. lra.
Qed.

(** ** One butterfly *)
(** z is within E - A of w, which is at most A. *)
Definition close (A E : R) (z : complex128) (w : C) : Prop := cfinite z /\ Cmod w <= A /\ Cmod (cnum z - w)%C <= E - A.
Lemma top_988 : bpow radix2 990 = 4 * bpow radix2 988 /\ 1 <= bpow radix2 988.
Proof.
  split; [change 990%Z with (2 + 988)%Z; rewrite bpow_plus; change (bpow radix2 2) with 4; reflexivity|].
  change 1 with (bpow radix2 0); apply bpow_le; lia.
Qed.
Lemma inv2_49 : / 2 ^ 49 = / 562949953421312.
Proof. rewrite (pow_IZR 2 49). reflexivity. Qed.

Section Butterfly.
  Variable delta : R.
  Hypothesis HD : 0 <= delta <= / 4.
  Let rho := delta + / 2 ^ 49.
  Let G := 2 * (1 + rho).
  Lemma G_2 : 2 <= G <= 4.
  Proof. unfold G, rho. rewrite inv2_49. lra. Qed.

  (** The product with a root. *)
  Lemma times_root A E z w om o : 1 <= A <= E -> E <= bpow radix2 989 -> close A E z w -> cfinite om -> Cmod o = 1 -> Cmod (cnum om - o)%C <= delta ->
    close A (E + delta * E + 7 * u64f * (E + delta * E) + 8 * eta) (c_mul z om) (w * o)%C.
  Proof.
    intros HA HE (Fz & Aw & Ez) Fo Oo Eo. assert (W0 := Cmod_ge_0 w). assert (D0 := Cmod_ge_0 (cnum z - w)%C).
    assert (Zb : Cmod (cnum z) <= E) by (apply Rle_trans with (1 := Cmod_near _ _ _ Ez); lra).
    assert (Ob : Cmod (cnum om) <= 1 + delta) by (apply Rle_trans with (1 := Cmod_near _ _ _ Eo); lra).
    assert (Zo0 := Cmod_ge_0 (cnum z)). assert (Oo0 := Cmod_ge_0 (cnum om)).
    assert (Pb : Cmod (cnum z) * Cmod (cnum om) <= E + delta * E).
    { apply Rle_trans with (E * (1 + delta)); [apply Rmult_le_compat; lra|lra]. }
    assert (De : 0 <= delta * E <= / 4 * E) by (split; [apply Rmult_le_pos; lra|apply Rmult_le_compat_r; lra]).
    assert (T : bpow radix2 990 = 2 * bpow radix2 989) by (change 990%Z with (1 + 989)%Z; rewrite bpow_plus; reflexivity).
    destruct (c_mul_near z om Fz Fo) as [F N]; [lra|]. split; [exact F|]. split; [rewrite Cmod_mult, Oo; lra|].
    assert (S : Cmod (cnum z * cnum om - w * o)%C <= (E - A) + delta * E).
    { replace (cnum z * cnum om - w * o)%C with (Cplus (Cmult (Cminus (cnum z) w) o) (Cmult (cnum z) (Cminus (cnum om) o))) by (unfold Cminus; ring).
      apply Rle_trans with (1 := Cmod_triangle _ _). rewrite !Cmod_mult, Oo, Rmult_1_r. apply Rplus_le_compat; [exact Ez|].
      rewrite Rmult_comm. apply Rmult_le_compat; try lra. apply Cmod_ge_0. }
    apply Rle_trans with (1 := Cmod_via _ _ _ _ _ N S). rewrite u64f_val. lra.
  Qed.

  Lemma fwd_close A E zl zh om wl wh o : 1 <= A <= E -> E <= bpow radix2 988 -> close A E zl wl -> close A E zh wh ->
    cfinite om -> Cmod o = 1 -> Cmod (cnum om - o)%C <= delta ->
    close (2 * A) (G * E) (c_add zl (c_mul zh om)) (wl + wh * o)%C /\ close (2 * A) (G * E) (c_sub zl (c_mul zh om)) (wl - wh * o)%C.
  Proof.
    intros HA HE (Fl & Al & El) Hh Fo Oo Eo. destruct top_988 as [T1 T2]. destruct top_990 as [T3 T4]. pose proof eta_small as ES.
    assert (T989 : bpow radix2 989 = 2 * bpow radix2 988) by (change 989%Z with (1 + 988)%Z; rewrite bpow_plus; reflexivity).
    destruct (times_root A E zh wh om o HA ltac:(lra) Hh Fo Oo Eo) as (Fm & Am & Em).
    assert (De : 0 <= delta * E <= / 4 * E) by (split; [apply Rmult_le_pos; lra|apply Rmult_le_compat_r; lra]).
    set (m := c_mul zh om) in *. set (wm := (wh * o)%C) in *. clearbody m wm.
    assert (Lb := Cmod_near _ _ _ El). assert (Mb := Cmod_near _ _ _ Em). rewrite u64f_val in *.
    assert (GE : G * E = 2 * E + 2 * (delta * E) + 2 * / 562949953421312 * E) by (unfold G, rho; rewrite inv2_49; ring).
    assert (SB := Cmod_triangle (cnum zl) (cnum m)). assert (DB := Cmod_diff (cnum zl) (cnum m)).
    destruct (c_add_near zl m Fl Fm) as [F1 N1]; [lra|]. destruct (c_sub_near zl m Fl Fm) as [F2 N2]; [lra|]. rewrite u64f_val in *.
    split; (split; [assumption|]); split.
    - apply Rle_trans with (1 := Cmod_triangle _ _). lra.
    - assert (S : Cmod (cnum zl + cnum m - (wl + wm))%C <= (E - A) + (E + delta * E + 7 * / 9007199254740992 * (E + delta * E) + 8 * eta - A)).
      { replace (cnum zl + cnum m - (wl + wm))%C with (Cplus (Cminus (cnum zl) wl) (Cminus (cnum m) wm)) by (unfold Cminus; ring). apply Rle_trans with (1 := Cmod_triangle _ _). lra. }
      apply Rle_trans with (1 := Cmod_via _ _ _ _ _ N1 S). rewrite GE. lra.
    - apply Rle_trans with (1 := Cmod_diff _ _). lra.
    - assert (S : Cmod (cnum zl - cnum m - (wl - wm))%C <= (E - A) + (E + delta * E + 7 * / 9007199254740992 * (E + delta * E) + 8 * eta - A)).
      { replace (cnum zl - cnum m - (wl - wm))%C with (Cminus (Cminus (cnum zl) wl) (Cminus (cnum m) wm)) by (unfold Cminus; ring). apply Rle_trans with (1 := Cmod_diff _ _). lra. }
      apply Rle_trans with (1 := Cmod_via _ _ _ _ _ N2 S). rewrite GE. lra.
  Qed.

  Lemma inv_close A E zl zh om wl wh o : 1 <= A <= E -> E <= bpow radix2 987 -> close A E zl wl -> close A E zh wh ->
    cfinite om -> Cmod o = 1 -> Cmod (cnum om - o)%C <= delta ->
    close (2 * A) (G * E) (c_add zl zh) (wl + wh)%C /\ close (2 * A) (G * E) (c_mul (c_sub zl zh) om) ((wl - wh) * o)%C.
  Proof.
    intros HA HE (Fl & Al & El) (Fh & Ah & Eh) Fo Oo Eo. destruct top_988 as [T1 T2]. destruct top_990 as [T3 T4]. pose proof eta_small as ES.
    assert (T987 : bpow radix2 989 = 4 * bpow radix2 987) by (change 989%Z with (2 + 987)%Z; rewrite bpow_plus; reflexivity).
    assert (T988 : bpow radix2 988 = 2 * bpow radix2 987) by (change 988%Z with (1 + 987)%Z; rewrite bpow_plus; reflexivity).
    assert (De : 0 <= delta * E <= / 4 * E) by (split; [apply Rmult_le_pos; lra|apply Rmult_le_compat_r; lra]).
    assert (Lb := Cmod_near _ _ _ El). assert (Mb := Cmod_near _ _ _ Eh).
    assert (GE : G * E = 2 * E + 2 * (delta * E) + 2 * / 562949953421312 * E) by (unfold G, rho; rewrite inv2_49; ring).
    assert (SB := Cmod_triangle (cnum zl) (cnum zh)). assert (DB := Cmod_diff (cnum zl) (cnum zh)).
    destruct (c_add_near zl zh Fl Fh) as [F1 N1]; [lra|]. destruct (c_sub_near zl zh Fl Fh) as [F2 N2]; [lra|]. rewrite u64f_val in *.
    split.
    - split; [assumption|]. split; [apply Rle_trans with (1 := Cmod_triangle _ _); lra|].
      assert (S : Cmod (cnum zl + cnum zh - (wl + wh))%C <= (E - A) + (E - A)).
      { replace (cnum zl + cnum zh - (wl + wh))%C with (Cplus (Cminus (cnum zl) wl) (Cminus (cnum zh) wh)) by (unfold Cminus; ring). apply Rle_trans with (1 := Cmod_triangle _ _). lra. }
      apply Rle_trans with (1 := Cmod_via _ _ _ _ _ N1 S). rewrite GE. lra.
    - set (E' := 2 * E + 4 * / 9007199254740992 * E + 2 * eta).
      assert (C : close (2 * A) E' (c_sub zl zh) (wl - wh)%C).
      { split; [assumption|]. split; [apply Rle_trans with (1 := Cmod_diff _ _); lra|].
        assert (S : Cmod (cnum zl - cnum zh - (wl - wh))%C <= (E - A) + (E - A)).
        { replace (cnum zl - cnum zh - (wl - wh))%C with (Cminus (Cminus (cnum zl) wl) (Cminus (cnum zh) wh)) by (unfold Cminus; ring). apply Rle_trans with (1 := Cmod_diff _ _). lra. }
        apply Rle_trans with (1 := Cmod_via _ _ _ _ _ N2 S). unfold E'. lra. }
      destruct (times_root (2 * A) E' (c_sub zl zh) (wl - wh)%C om o ltac:(unfold E'; lra) ltac:(unfold E'; lra) C Fo Oo Eo) as (F3 & A3 & E3).
      split; [assumption|]. split; [exact A3|]. apply Rle_trans with (1 := E3). rewrite GE, u64f_val.
      assert (DE : delta * E' = 2 * (delta * E) + 4 * / 9007199254740992 * (delta * E) + 2 * eta * delta) by (unfold E'; ring). rewrite DE.
      assert (0 <= eta * delta <= eta) by (split; [apply Rmult_le_pos; lra|rewrite <- (Rmult_1_r eta) at 2; apply Rmult_le_compat_l; lra]).
      unfold E'. lra.
  Qed.
End Butterfly.

(** ** Rounds *)
Lemma pos_in l k L : (0 < l <= L)%nat -> (k < 2 ^ L)%nat -> exists b j, (b < 2 ^ (L - l))%nat /\ (j < 2 ^ (l - 1))%nat /\ (k = b * 2 ^ l + j \/ k = b * 2 ^ l + (2 ^ (l - 1) + j))%nat.
Proof. exact (same_position Nat.add Nat.add Nat.add O l k L). Qed.
Lemma pos_bound l b j L : (0 < l <= L)%nat -> (b < 2 ^ (L - l))%nat -> (j < 2 ^ (l - 1))%nat -> (b * 2 ^ l + (2 ^ (l - 1) + j) < 2 ^ L)%nat.
Proof. exact (same_bound Nat.add Nat.add Nat.add O l b j L). Qed.
Section Rounds.
  Variables (m L : nat) (delta : R) (roots : list complex128).
  Notation M := (2 ^ (m + 2))%nat.
  Hypothesis HR : roots_near M delta roots.
  Hypothesis HL : (L <= m)%nat.
  Notation rot := (rotGroup M).
  Let G := 2 * (1 + (delta + / 2 ^ 49)).
  Notation ec0 := (RtoC 0).

  Definition all_close (A E : R) (zs : list complex128) (ws : list C) : Prop :=
    forall k, (k < 2 ^ L)%nat -> close A E (nth k zs c_zero) (nth k ws ec0).

  Lemma root_close inv l j : (0 < l <= L)%nat -> let a := root_at c_zero inv (m + 2) l rot roots j in let b := root_at ec0 inv (m + 2) l rot (exact_roots M) j in
    cfinite a /\ Cmod b = 1 /\ Cmod (cnum a - b)%C <= delta.
  Proof.
    intros Hl a b. unfold a, b, root_at.
    set (i := Z.to_nat _).
    assert (Hi : (i <= M)%nat).
    { unfold i. set (lenq := (2 ^ Z.of_nat (l + 2))%Z). assert (P : (0 < lenq)%Z) by (apply Z.pow_pos_nonneg; lia).
      assert (LB : (0 <= Z.land (nth j rot 0%Z) (lenq - 1) < lenq)%Z).
      { unfold lenq. replace (2 ^ Z.of_nat (l + 2) - 1)%Z with (Z.ones (Z.of_nat (l + 2))) by (rewrite Z.ones_equiv; lia).
        rewrite Z.land_ones by lia. apply Z.mod_pos_bound. exact P. }
      set (x := if inv then _ else _). assert (X : (0 <= x <= lenq)%Z) by (unfold x; destruct inv; lia). clearbody x.
      rewrite Z.shiftl_mul_pow2 by lia. apply Nat2Z.inj_le. rewrite Z2Nat.id by (apply Z.mul_nonneg_nonneg; [lia|apply Z.pow_nonneg; lia]).
      rewrite Nat2Z.inj_pow. change (Z.of_nat 2) with 2%Z. replace (Z.of_nat (m + 2)) with (Z.of_nat (l + 2) + Z.of_nat (m + 2 - 2 - l))%Z by lia.
      rewrite Z.pow_add_r by lia. fold lenq. apply Z.mul_le_mono_nonneg_r; [apply Z.pow_nonneg; lia|lia]. }
    destruct HR as [_ H]. destruct (H i Hi) as [F N]. split; [exact F|]. split; [|exact N].
    unfold exact_roots. rewrite nth_map_seq by lia. unfold cis, Cmod. cbn [fst snd]. rewrite <- sqrt_1. f_equal. set (t := _ / _). rewrite Rplus_comm. rewrite <- (sin2_cos2 t). unfold Rsqr. ring.
  Qed.

  Lemma fft_round_close l A E zs ws : (0 < l <= L)%nat -> 1 <= A <= E -> E <= bpow radix2 987 -> (2 ^ L <= length zs)%nat -> (2 ^ L <= length ws)%nat ->
    all_close A E zs ws ->
    all_close (2 * A) (G * E) (fft_round c_add c_sub c_mul c_zero (2 ^ L) (m + 2) l rot roots zs) (fft_round Cplus Cminus Cmult ec0 (2 ^ L) (m + 2) l rot (exact_roots M) ws) /\
    length (fft_round c_add c_sub c_mul c_zero (2 ^ L) (m + 2) l rot roots zs) = length zs /\ length (fft_round Cplus Cminus Cmult ec0 (2 ^ L) (m + 2) l rot (exact_roots M) ws) = length ws.
  Proof.
    intros Hl HA HE Hz Hw HC. assert (E3 : (2 ^ L = 2 ^ (L - l) * 2 ^ l)%nat) by (rewrite <- Nat.pow_add_r; f_equal; lia).
    assert (T988 : bpow radix2 988 = 2 * bpow radix2 987) by (change 988%Z with (1 + 987)%Z; rewrite bpow_plus; reflexivity). assert (bpow radix2 987 > 0) by apply bpow_gt_0.
    destruct (fft_round_spec c_zero c_add c_sub c_mul (m + 2) rot roots (2 ^ (L - l)) l zs ltac:(lia) ltac:(lia)) as [L1 [_ R1]].
    destruct (fft_round_spec ec0 Cplus Cminus Cmult (m + 2) rot (exact_roots M) (2 ^ (L - l)) l ws ltac:(lia) ltac:(lia)) as [L2 [_ R2]].
    rewrite <- E3 in *. split; [|split; assumption]. intros k Hk. destruct (pos_in l k L Hl Hk) as [b [j [Hb [Hj E']]]]. assert (B := pos_bound l b j L Hl Hb Hj).
    destruct (R1 b j Hb Hj) as [A1 A2]. destruct (R2 b j Hb Hj) as [B1 B2]. destruct (root_close false l j Hl) as (F & O & N).
    destruct (fwd_close delta (proj1 HR) A E _ _ _ _ _ _ HA ltac:(lra) (HC (b * 2 ^ l + j)%nat ltac:(lia)) (HC (b * 2 ^ l + (2 ^ (l - 1) + j))%nat ltac:(lia)) F O N) as [C1 C2].
    destruct E' as [->| ->]; [rewrite A1, B1; exact C1|rewrite A2, B2; exact C2].
  Qed.
  Lemma ifft_round_close l A E zs ws : (0 < l <= L)%nat -> 1 <= A <= E -> E <= bpow radix2 987 -> (2 ^ L <= length zs)%nat -> (2 ^ L <= length ws)%nat ->
    all_close A E zs ws ->
    all_close (2 * A) (G * E) (ifft_round c_add c_sub c_mul c_zero (2 ^ L) (m + 2) l rot roots zs) (ifft_round Cplus Cminus Cmult ec0 (2 ^ L) (m + 2) l rot (exact_roots M) ws) /\
    length (ifft_round c_add c_sub c_mul c_zero (2 ^ L) (m + 2) l rot roots zs) = length zs /\ length (ifft_round Cplus Cminus Cmult ec0 (2 ^ L) (m + 2) l rot (exact_roots M) ws) = length ws.
  Proof.
    intros Hl HA HE Hz Hw HC. assert (E3 : (2 ^ L = 2 ^ (L - l) * 2 ^ l)%nat) by (rewrite <- Nat.pow_add_r; f_equal; lia).
    destruct (ifft_round_spec c_zero c_add c_sub c_mul (m + 2) rot roots (2 ^ (L - l)) l zs ltac:(lia) ltac:(lia)) as [L1 [_ R1]].
    destruct (ifft_round_spec ec0 Cplus Cminus Cmult (m + 2) rot (exact_roots M) (2 ^ (L - l)) l ws ltac:(lia) ltac:(lia)) as [L2 [_ R2]].
    rewrite <- E3 in *. split; [|split; assumption]. intros k Hk. destruct (pos_in l k L Hl Hk) as [b [j [Hb [Hj E']]]]. assert (B := pos_bound l b j L Hl Hb Hj).
    destruct (R1 b j Hb Hj) as [A1 A2]. destruct (R2 b j Hb Hj) as [B1 B2]. destruct (root_close true l j Hl) as (F & O & N).
    destruct (inv_close delta (proj1 HR) A E _ _ _ _ _ _ HA HE (HC (b * 2 ^ l + j)%nat ltac:(lia)) (HC (b * 2 ^ l + (2 ^ (l - 1) + j))%nat ltac:(lia)) F O N) as [C1 C2].
    destruct E' as [->| ->]; [rewrite A1, B1; exact C1|rewrite A2, B2; exact C2].
  Qed.

  (** All of them. *)
  Lemma rounds_close (Rz : nat -> list complex128 -> list complex128) (Rw : nat -> list C -> list C) :
    (forall l A E zs ws, (0 < l <= L)%nat -> 1 <= A <= E -> E <= bpow radix2 987 -> (2 ^ L <= length zs)%nat -> (2 ^ L <= length ws)%nat -> all_close A E zs ws ->
       all_close (2 * A) (G * E) (Rz l zs) (Rw l ws) /\ length (Rz l zs) = length zs /\ length (Rw l ws) = length ws) ->
    forall ls, (forall l, In l ls -> (0 < l <= L)%nat) -> forall A E zs ws, 1 <= A <= E -> E * G ^ length ls <= bpow radix2 987 ->
    (2 ^ L <= length zs)%nat -> (2 ^ L <= length ws)%nat -> all_close A E zs ws ->
    let oz := fold_left (fun xs l => Rz l xs) ls zs in let ow := fold_left (fun xs l => Rw l xs) ls ws in
    all_close (2 ^ length ls * A) (G ^ length ls * E) oz ow /\ length oz = length zs /\ length ow = length ws.
  Proof.
    intros HRd. assert (G2 := G_2 delta (proj1 HR)). fold G in G2. induction ls as [|l ls IH]; intros IN A E zs ws HA HE Hz Hw HC oz ow.
    - unfold oz, ow. cbn [fold_left length pow]. rewrite !Rmult_1_l. split; [exact HC|split; reflexivity].
    - cbn [length pow] in *. assert (GP : 1 <= G ^ length ls) by (apply pow_R1_Rle; lra).
      assert (G0 : 0 < E) by lra.
      destruct (HRd l A E zs ws (IN l (or_introl eq_refl)) HA) as (C1 & C2 & C3); try assumption.
      { apply Rle_trans with (2 := HE). rewrite <- (Rmult_1_r E) at 1. apply Rmult_le_compat_l; [lra|]. rewrite <- (Rmult_1_r 1). apply Rmult_le_compat; lra. }
      unfold oz, ow. cbn [fold_left].
      destruct (IH ltac:(intros l' H'; apply IN; right; exact H') (2 * A) (G * E) (Rz l zs) (Rw l ws)) as (D1 & D2 & D3).
      + split; [lra|]. apply Rmult_le_compat; lra.
      + replace (G * E * G ^ length ls) with (E * (G * G ^ length ls)) by ring. exact HE.
      + lia.
      + lia.
      + exact C1.
      + split; [|split; congruence]. replace (2 * 2 ^ length ls * A) with (2 ^ length ls * (2 * A)) by ring. replace (G * G ^ length ls * E) with (G ^ length ls * (G * E)) by ring. exact D1.
  Qed.

  Lemma reverse_close A E zs ws : (2 ^ L <= length zs)%nat -> (2 ^ L <= length ws)%nat -> all_close A E zs ws ->
    all_close A E (SliceBitReverseInPlace c_zero zs (2 ^ L)) (SliceBitReverseInPlace ec0 ws (2 ^ L)).
  Proof.
    intros Hz Hw HC k Hk. destruct (bit_reverse c_zero L zs Hz) as [_ B1]. destruct (bit_reverse ec0 L ws Hw) as [_ B2]. rewrite B1, B2, (proj2 (Nat.ltb_lt _ _) Hk).
    apply HC. apply brvn_lt.
  Qed.

  Lemma fft_close A E zs ws : 1 <= A <= E -> E * G ^ L <= bpow radix2 987 -> (2 ^ L <= length zs)%nat -> (2 ^ L <= length ws)%nat -> all_close A E zs ws ->
    all_close (2 ^ L * A) (G ^ L * E) (SpecialFFTVec c_add c_sub c_mul c_zero zs (2 ^ L) M rot roots) (SpecialFFTVec Cplus Cminus Cmult ec0 ws (2 ^ L) M rot (exact_roots M)).
  Proof.
    intros HA HE Hz Hw HC. unfold SpecialFFTVec. rewrite !Nat.log2_pow2 by lia.
    destruct (bit_reverse c_zero L zs Hz) as [B1 _]. destruct (bit_reverse ec0 L ws Hw) as [B2 _].
    destruct (rounds_close (fun l xs => fft_round c_add c_sub c_mul c_zero (2 ^ L) (m + 2) l rot roots xs) (fun l xs => fft_round Cplus Cminus Cmult ec0 (2 ^ L) (m + 2) l rot (exact_roots M) xs)
      fft_round_close (seq 1 L)) with (A := A) (E := E) (zs := SliceBitReverseInPlace c_zero zs (2 ^ L)) (ws := SliceBitReverseInPlace ec0 ws (2 ^ L)) as (D & _ & _);
      try rewrite seq_length in *; try assumption; try lia.
    - intros l Hl. apply in_seq in Hl. lia.
    - apply reverse_close; assumption.
  Qed.

  (** Inverse, with the division. *)
  Lemma ifft_close A E zs ws (dz : complex128 -> complex128) (dw : C -> C) A' E' : 1 <= A <= E -> E * G ^ L <= bpow radix2 987 -> (2 ^ L <= length zs)%nat -> (2 ^ L <= length ws)%nat -> all_close A E zs ws ->
    (forall z w, close (2 ^ L * A) (G ^ L * E) z w -> close A' E' (dz z) (dw w)) ->
    all_close A' E' (SpecialiFFTVec c_add c_sub c_mul c_zero dz zs (2 ^ L) M rot roots) (SpecialiFFTVec Cplus Cminus Cmult ec0 dw ws (2 ^ L) M rot (exact_roots M)).
  Proof.
    intros HA HE Hz Hw HC HDv. unfold SpecialiFFTVec. rewrite !Nat.log2_pow2 by lia.
    destruct (rounds_close (fun l xs => ifft_round c_add c_sub c_mul c_zero (2 ^ L) (m + 2) l rot roots xs) (fun l xs => ifft_round Cplus Cminus Cmult ec0 (2 ^ L) (m + 2) l rot (exact_roots M) xs)
      ifft_round_close (rev (seq 1 L))) with (A := A) (E := E) (zs := zs) (ws := ws) as (D & D1 & D2);
      try rewrite rev_length, seq_length in *; try assumption; try lia.
    { intros l Hl. apply in_rev, in_seq in Hl. lia. }
    cbv zeta beta in D, D1, D2. set (oz := fold_left _ _ _) in *. set (ow := fold_left _ _ _) in D, D2 |- *. clearbody oz ow.
    apply reverse_close; try (rewrite app_length, map_length, firstn_length, skipn_length; lia).
    intros k Hk. rewrite !app_nth1 by (rewrite map_length, firstn_length; lia).
    rewrite (nth_indep (map dz _) c_zero (dz c_zero)) by (rewrite map_length, firstn_length; lia). rewrite (nth_indep (map dw _) ec0 (dw ec0)) by (rewrite map_length, firstn_length; lia).
    rewrite !map_nth, !nth_firstn by exact Hk. apply HDv. apply D. exact Hk.
  Qed.
End Rounds.
