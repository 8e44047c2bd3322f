(** The float64 sum of quotients of the basis extension: its distance to the real sum. *)
From Coq Require Import ZArith Reals Lra Lia List.
From Flocq Require Import Core.Core IEEE754.BinarySingleNaN.
From Flocq.Prop Require Import Relative.
From Verif Require Import Float64.
Import ListNotations.
Open Scope Z_scope.
Open Scope R_scope.

Notation rnd := (round radix2 (SpecFloat.fexp prec64 emax64) (round_mode mode_NE)).

Definition u64f : R := / 2 * bpow radix2 (-52).

Lemma u64f_val : u64f = / 9007199254740992.
Proof. unfold u64f. simpl. lra. Qed.

Lemma rnd_le x y : x <= y -> rnd x <= rnd y.
Proof. apply round_le; apply _. Qed.

Lemma fmt_Z (n : Z) : (Z.abs n <= 2 ^ 53)%Z -> generic_format radix2 (SpecFloat.fexp prec64 emax64) (IZR n).
Proof.
  intros H. destruct (Z.eq_dec (Z.abs n) (2 ^ 53)) as [E|E].
  - assert (G : generic_format radix2 (SpecFloat.fexp prec64 emax64) (bpow radix2 53)).
    { apply generic_format_bpow. vm_compute. discriminate. }
    change (bpow radix2 53) with (IZR (2 ^ 53)) in G.
    destruct (Z.abs_spec n) as [[_ Hn]|[_ Hn]]; rewrite Hn in E.
    + rewrite E. exact G.
    + replace n with (- (2 ^ 53))%Z by lia. rewrite opp_IZR. apply generic_format_opp. exact G.
  - apply (generic_format_FLT radix2 (SpecFloat.emin prec64 emax64) prec64).
    apply (FLT_spec _ _ _ _ (Float radix2 n 0)); simpl.
    + unfold F2R. simpl. lra.
    + change (2 ^ 53)%Z with 9007199254740992%Z in *. lia.
    + vm_compute. discriminate.
Qed.

Lemma rnd_Z n : (Z.abs n <= 2 ^ 53)%Z -> rnd (IZR n) = IZR n.
Proof. intros. apply round_generic; [apply _|]. apply fmt_Z. assumption. Qed.

Lemma rnd_err x : bpow radix2 (-1022) <= Rabs x -> Rabs (rnd x - x) <= u64f * Rabs x.
Proof.
  intros H. apply (relative_error_N_FLT radix2 (SpecFloat.emin prec64 emax64) prec64 prec64_gt_0).
  exact H.
Qed.

Lemma rnd_small x : Rabs x <= IZR (2 ^ 64) -> Rlt_bool (Rabs (rnd x)) (bpow radix2 emax64) = true.
Proof.
  intros H. apply Rlt_bool_true. apply Rle_lt_trans with (IZR (2 ^ 64)).
  - apply abs_round_le_generic; try apply _; [|exact H].
    change (IZR (2 ^ 64)) with (bpow radix2 64). apply generic_format_bpow. vm_compute. discriminate.
  - change (IZR (2 ^ 64)) with (bpow radix2 64). apply bpow_lt. reflexivity.
Qed.

Lemma of_Z_correct z : (Z.abs z <= 2 ^ 64)%Z -> B2R (f64_of_Z z) = rnd (IZR z) /\ is_finite (f64_of_Z z) = true.
Proof.
  intros H. unfold f64_of_Z.
  assert (C := binary_normalize_correct prec64 emax64 prec64_gt_0 prec64_lt_emax mode_NE z 0 false).
  cbv zeta in C. replace (F2R (Float radix2 z 0)) with (IZR z) in C by (unfold F2R; simpl; lra).
  rewrite rnd_small in C.
  - destruct C as (C1 & C2 & _). split; assumption.
  - rewrite <- abs_IZR. apply IZR_le. exact H.
Qed.

Lemma add_correct x y : is_finite x = true -> is_finite y = true -> Rabs (B2R x + B2R y) <= IZR (2 ^ 64) ->
  B2R (f64_add x y) = rnd (B2R x + B2R y) /\ is_finite (f64_add x y) = true.
Proof.
  intros Hx Hy H. unfold f64_add.
  assert (C := Bplus_correct prec64 emax64 prec64_gt_0 prec64_lt_emax mode_NE x y Hx Hy).
  rewrite rnd_small in C by exact H. destruct C as (C1 & C2 & _). split; assumption.
Qed.

Lemma div_correct x y : is_finite x = true -> B2R y <> 0 -> Rabs (B2R x / B2R y) <= IZR (2 ^ 64) ->
  B2R (f64_div x y) = rnd (B2R x / B2R y) /\ is_finite (f64_div x y) = true.
Proof.
  intros Hx Hy H. unfold f64_div.
  assert (C := Bdiv_correct prec64 emax64 prec64_gt_0 prec64_lt_emax mode_NE x y Hy).
  rewrite rnd_small in C by exact H. destruct C as (C1 & C2 & _). rewrite C2. split; assumption.
Qed.

Lemma trunc_correct x : 0 <= B2R x -> f64_trunc x = Zfloor (B2R x).
Proof.
  intros H. unfold f64_trunc. apply eq_IZR. rewrite (Btrunc_correct prec64 emax64 prec64_lt_emax). unfold round, F2R, scaled_mantissa, cexp, FIX_exp. simpl.
  rewrite !Rmult_1_r. rewrite Ztrunc_floor by exact H. reflexivity.
Qed.

(** One quotient. *)
Lemma quotient_err y q : (0 <= y < q)%Z -> (q <= 2 ^ 63)%Z ->
  let d := f64_div (f64_of_Z y) (f64_of_Z q) in
  is_finite d = true /\ 0 <= B2R d <= 1 /\ Rabs (B2R d - IZR y / IZR q) <= 4 * u64f.
Proof.
  intros Hy Hq d.
  assert (A1 : (Z.abs y <= 2 ^ 64)%Z) by lia. assert (A2 : (Z.abs q <= 2 ^ 64)%Z) by lia.
  destruct (of_Z_correct y A1) as [Ey Fy].
  destruct (of_Z_correct q A2) as [Eq Fq].
  assert (Hq1 : 1 <= IZR q) by (apply IZR_le; lia).
  assert (Hy0 : 0 <= IZR y) by (apply IZR_le; lia).
  assert (Hyq : IZR y <= IZR q) by (apply IZR_le; lia).
  assert (Gq : 1 <= rnd (IZR q)).
  { apply (Rle_trans _ (rnd 1)); [rewrite (rnd_Z 1) by (vm_compute; discriminate); lra|]. apply rnd_le. exact Hq1. }
  assert (Gy : 0 <= rnd (IZR y)).
  { apply (Rle_trans _ (rnd 0)); [rewrite (rnd_Z 0) by (vm_compute; discriminate); lra|]. apply rnd_le. exact Hy0. }
  assert (Gyq : rnd (IZR y) <= rnd (IZR q)) by (apply rnd_le; exact Hyq).
  set (fy := rnd (IZR y)) in *. set (fq := rnd (IZR q)) in *.
  assert (R01 : 0 <= fy / fq <= 1).
  { split; [apply Rmult_le_pos; [lra|]; left; apply Rinv_0_lt_compat; lra|].
    apply (Rmult_le_reg_r fq); [lra|]. unfold Rdiv. rewrite Rmult_assoc, Rinv_l by lra. lra. }
  destruct (div_correct (f64_of_Z y) (f64_of_Z q) Fy) as [Ed Fd].
  { rewrite Eq. fold fq. lra. }
  { rewrite Ey, Eq. fold fy fq. rewrite Rabs_pos_eq by lra. apply (Rle_trans _ 1); [lra|]. apply IZR_le. vm_compute; discriminate. }
  fold d in Ed, Fd. rewrite Ey, Eq in Ed. fold fy fq in Ed.
  split; [exact Fd|]. rewrite Ed.
  assert (D01 : 0 <= rnd (fy / fq) <= 1).
  { split.
    - apply (Rle_trans _ (rnd 0)); [rewrite (rnd_Z 0) by (vm_compute; discriminate); lra|]. apply rnd_le. lra.
    - apply (Rle_trans _ (rnd 1)); [apply rnd_le; lra|rewrite (rnd_Z 1) by (vm_compute; discriminate); lra]. }
  split; [exact D01|].
  destruct (Z.eq_dec y 0) as [->|Hy1].
  - assert (E0 : fy = 0) by (unfold fy; rewrite rnd_Z by (vm_compute; discriminate); reflexivity).
    rewrite E0. unfold Rdiv. rewrite !Rmult_0_l. rewrite (rnd_Z 0) by (vm_compute; discriminate).
    rewrite Rminus_0_r, Rabs_R0. rewrite u64f_val. lra.
  - assert (Hy1' : 1 <= IZR y) by (apply IZR_le; lia).
    assert (T : bpow radix2 (-1022) <= bpow radix2 (-64)) by (apply bpow_le; vm_compute; discriminate).
    assert (T1 : bpow radix2 (-64) <= 1) by (simpl; lra).
    assert (Ey1 := rnd_err (IZR y)). rewrite Rabs_pos_eq in Ey1 by lra. specialize (Ey1 ltac:(lra)). fold fy in Ey1.
    assert (Eq1 := rnd_err (IZR q)). rewrite (Rabs_pos_eq (IZR q)) in Eq1 by lra. specialize (Eq1 ltac:(lra)). fold fq in Eq1.
    assert (Gy1 : 1 <= fy).
    { apply (Rle_trans _ (rnd 1)); [rewrite (rnd_Z 1) by (vm_compute; discriminate); lra|]. apply rnd_le. exact Hy1'. }
    assert (Gq64 : fq <= IZR (2 ^ 64)).
    { unfold fq. apply round_le_generic; try apply _.
      - change (IZR (2 ^ 64)) with (bpow radix2 64). apply generic_format_bpow. vm_compute. discriminate.
      - apply IZR_le. lia. }
    assert (Lo : bpow radix2 (-64) <= fy / fq).
    { apply (Rmult_le_reg_r fq); [lra|]. unfold Rdiv. rewrite Rmult_assoc, Rinv_l by lra.
      apply (Rle_trans _ 1); [|lra]. simpl. change (2 ^ 64)%Z with 18446744073709551616%Z in Gq64. lra. }
    assert (Ed1 := rnd_err (fy / fq)). rewrite (Rabs_pos_eq (fy / fq)) in Ed1 by lra. specialize (Ed1 ltac:(lra)).
    rewrite u64f_val in *.
    set (t := IZR y / IZR q). assert (Ht : IZR y = t * IZR q) by (unfold t; field; lra).
    assert (Ht0 : 0 <= t <= 1).
    { split; [apply Rmult_le_pos; [lra|]; left; apply Rinv_0_lt_compat; lra|].
      apply (Rmult_le_reg_r (IZR q)); [lra|]. rewrite <- Ht. lra. }
    set (w := fy / fq) in *. assert (Hw : fy = w * fq) by (unfold w; field; lra).
    (* |w - t| <= 2.5 u *)
    assert (Wt : Rabs (w - t) <= 25 / 10 * / 9007199254740992).
    { apply Rabs_le. apply Rabs_le_inv in Ey1, Eq1. rewrite Ht, Hw in Ey1.
      set (Q := IZR q) in *. clearbody Q w t. clear -Ey1 Eq1 Hq1 Ht0 R01.
      assert (U : 0 < / 9007199254740992 < / 1000) by lra. set (e := / 9007199254740992) in *. clearbody e.
      assert (B : - (e * (t * Q)) <= w * fq - t * Q <= e * (t * Q)) by lra.
      assert (C : - (e * (w * Q)) <= w * fq - w * Q <= e * (w * Q)) by nra.
      assert (D : - (e * (t * Q)) - e * (w * Q) <= (w - t) * Q <= e * (t * Q) + e * (w * Q)) by nra.
      split.
      - apply (Rmult_le_reg_r Q); [lra|]. nra.
      - apply (Rmult_le_reg_r Q); [lra|]. nra. }
    replace (rnd w - t) with ((rnd w - w) + (w - t)) by ring.
    apply (Rle_trans _ _ _ (Rabs_triang _ _)). lra.
Qed.

(** The sum. *)
Fixpoint rsum (l : list (Z * Z)) : R :=
  match l with
  | [] => 0
  | p :: l' => IZR (fst p) / IZR (snd p) + rsum l'
  end.

Definition fsum (l : list (Z * Z)) (acc : float64) : float64 :=
  fold_left (fun vi p => f64_add vi (f64_div (f64_of_Z (fst p)) (f64_of_Z (snd p)))) l acc.

Lemma fsum_err_gen l : forall acc S0 n,
  (forall y q, In (y, q) l -> (0 <= y < q)%Z /\ (q <= 2 ^ 63)%Z) ->
  (n + Z.of_nat (length l) <= 2 ^ 52)%Z -> (0 <= n)%Z ->
  is_finite acc = true -> 0 <= B2R acc <= IZR n -> Rabs (B2R acc - S0) <= u64f * IZR (n * (n + 4)) ->
  let m := (n + Z.of_nat (length l))%Z in
  is_finite (fsum l acc) = true /\ 0 <= B2R (fsum l acc) <= IZR m /\
  Rabs (B2R (fsum l acc) - (S0 + rsum l)) <= u64f * IZR (m * (m + 4)).
Proof.
  induction l as [|[y q] l IH]; intros acc S0 n Hl Hn Hn0 Hf Hr He m.
  - unfold m. simpl. rewrite Z.add_0_r, Rplus_0_r. split; [exact Hf|]. split; assumption.
  - cbn [fsum fold_left fst snd].
    destruct (Hl y q (or_introl eq_refl)) as [Hy Hq].
    destruct (quotient_err y q Hy Hq) as (Fd & Rd & Ed).
    set (d := f64_div (f64_of_Z y) (f64_of_Z q)) in *.
    cbn [length] in Hn. rewrite Nat2Z.inj_succ in Hn.
    assert (In0 : 0 <= IZR n) by (apply IZR_le; lia).
    assert (In1 : IZR n <= IZR (2 ^ 52)) by (apply IZR_le; lia).
    assert (E52 : IZR (2 ^ 52) <= 4503599627370496) by (apply IZR_le; vm_compute; discriminate).
    assert (E64 : 18446744073709551616 <= IZR (2 ^ 64)) by (apply IZR_le; vm_compute; discriminate).
    assert (Sm : 0 <= B2R acc + B2R d <= IZR (n + 1)) by (rewrite plus_IZR; lra).
    destruct (add_correct acc d Hf Fd) as [Ea Fa].
    { rewrite Rabs_pos_eq by lra. rewrite plus_IZR in Sm. lra. }
    assert (Ra : 0 <= rnd (B2R acc + B2R d) <= IZR (n + 1)).
    { split.
      - apply (Rle_trans _ (rnd 0)); [rewrite (rnd_Z 0) by (vm_compute; discriminate); lra|]. apply rnd_le. lra.
      - rewrite <- (rnd_Z (n + 1)) by lia. apply rnd_le. lra. }
    replace m with (n + 1 + Z.of_nat (length l))%Z by (unfold m; cbn [length]; lia).
    replace (S0 + rsum ((y, q) :: l)) with ((S0 + IZR y / IZR q) + rsum l) by (simpl; ring).
    apply (IH (f64_add acc d) (S0 + IZR y / IZR q) (n + 1)%Z).
    + intros y' q' H. apply Hl. right. exact H.
    + lia.
    + lia.
    + exact Fa.
    + rewrite Ea. exact Ra.
    + rewrite Ea.
      assert (Er : Rabs (rnd (B2R acc + B2R d) - (B2R acc + B2R d)) <= u64f * IZR (n + 1)).
      { destruct (Rle_or_lt (bpow radix2 (-1022)) (Rabs (B2R acc + B2R d))) as [H|H].
        - apply (Rle_trans _ _ _ (rnd_err _ H)). rewrite Rabs_pos_eq by lra.
          apply Rmult_le_compat_l; [rewrite u64f_val; lra|lra].
        - assert (E := error_le_half_ulp radix2 (SpecFloat.fexp prec64 emax64) (fun x => negb (Z.even x)) (B2R acc + B2R d)).
          change (Znearest (fun x => negb (Z.even x))) with (round_mode mode_NE) in E.
          apply (Rle_trans _ _ _ E).
          rewrite Rabs_pos_eq in H by lra.
          assert (UL : ulp radix2 (SpecFloat.fexp prec64 emax64) (B2R acc + B2R d) <= ulp radix2 (SpecFloat.fexp prec64 emax64) (bpow radix2 (-1022))).
          { apply ulp_le_pos; try apply _; lra. }
          rewrite ulp_bpow in UL.
          assert (B1 : bpow radix2 (SpecFloat.fexp prec64 emax64 (-1022 + 1)) <= bpow radix2 (-52)) by (apply bpow_le; vm_compute; discriminate).
          assert (I1 : 1 <= IZR (n + 1)) by (apply IZR_le; lia).
          unfold u64f. assert (0 < bpow radix2 (-52)) by apply bpow_gt_0. nra. }
      replace (rnd (B2R acc + B2R d) - (S0 + IZR y / IZR q)) with
        ((rnd (B2R acc + B2R d) - (B2R acc + B2R d)) + ((B2R acc - S0) + (B2R d - IZR y / IZR q))) by ring.
      apply (Rle_trans _ _ _ (Rabs_triang _ _)).
      assert (T2 := Rabs_triang (B2R acc - S0) (B2R d - IZR y / IZR q)).
      assert (Sum : u64f * IZR (n + 1) + (u64f * IZR (n * (n + 4)) + 4 * u64f) <= u64f * IZR ((n + 1) * (n + 1 + 4))).
      { rewrite !mult_IZR, !plus_IZR. rewrite u64f_val. nra. }
      lra.
Qed.

Lemma fsum_err l :
  (forall y q, In (y, q) l -> (0 <= y < q)%Z /\ (q <= 2 ^ 63)%Z) -> (length l <= 32)%nat ->
  0 <= B2R (fsum l (f64_of_Z 0)) <= IZR (Z.of_nat (length l)) /\
  Rabs (B2R (fsum l (f64_of_Z 0)) - rsum l) < / 4398046511104.
Proof.
  intros Hl Hlen.
  destruct (of_Z_correct 0 ltac:(vm_compute; discriminate)) as [E0 F0].
  rewrite (rnd_Z 0) in E0 by (vm_compute; discriminate).
  destruct (fsum_err_gen l (f64_of_Z 0) 0 0 Hl ltac:(lia) ltac:(lia) F0) as (_ & R & E).
  - rewrite E0. lra.
  - rewrite E0, Rminus_0_r, Rabs_R0. simpl. rewrite u64f_val. lra.
  - rewrite Z.add_0_l, Rplus_0_l in *. split; [exact R|].
    apply (Rle_lt_trans _ _ _ E).
    assert (B : IZR (Z.of_nat (length l) * (Z.of_nat (length l) + 4)) <= 1152) by (apply IZR_le; nia).
    rewrite u64f_val. nra.
Qed.

(** With all quotients over the common denominator. *)
Lemma rsum_common l (Q : Z) (M : Z) :
  (0 < Q)%Z ->
  rsum l = IZR M / IZR Q ->
  (forall y q, In (y, q) l -> (0 <= y < q)%Z /\ (q <= 2 ^ 63)%Z) -> (length l <= 32)%nat ->
  let v := f64_trunc (fsum l (f64_of_Z 0)) in
  (0 <= v <= Z.of_nat (length l))%Z /\
  (- Q < 2 ^ 42 * (M - v * Q))%Z /\ (2 ^ 42 * (M - v * Q - Q) < Q)%Z.
Proof.
  intros HQ HM Hl Hlen v.
  destruct (fsum_err l Hl Hlen) as [R E]. rewrite HM in E.
  unfold v. rewrite trunc_correct by lra. set (F := B2R (fsum l (f64_of_Z 0))) in *. clearbody F. clear v.
  set (v := Zfloor F).
  assert (V1 := Zfloor_lb F). assert (V2 := Zfloor_ub F). fold v in V1, V2.
  split; [split|].
  - unfold v. apply Zfloor_lub. simpl. lra.
  - apply le_IZR. lra.
  - assert (HQR : 0 < IZR Q) by (apply IZR_lt; lia).
    apply Rabs_lt_inv in E. set (t := IZR M / IZR Q) in *.
    assert (Ht : IZR M = t * IZR Q) by (unfold t; field; lra). clearbody t.
    assert (E2 : IZR (2 ^ 42) = 4398046511104) by (apply f_equal; reflexivity).
    split; apply lt_IZR; rewrite ?opp_IZR, ?mult_IZR, ?minus_IZR, ?mult_IZR, E2.
    + rewrite Ht. set (e := / 4398046511104) in *. assert (He : e * 4398046511104 = 1) by (unfold e; field).
      assert (- e < t - IZR v) by lra. clearbody e. nra.
    + rewrite Ht. set (e := / 4398046511104) in *. assert (He : e * 4398046511104 = 1) by (unfold e; field).
      assert (t - IZR v - 1 < e) by lra. clearbody e. nra.
Qed.
