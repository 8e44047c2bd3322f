(** The overflow margin computed in float64. *)
From Coq Require Import ZArith Reals Lra Lia List.
From Flocq Require Import Core.Core IEEE754.BinarySingleNaN.
From Verif Require Import Word RingOps Float64 FloatProofs Gadget.
Import ListNotations.
Open Scope Z_scope.
Open Scope R_scope.

Lemma margin_real (m : Z) : (0 < m)%Z -> (2 * m <= 2 ^ 64)%Z ->
  let G := f64_trunc (f64_div (f64_of_Z (2 ^ 64)) (f64_of_Z m)) in
  (2 <= G)%Z /\ (G * m <= 2 ^ 64 + 6144)%Z.
Proof.
  intros Hm Hm2 G.
  destruct (of_Z_correct (2 ^ 64) ltac:(vm_compute; discriminate)) as [EW FW].
  destruct (of_Z_correct m ltac:(lia)) as [Em Fm].
  assert (RW : rnd (IZR (2 ^ 64)) = IZR (2 ^ 64)).
  { apply round_generic; [apply _|]. change (IZR (2 ^ 64)) with (bpow radix2 64). apply generic_format_bpow. vm_compute. discriminate. }
  rewrite RW in EW.
  assert (M1 : 1 <= IZR m) by (apply IZR_le; lia).
  assert (G1 : 1 <= rnd (IZR m)).
  { apply (Rle_trans _ (rnd 1)); [rewrite (rnd_Z 1) by (vm_compute; discriminate); lra|]. apply rnd_le. exact M1. }
  assert (G63 : rnd (IZR m) <= IZR (2 ^ 63)).
  { apply round_le_generic; try apply _.
    - change (IZR (2 ^ 63)) with (bpow radix2 63). apply generic_format_bpow. vm_compute. discriminate.
    - apply IZR_le. lia. }
  assert (T : bpow radix2 (-1022) <= 1).
  { change 1 with (bpow radix2 0). apply bpow_le. vm_compute. discriminate. }
  assert (E1 := rnd_err (IZR m)). rewrite Rabs_pos_eq in E1 by lra. specialize (E1 ltac:(lra)).
  set (f := rnd (IZR m)) in *.
  set (w := IZR (2 ^ 64) / f). assert (Hw : w * f = IZR (2 ^ 64)) by (unfold w; field; lra).
  change (IZR (2 ^ 64)) with 18446744073709551616 in *. change (IZR (2 ^ 63)) with 9223372036854775808 in *.
  assert (W2 : 2 <= w).
  { apply (Rmult_le_reg_r f); [lra|]. rewrite Hw. lra. }
  assert (WW : w <= 18446744073709551616).
  { apply (Rmult_le_reg_r f); [lra|]. rewrite Hw. nra. }
  destruct (div_correct (f64_of_Z (2 ^ 64)) (f64_of_Z m) FW) as [Ed Fd].
  { rewrite Em. fold f. lra. }
  { rewrite EW, Em. fold f. change (18446744073709551616 / f) with w. rewrite Rabs_pos_eq by lra. exact WW. }
  rewrite EW, Em in Ed. fold f in Ed. change (18446744073709551616 / f) with w in Ed.
  assert (D2 : 2 <= rnd w).
  { apply (Rle_trans _ (rnd 2)); [rewrite (rnd_Z 2) by (vm_compute; discriminate); lra|]. apply rnd_le. exact W2. }
  assert (E2 := rnd_err w). rewrite (Rabs_pos_eq w) in E2 by lra. specialize (E2 ltac:(lra)).
  assert (EG : G = Zfloor (rnd w)).
  { unfold G. rewrite trunc_correct by (rewrite Ed; lra). rewrite Ed. reflexivity. }
  assert (F1 := Zfloor_lb (rnd w)). rewrite <- EG in F1.
  split.
  - rewrite EG. apply Zfloor_lub. exact D2.
  - apply Rabs_le_inv in E1, E2. rewrite u64f_val in *.
    apply le_IZR. rewrite mult_IZR, plus_IZR. change (IZR (2 ^ 64)) with 18446744073709551616.
    set (e := / 9007199254740992) in *.
    assert (U : 0 < e < / 1000000) by (unfold e; lra).
    assert (U2 : e * 18446744073709551616 = 2048) by (unfold e; lra).
    set (x := IZR m) in *. set (g := IZR G) in *.
    assert (A : g <= w + e * w) by lra.
    assert (B : x <= f + e * x) by lra.
    assert (C : x * (1 - e) <= f) by lra.
    (* g x <= (1+e) w x, and w x (1-e) <= w f = W *)
    assert (D : w * x * (1 - e) <= 18446744073709551616) by nra.
    assert (Wx : w * x <= 18446744073709551616 + 2 * 2048 + 1).
    { assert (0 <= w * x) by nra. clearbody e. set (y := w * x) in *. clearbody y. nra. }
    assert (g * x <= w * x + e * (w * x)) by nra.
    assert (0 <= w * x) by nra. set (y := w * x) in *. clearbody y.
    assert (e * y <= e * (18446744073709551616 + 4097)) by nra. lra.
Qed.
