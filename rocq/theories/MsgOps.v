(** Computing on messages: the evaluators act on the slots. *)
From Coq Require Import ZArith Reals Lra Lia List Arith.
From Flocq Require Import Core.Core IEEE754.BinarySingleNaN.
From Coquelicot Require Import Complex.
From Verif Require Import Word ModRed Arith Fermat ModRedProofs PolySpec PolyProofs Ring RingProofs NTT NTTProofs RingOps RNSSpec Repr RowProofs OpsProofs CRT Automorphism AutoProps Scaling ScalingSpec ScalingMore Float64 FloatProofs
  GadgetSpec Gadget GadgetProofs Frlwe FrlweSwitch Rlwe RlweSpec RlweBase RlweKeys RlweSwitch RlweGen RlweEnc RlweTop Ckks CkksSpec CkksBase CkksOps CkksFloat CkksAdd CkksRescale CkksMul CkksRelin CkksRot Fckks FckksSpec FckksProps
  Fft FftSpec FftProofs FftRing FftTop SlotSpec SlotProofs EncSpec EncFloat SlotTrace MsgSpec SlotMsg Msg MsgProofs.
From Verif Require BasisEx.
Import ListNotations.
Open Scope R_scope.

(** ** Rotations *)
Lemma Cpw_add x i j : Cpw x (i + j) = Cmult (Cpw x i) (Cpw x j).
Proof. induction i as [|i IH]; cbn [rpow Nat.add]; [ring|]. rewrite IH. ring. Qed.
Lemma Cpw_mul1 x i j : Cpw x i = RtoC 1 -> Cpw x (i * j) = RtoC 1.
Proof. intros H. induction j as [|j IH]; [rewrite Nat.mul_0_r; reflexivity|]. rewrite Nat.mul_succ_r, Cpw_add, IH, H. ring. Qed.
Lemma slot_gal m r P k j : built_ring 2 r -> rN r = (2 ^ (m + 1))%nat ->
  slot (rN r) (pauto (rN r) (Z.to_nat (GaloisElementForColumnRotationBy r k)) P) j = slot (rN r) P (j + Z.to_nat (k mod 2 ^ Z.of_nat m)).
Proof.
  intros Hb EN. assert (HN : (0 < rN r)%nat) by (rewrite EN; apply Nat.neq_0_lt_0, Nat.pow_nonzero; lia).
  assert (P2 : (0 < 2 ^ Z.of_nat m)%Z) by (apply Z.pow_pos_nonneg; lia).
  assert (He : (0 <= k mod 2 ^ Z.of_nat m)%Z) by (apply Z.mod_pos_bound; exact P2).
  assert (X := gal_eqm 2 r (Z.le_refl 2) Hb m k (k mod 2 ^ Z.of_nat m) EN He). specialize (X ltac:(unfold eqm; rewrite Z.mod_mod by lia; reflexivity)).
  assert (G := gal_range 2 r (Z.le_refl 2) Hb k).
  set (g := GaloisElementForColumnRotationBy r k) in *. set (e := Z.to_nat (k mod 2 ^ Z.of_nat m)).
  replace (k mod 2 ^ Z.of_nat m)%Z with (Z.of_nat e) in X by (unfold e; apply Z2Nat.id; exact He).
  rewrite !slot_ev by exact HN. rewrite ev_auto by (try apply pnt_N; exact HN). f_equal. rewrite <- (pnt_rot (rN r) j e HN).
  assert (T : Cpw (pnt (rN r) j) (2 * rN r) = RtoC 1).
  { replace (2 * rN r)%nat with (rN r + rN r)%nat by lia. rewrite Cpw_add, !pnt_N by exact HN. ring. }
  assert (M : forall a, Cpw (pnt (rN r) j) a = Cpw (pnt (rN r) j) (a mod (2 * rN r))).
  { intros a. rewrite (Nat.div_mod a (2 * rN r)) at 1 by lia. rewrite Cpw_add, Cpw_mul1 by exact T. ring. }
  rewrite (M (Z.to_nat g)), (M (5 ^ e)%nat). f_equal. apply Nat2Z.inj. rewrite !Nat2Z.inj_mod.
  replace (Z.of_nat (Z.to_nat g)) with g by (symmetry; apply Z2Nat.id; destruct G; lia). rewrite Nat2Z.inj_pow, Nat2Z.inj_mul. exact X.
Qed.

(** The values are shifted by k places. *)
Lemma sf_gal m L r P k s v e : built_ring 9 r -> rN r = (2 ^ (m + 1))%nat -> (L <= m)%nat -> stands_for (rN r) L P s v e ->
  stands_for (rN r) L (pauto (rN r) (Z.to_nat (GaloisElementForColumnRotationBy r k)) P) s (fun j => v (Z.to_nat ((Z.of_nat j + k) mod 2 ^ Z.of_nat L))) e.
Proof.
  intros BQ EN HL SS j. rewrite (slot_gal m r P k j (BasisEx.built_weaken 9 2 r ltac:(lia) BQ) EN). specialize (SS (j + Z.to_nat (k mod 2 ^ Z.of_nat m))%nat).
  replace (Z.to_nat ((Z.of_nat (j mod 2 ^ L) + k) mod 2 ^ Z.of_nat L)) with ((j + Z.to_nat (k mod 2 ^ Z.of_nat m)) mod 2 ^ L)%nat; [exact SS|].
  assert (P1 : (0 < 2 ^ Z.of_nat L)%Z) by (apply Z.pow_pos_nonneg; lia). assert (P2 : (0 < 2 ^ Z.of_nat m)%Z) by (apply Z.pow_pos_nonneg; lia).
  apply Nat2Z.inj. rewrite Z2Nat.id by (apply Z.mod_pos_bound; exact P1). rewrite !Nat2Z.inj_mod, Nat2Z.inj_add, Nat2Z.inj_pow, Z2Nat.id by (apply Z.mod_pos_bound; exact P2).
  change (Z.of_nat 2) with 2%Z. rewrite Z.add_mod_idemp_l by lia.
  replace (Z.of_nat m) with (Z.of_nat L + Z.of_nat (m - L))%Z by lia. rewrite Z.pow_add_r by lia.
  assert (P3 : (0 < 2 ^ Z.of_nat (m - L))%Z) by (apply Z.pow_pos_nonneg; lia).
  rewrite (Zmod_eq k (2 ^ Z.of_nat L * 2 ^ Z.of_nat (m - L))) by nia. set (t := (k / (2 ^ Z.of_nat L * 2 ^ Z.of_nat (m - L)))%Z). transitivity ((Z.of_nat j + k + (- (t * 2 ^ Z.of_nat (m - L))) * 2 ^ Z.of_nat L) mod 2 ^ Z.of_nat L)%Z; [f_equal; ring|apply Z_mod_plus_full].
Qed.

(** ** Small facts *)
Lemma prefix_pos r level : built_ring 9 r -> (0 < product (RlweSpec.prefix r level))%Z.
Proof.
  intros Br. assert (forall l, (forall q, In q l -> In q (moduli r)) -> (0 < product l)%Z).
  { induction l as [|q l IH]; intros Hl; [reflexivity|]. cbn [product fold_right]. apply Z.mul_pos_pos.
    - assert (Pq : Znumtheory.prime q) by (apply (sw_prime r); [exact Br|apply Hl; left; reflexivity]). apply Znumtheory.prime_ge_2 in Pq. lia.
    - apply IH. intros x Hx. apply Hl. right. exact Hx. }
  apply H. intros q Hq. apply firstn_in in Hq. exact Hq.
Qed.
Lemma scale_product x y : scale_ok x -> scale_ok y -> 1 <= fval x * fval y <= IZR (2 ^ 1000) ->
  scale_ok (f64_mul x y) /\ Rabs (fval x * fval y - fval (f64_mul x y)) <= fval x * fval y * / 2 ^ 52.
Proof.
  intros [Fx Px] [Fy Py] [H1 H2]. rewrite big_Z in H2. assert (B := big_le_1001).
  destruct (mul_big x y Fx Fy) as [E F]; [rewrite Rabs_pos_eq; lra|]. 
  assert (R1 : Rabs (rnd (fval x * fval y) - fval x * fval y) <= u64f * Rabs (fval x * fval y)).
  { apply rnd_err. rewrite Rabs_pos_eq by lra. apply Rle_trans with (2 := H1). change 1 with (bpow radix2 0). apply bpow_le. lia. }
  rewrite (Rabs_pos_eq (fval x * fval y)) in R1 by lra. rewrite u64f_val in R1. split.
  - split; [exact F|]. rewrite E. apply Rlt_le_trans with 1; [lra|]. apply rnd_gen'; [|exact H1]. change 1 with (bpow radix2 0). apply fmt_bpow. lia.
  - rewrite E, Rabs_minus_sym. apply Rle_trans with (1 := R1). rewrite Rmult_comm. apply Rmult_le_compat_l; [lra|]. lra.
Qed.
Lemma vb_mul v0 v1 A0 A1 : vbound v0 A0 -> vbound v1 A1 -> vbound (fun k => (v0 k * v1 k)%C) (A0 * A1).
Proof.
  intros [P0 V0] [P1 V1]. split; [apply Rmult_le_pos; assumption|]. intros k. rewrite Cmod_mult. apply Rmult_le_compat; try apply Cmod_ge_0; [apply V0|apply V1].
Qed.

Lemma sf_product N L M0 M1 x y v0 v1 A0 A1 e0 e1 : (0 < N)%nat -> scale_ok x -> scale_ok y -> 1 <= fval x * fval y <= IZR (2 ^ 1000) -> vbound v0 A0 -> vbound v1 A1 ->
  stands_for N L M0 (fval x) v0 e0 -> stands_for N L M1 (fval y) v1 e1 ->
  stands_for N L (pmul N M0 M1) (fval (f64_mul x y)) (fun k => (v0 k * v1 k)%C) (product_eps (fval x) (fval y) A0 A1 e0 e1).
Proof.
  intros HN Q0 Q1 HSc V0 V1 S0 S1. destruct (scale_product _ _ Q0 Q1 HSc) as [Y1 Y2]. set (s0 := fval x) in *. set (s1 := fval y) in *.
  apply sf_weaken with (s0 * A0 * e1 + s1 * A1 * e0 + e0 * e1 + Rabs (s0 * s1 - fval (f64_mul x y)) * (A0 * A1)).
  - apply sf_scale; [|apply vb_mul; assumption]. apply sf_mul; try assumption; [destruct Q0; unfold s0; lra|destruct Q1; unfold s1; lra].
  - unfold product_eps. assert (0 <= A0 * A1) by (apply Rmult_le_pos; [apply V0|apply V1]).
    assert (Rabs (s0 * s1 - fval (f64_mul x y)) * (A0 * A1) <= s0 * s1 * / 2 ^ 52 * (A0 * A1)) by (apply Rmult_le_compat_r; assumption). lra.
Qed.

(** ** The fast evaluator *)
Section FastMsg.
  Variables (Qs Ps Ts : list Z) (gamma : nat) (p : FParams) (ks : KeySwitcher) (conv : list BasisExt.BasisExtender) (m L : nat).
  Hypothesis (HF : fast_setup Qs Ps Ts gamma p ks conv (m + 1)).
  Let rQ := fpQ p.
  Let rP := fpP p.
  Let n := rN rQ.

  Lemma msg_mul_relin level0 level1 lo d B0 B1 rlk square c0 c1 out scratch sk s v0 v1 A0 A1 e0 e1 DQ Be Bs :
    secret rQ (m + 1) sk s -> ct_ok rQ level0 B0 c0 -> ct_ok rQ level1 B1 c1 -> fits rQ B0 -> fits rQ B1 ->
    carries rQ m L sk c0 v0 e0 -> carries rQ m L sk c1 v1 e1 -> vbound v0 A0 -> vbound v1 A1 ->
    scale_ok (ctScale c0) -> scale_ok (ctScale c1) -> let s0 := fval (ctScale c0) in let s1 := fval (ctScale c1) in 1 <= s0 * s1 <= IZR (2 ^ 1000) ->
    ctDegree c0 = 1%nat -> ctDegree c1 = 1%nat -> (square = true -> c0 = c1) -> (1 <= d <= 2)%nat -> shaped d lo out ->
    let level := Nat.min (Nat.min level0 level1) lo in
    fast_key conv p (m + 1) rlk s (ppow n s 2) Be -> blocks_below rQ level (maxLevel rP) DQ -> room Qs Ps Ts gamma n level DQ -> (0 <= Be)%Z -> (0 <= Bs)%Z -> pbound n Bs s ->
    exists c, FMulRelin ks rlk square c0 c1 out scratch = Some c /\ ct_ok rQ level canon c /\ ctDegree c = 1%nat /\
      ctScale c = f64_mul (ctScale c0) (ctScale c1) /\ scale_ok (ctScale c) /\
      carries rQ m L sk c (fun k => (v0 k * v1 k)%C) (product_eps s0 s1 A0 A1 e0 e1 + INR n * switch_size rQ rP level (maxLevel rP) DQ Be Bs).
  Proof.
    intros Hs K0 K1 F0 F1 (M0 & D0 & S0) (M1 & D1 & S1) V0 V1 Q0 Q1 s0 s1 HSc G0 G1 Hsq Hd HO level Hk HB HR HBe HBs Hsb.
    destruct (f_mul_relin Qs Ps Ts gamma p ks conv (m + 1) HF level0 level1 lo d B0 B1 rlk square c0 c1 out scratch sk s M0 M1 DQ Be Bs
      Hs K0 K1 F0 F1 D0 D1 G0 G1 Hsq Hd HO Hk HB HR HBe HBs Hsb) as (c & E & X1 & X2 & X3 & X4 & X5 & X6). fold rQ rP level in X2, X5, X6.
    destruct (scale_product _ _ Q0 Q1 HSc) as [Y1 Y2]. fold s0 s1 in Y2. exists c. split; [exact X1|]. split; [exact X2|]. split; [exact X3|]. split; [exact X4|]. split; [rewrite X4; exact Y1|].
    assert (HN : (0 < n)%nat) by (unfold n, rQ; rewrite (f_EL Qs Ps Ts gamma p ks conv (m + 1) HF); apply Nat.neq_0_lt_0, Nat.pow_nonzero; lia).
    exists (padd (pmul n M0 M1) E). split; [exact X6|]. rewrite X4. apply sf_noise; [exact HN| |].
    - apply sf_product; assumption.
    - intros k Hk'. apply switch_real; [|exact X5|exact Hk']. apply prefix_pos. apply (f_pair Qs Ps Ts gamma p ks conv (m + 1) HF).
  Qed.

  Lemma msg_rotate_new level B rtk k c scratch sk s v eps DQ Be Bs : (L <= m)%nat ->
    secret rQ (m + 1) sk s -> ct_ok rQ level B c -> fits rQ B -> words rQ level (fun q => 2 * q)%Z (comp c 1) -> carries rQ m L sk c v eps -> ctDegree c = 1%nat ->
    fast_rotation_key conv p (m + 1) k rtk s Be -> blocks_below rQ level (maxLevel rP) DQ -> room Qs Ps Ts gamma n level DQ -> (0 <= Be)%Z -> (0 <= Bs)%Z -> pbound n Bs s ->
    exists c', FRotateNew ks rtk c scratch = Some c' /\ ct_ok rQ level B c' /\ ctDegree c' = 1%nat /\ ctScale c' = ctScale c /\
      carries rQ m L sk c' (fun j => v (Z.to_nat ((Z.of_nat j + k) mod 2 ^ Z.of_nat L))) (eps + INR n * switch_size rQ rP level (maxLevel rP) DQ Be Bs).
  Proof.
    intros HL Hs K F W2 (P & D & SS) G Hk HB HR HBe HBs Hsb.
    assert (EN := f_EL Qs Ps Ts gamma p ks conv (m + 1) HF). fold rQ in EN.
    assert (BQ : built_ring 9 rQ) by apply (f_pair Qs Ps Ts gamma p ks conv (m + 1) HF).
    assert (HN : (0 < n)%nat) by (unfold n; rewrite EN; apply Nat.neq_0_lt_0, Nat.pow_nonzero; lia).
    assert (Lc : ctLevel c = level) by (destruct K as (_ & K2 & _ & K3); unfold ctLevel; destruct (K3 0%nat ltac:(lia)) as [-> _]; lia).
    unfold FRotateNew. rewrite (f_ks Qs Ps Ts gamma p ks conv (m + 1) HF), Lc. fold rQ n.
    destruct (f_rotate' Qs Ps Ts gamma p ks conv (m + 1) HF level level B rtk k c (NewCiphertext n 1 level (ctScale c)) scratch sk s P DQ Be Bs Hs K F W2 D G) as (c' & E & X1 & X2 & X3 & X4 & X5 & X6); try assumption.
    - unfold NewCiphertext. split; [cbn; lia|]. split; [reflexivity|]. intros j Hj. unfold comp. cbn [ctV]. rewrite (nth_indep _ [] (repeat (repeat 0%Z n) (S level))) by (rewrite repeat_length; lia). rewrite nth_repeat. apply repeat_length.
    - lia.
    - exists c'. split; [exact X1|]. split; [exact X2|]. split; [exact X3|]. split; [exact X4|]. eexists. split; [exact X6|]. rewrite X4. apply sf_noise; [exact HN| |].
      + apply (sf_gal m L rQ P k); assumption.
      + intros i Hi. apply switch_real; [apply prefix_pos; apply (f_pair Qs Ps Ts gamma p ks conv (m + 1) HF)|exact X5|exact Hi].
  Qed.
End FastMsg.
