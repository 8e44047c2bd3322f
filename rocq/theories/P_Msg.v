(** C75-C77: messages.  [carries rQ m L sk c v eps] says that under the key sk the ciphertext c decrypts to a polynomial whose slots are
    the values v(0), ..., v(2^L-1), repeated, times the scale of c, up to eps (MsgSpec.v); [vbound v A] that the values are at most A. *)
From Coq Require Import Reals Lra Lia.
From Coquelicot Require Import Complex.
From Verif Require Import Word Arith PolySpec Ring RingOps Repr BasisEx FrlweProps RlweEx FrlweEx RNSSpec Automorphism Gadget GadgetSpec Frlwe FrlweSetup ScalingSpec RlweSpec Rlwe RlweKeys Float64 Ckks CkksSpec CkksBase CkksConst CkksOps CkksEx Fckks FckksSpec FckksProps FftSpec SlotSpec Encoder EncSpec EncSlots EncEx Msg MsgSpec MsgProofs MsgOps MsgCkks MsgCase MsgEx DrawSpec DrawProofs SessionSpec SessionProofs SessionEx SessionParts.
Open Scope R_scope.

(** ** C75: decryption to a message.  [cs] is the list of ciphertexts decrypted before with the same decryptor, which keeps the lowest
    level it has seen. *)
Theorem C75_decrypt_to_msg : forall m L rQ delta roots buf pool cs level B c sk s v A eps,
  built_ring 9 rQ -> encoder_shape m L rQ delta roots buf -> (3 <= L -> 16 <= length buf)%nat -> pool_shape rQ pool ->
  secret rQ (m + 1) sk s -> ct_ok rQ level B c -> fits rQ B -> scale_ok (ctScale c) -> carries rQ m L sk c v eps -> vbound v A -> 1 <= A -> 0 <= eps ->
  let l := Nat.min (lowest rQ cs) level in let sc := fval (ctScale c) in
  2 * (sc * A + eps) + 2 <= IZR (lprod rQ l) -> sc * A + eps <= IZR (2 ^ 1000) -> 2 ^ L * (A + eps / sc) <= IZR (2 ^ 900) -> growth delta (L + 1) <= 1 ->
  exists out, fst (DecryptToMsg roots buf pool L (decrypt_all (NewFDecryptor rQ sk) cs) c) = Some out /\ length out = (2 ^ L)%nat /\
    forall k, (k < 2 ^ L)%nat -> cfinite (nth k out c_zero) /\
      Cmod (value_at out k - v k)%C <= eps / sc + 2 ^ L * (A + eps / sc) * growth delta (L + 1).
Proof. exact decrypt_msg. Qed.
Print Assumptions C75_decrypt_to_msg.

(** A fresh encryption of 6 values at scale 2^20 is decrypted with an error of at most 1/900. *)
Example C75_case : exists roots sk c out, carries xQ 4 3 sk c (value_at s_vals) (inEps f_in) /\
  fst (DecryptToMsg roots (repeat c_zero 16) (zero_rows 32 3) 3 (NewFDecryptor xQ sk) c) = Some out /\ length out = 8%nat /\
  forall k, (k < 8)%nat -> Cmod (value_at out k - value_at s_vals k)%C <= / 900.
Proof.
  destruct x_inputs as (ks & conv & roots & sk & s & pk & rlk & rtk & c0 & c1 & HF & HR & Hs & Hsb & _ & _ & _ & (K1 & K2 & K3 & K4 & K5 & K6) & _).
  assert (BQ : built_ring 9 xQ) by apply (f_pair mxQ mxP mxT 1 par32 ks conv 5 HF).
  assert (He := f_in_eps). assert (Ev := proj2 xscale_val).
  assert (G := s_growth 4 ltac:(lia)). assert (G0 : 0 <= growth (/ 2 ^ 48) 4) by (unfold growth; assert (1 <= (1 + (/ 2 ^ 48 + / 2 ^ 49)) ^ 4) by (apply pow_R1_Rle; lra); lra).
  assert (B1 : 2000000000 <= IZR (2 ^ 900)) by (apply IZR_le; discriminate). assert (B2 : 2000000000 <= IZR (2 ^ 1000)) by (apply IZR_le; discriminate).
  destruct (C75_decrypt_to_msg 4 3 xQ (/ 2 ^ 48) roots (repeat c_zero 16) (zero_rows 32 3) [] 2 canon c0 sk s (value_at s_vals) 2 (inEps f_in) BQ) as (out & O1 & O2 & O3).
  - split; [reflexivity|]. split; [lia|]. split; [reflexivity|exact HR].
  - intros _. rewrite repeat_length. lia.
  - reflexivity.
  - exact Hs.
  - exact K1.
  - exact (fits_canon xQ BQ 5 eq_refl).
  - rewrite K3. exact K4.
  - exact K5.
  - exact K6.
  - lra.
  - lra.
  - rewrite K3. change (inScale f_in) with xscale. rewrite Ev. change (lprod xQ (Nat.min (lowest xQ []) 2)) with 33230104434881%Z. lra.
  - rewrite K3. change (inScale f_in) with xscale. rewrite Ev. lra.
  - rewrite K3. change (inScale f_in) with xscale. rewrite Ev. lra.
  - change (3 + 1)%nat with 4%nat. lra.
  - exists roots, sk, c0, out. split; [exact K5|]. split; [exact O1|]. split; [exact O2|]. intros k Hk. destruct (O3 k Hk) as [_ O4].
    apply Rle_trans with (1 := O4). rewrite K3. change (inScale f_in) with xscale. rewrite Ev. change (3 + 1)%nat with 4%nat.
    set (e := inEps f_in) in *. set (g := growth _ 4) in *. clearbody e g. nra.
Qed.

(** ** C76: encryption of a message into a ciphertext [out] of any content, for any small u, e0, e1. *)
Theorem C76_encrypt_msg : forall m L rQ rP delta roots buf vals A lp ptp sk s pk Be Bs lo out u e0 e1 pool poolP0 poolP1 U E0 E1 Bu Bf,
  ring_pair rQ rP -> encoder_shape m L rQ delta roots buf -> (3 <= L)%nat -> (16 <= length buf)%nat ->
  pt_shape rQ lp ptp -> ptNTT ptp = true -> scale_ok (ptScale ptp) -> values_ok L A vals -> 4 * (fval (ptScale ptp) * A) <= IZR (2 ^ 64) -> growth delta (L + 2) <= 1 ->
  secret rQ (m + 1) sk s -> public_key_ok rQ rP (m + 1) pk s Be -> shaped 1 lo out ->
  let level := Nat.min lp lo in
  sampled rQ rP level 0 u U -> sampled rQ rP level 0 e0 E0 -> sampled rQ rP level 0 e1 E1 ->
  (0 <= Bu)%Z -> (0 <= Be)%Z -> (0 <= Bf)%Z -> (0 <= Bs)%Z -> pbound (rN rQ) Bs s -> pbound (rN rQ) Bu U -> pbound (rN rQ) Bf E0 -> pbound (rN rQ) Bf E1 ->
  exists c ptp', EncryptMsg rQ rP pk roots buf ptp L vals out u e0 e1 pool poolP0 poolP1 = Some (c, ptp') /\
    pt_shape rQ lp ptp' /\ ptNTT ptp' = true /\ ptScale ptp' = ptScale ptp /\
    ct_ok rQ level canon c /\ ctDegree c = 1%nat /\ ctScale c = ptScale ptp /\
    carries rQ m L sk c (value_at vals) (encode_eps L (fval (ptScale ptp)) A delta + INR (rN rQ) * fresh_size (rN rQ) (mq (rmod rP 0)) Bu Be Bf Bs).
Proof. exact encrypt_msg. Qed.
Print Assumptions C76_encrypt_msg.

Example C76_case : exists roots sk s pk U c pt, roots_near 64 (/ 2 ^ 48) roots /\ secret xQ 5 sk s /\ public_key_ok xQ xP 5 pk s 19 /\
  EncryptMsg xQ xP pk roots (repeat c_zero 16) (NewPlaintext xQ 2 xscale) 3 t_vals (NewCiphertext 32 1 2 xscale) (res_rows xQ 2 U) (res_rows xQ 2 U) (res_rows xQ 2 U) [] [] [] = Some (c, pt) /\
  U 3%nat = (-1)%Z /\ carries xQ 4 3 sk c (value_at t_vals) (inEps f_in).
Proof.
  destruct x_inputs as (ks & conv & roots & sk & s & pk & rlk & rtk & c0 & c1 & HF & HR & Hs & Hsb & Hpk & _).
  set (U := fun k : nat => match k with 0%nat => 1%Z | 3%nat => (-1)%Z | 4%nat => 1%Z | _ => 0%Z end).
  assert (HU : forall k, (Z.abs (U k) <= 1)%Z) by (intros k; do 5 (destruct k as [|k]; [cbn; lia|]); cbn; lia).
  assert (Ev := proj2 xscale_val). assert (HP := f_pair mxQ mxP mxT 1 par32 ks conv 5 HF).
  assert (SU : sampled xQ xP 2 0 (res_rows xQ 2 U) U).
  { split.
    - apply (rns_weaken xQ 2 canon); [intros i Hi; unfold canon; lia|]. apply (res_rows_repr 2); [lia|apply (one_2 xQ), HP|cbn; lia].
    - intros k _. specialize (HU k). split; [change (mq (rmod xQ 0)) with 32321%Z; lia|]. intros i Hi. destruct i as [|i]; [change (mq (rmod xP 0)) with 31489%Z; lia|lia]. }
  destruct (C76_encrypt_msg 4 3 xQ xP (/ 2 ^ 48) roots (repeat c_zero 16) t_vals 2 2 (NewPlaintext xQ 2 xscale) sk s pk 19 1 2 (NewCiphertext 32 1 2 xscale)
    (res_rows xQ 2 U) (res_rows xQ 2 U) (res_rows xQ 2 U) [] [] [] U U U 1 19 HP) as (c & pt & X1 & _ & _ & _ & _ & _ & _ & X2).
  - split; [reflexivity|]. split; [lia|]. split; [reflexivity|exact HR].
  - lia.
  - rewrite repeat_length. lia.
  - split; [cbn; lia|]. split; [reflexivity|]. intros i Hi. destruct i as [|[|[|i]]]; [reflexivity..|lia].
  - reflexivity.
  - exact xscale_ok.
  - exact t_vals_ok.
  - change (ptScale (NewPlaintext xQ 2 xscale)) with xscale. rewrite Ev. replace (4 * (1048576 * 2)) with (IZR (2 ^ 23)) by lra. apply IZR_le. discriminate.
  - apply Rle_trans with (1 := s_growth 5 (le_n 5)). lra.
  - exact Hs.
  - exact Hpk.
  - apply new_shaped.
  - exact SU.
  - exact SU.
  - exact SU.
  - lia.
  - lia.
  - lia.
  - lia.
  - exact Hsb.
  - intros k _. apply HU.
  - intros k _. specialize (HU k). lia.
  - intros k _. specialize (HU k). lia.
  - exists roots, sk, s, pk, U, c, pt. split; [exact HR|]. split; [exact Hs|]. split; [exact Hpk|]. split; [exact X1|]. split; [reflexivity|exact X2].
Qed.

(** ** C77: what the evaluators do to messages.  The fast product (into a receiver of degree 1 or 2 of any content) ... *)
Theorem C77_mul_relin : forall Qs Ps Ts gamma p ks conv m L, fast_setup Qs Ps Ts gamma p ks conv (m + 1) ->
  let rQ := fpQ p in let rP := fpP p in let n := rN rQ in
  forall level0 level1 lo d B0 B1 rlk square c0 c1 out scratch sk s v0 v1 A0 A1 e0 e1 DQ Be Bs,
  secret rQ (m + 1) sk s -> ct_ok rQ level0 B0 c0 -> ct_ok rQ level1 B1 c1 -> fits rQ B0 -> fits rQ B1 ->
  carries rQ m L sk c0 v0 e0 -> carries rQ m L sk c1 v1 e1 -> vbound v0 A0 -> vbound v1 A1 ->
  scale_ok (ctScale c0) -> scale_ok (ctScale c1) -> let s0 := fval (ctScale c0) in let s1 := fval (ctScale c1) in 1 <= s0 * s1 <= IZR (2 ^ 1000) ->
  ctDegree c0 = 1%nat -> ctDegree c1 = 1%nat -> (square = true -> c0 = c1) -> (1 <= d <= 2)%nat -> shaped d lo out ->
  let level := Nat.min (Nat.min level0 level1) lo in
  fast_key conv p (m + 1) rlk s (ppow n s 2) Be -> blocks_below rQ level (maxLevel rP) DQ -> room Qs Ps Ts gamma n level DQ -> (0 <= Be)%Z -> (0 <= Bs)%Z -> pbound n Bs s ->
  exists c, FMulRelin ks rlk square c0 c1 out scratch = Some c /\ ct_ok rQ level canon c /\ ctDegree c = 1%nat /\
    ctScale c = f64_mul (ctScale c0) (ctScale c1) /\ scale_ok (ctScale c) /\
    carries rQ m L sk c (fun k => (v0 k * v1 k)%C) (product_eps s0 s1 A0 A1 e0 e1 + INR n * switch_size rQ rP level (maxLevel rP) DQ Be Bs).
Proof. exact msg_mul_relin. Qed.
Print Assumptions C77_mul_relin.

(** ... and the fast rotation. *)
Theorem C77_rotate : forall Qs Ps Ts gamma p ks conv m L, fast_setup Qs Ps Ts gamma p ks conv (m + 1) ->
  let rQ := fpQ p in let rP := fpP p in let n := rN rQ in
  forall level B rtk k c scratch sk s v eps DQ Be Bs, (L <= m)%nat ->
  secret rQ (m + 1) sk s -> ct_ok rQ level B c -> fits rQ B -> words rQ level (fun q => 2 * q)%Z (comp c 1) -> carries rQ m L sk c v eps -> ctDegree c = 1%nat ->
  fast_rotation_key conv p (m + 1) k rtk s Be -> blocks_below rQ level (maxLevel rP) DQ -> room Qs Ps Ts gamma n level DQ -> (0 <= Be)%Z -> (0 <= Bs)%Z -> pbound n Bs s ->
  exists c', FRotateNew ks rtk c scratch = Some c' /\ ct_ok rQ level B c' /\ ctDegree c' = 1%nat /\ ctScale c' = ctScale c /\
    carries rQ m L sk c' (fun j => v (Z.to_nat ((Z.of_nat j + k) mod 2 ^ Z.of_nat L))) (eps + INR n * switch_size rQ rP level (maxLevel rP) DQ Be Bs).
Proof. exact msg_rotate_new. Qed.
Print Assumptions C77_rotate.

Example C77_fast_case : exists ks conv sk s rlk rtk c0 c1 c c', fast_setup mxQ mxP mxT 1 par32 ks conv 5 /\ secret xQ 5 sk s /\
  carries xQ 4 3 sk c0 (value_at s_vals) (inEps f_in) /\ carries xQ 4 3 sk c1 (value_at t_vals) (inEps f_in) /\
  FMulRelin ks rlk false c0 c1 (NewCiphertext 32 2 2 f64_zero) x_fs = Some c /\ carries xQ 4 3 sk c (fun k => value_at s_vals k * value_at t_vals k)%C (inEps f_mul) /\
  FRotateNew ks rtk c x_fs = Some c' /\ carries xQ 4 3 sk c' (fun j => (value_at s_vals ((j + 1) mod 8) * value_at t_vals ((j + 1) mod 8))%C) (inEps f_rot).
Proof.
  destruct x_inputs as (ks & conv & roots & sk & s & pk & rlk & rtk & c0 & c1 & HF & HR & Hs & Hsb & _ & Hr & Ht & (K1 & K2 & K3 & K4 & K5 & K6) & (J1 & J2 & J3 & J4 & J5 & J6)).
  assert (BQ : built_ring 9 xQ) by apply (f_pair mxQ mxP mxT 1 par32 ks conv 5 HF). assert (FC := fits_canon xQ BQ 5 eq_refl). assert (Ev := proj2 xscale_val).
  destruct (C77_mul_relin mxQ mxP mxT 1 par32 ks conv 4 3 HF 2 2 2 2 canon canon rlk false c0 c1 (NewCiphertext 32 2 2 f64_zero) x_fs sk s (value_at s_vals) (value_at t_vals) 2 2 (inEps f_in) (inEps f_in) 32321 19 1
    Hs K1 J1 FC FC K5 J5 K6 J6) as (c & X1 & X2 & X3 & X4 & X5 & X6).
  - rewrite K3. exact K4.
  - rewrite J3. exact J4.
  - rewrite K3, J3. change (inScale f_in) with xscale. rewrite Ev. replace (1048576 * 1048576) with (IZR (2 ^ 40)) by lra. split; apply IZR_le; discriminate.
  - exact K2.
  - exact J2.
  - discriminate.
  - lia.
  - apply new_shaped.
  - exact Hr.
  - exact blocks32.
  - exact room32.
  - lia.
  - lia.
  - exact Hsb.
  - rewrite K3, J3 in X6.
    destruct (C77_rotate mxQ mxP mxT 1 par32 ks conv 4 3 HF 2 canon rtk 1 c x_fs sk s (fun k => (value_at s_vals k * value_at t_vals k)%C) (inEps f_mul) 32321 19 1 ltac:(lia) Hs X2 FC) as (c' & Y1 & _ & _ & _ & Y2).
    + destruct X2 as (_ & _ & _ & X2). destruct (X2 1%nat) as [_ Y]; [unfold ctDegree in X3; lia|]. apply (words_weaken xQ 2 canon (fun q => 2 * q)%Z); [|exact Y].
      intros q Hq. unfold canon. destruct (one_mod xQ BQ q) as [Q1 _]; [change (length (rmods xQ)) with 3%nat; lia|]. lia.
    + exact X6.
    + exact X3.
    + exact Ht.
    + exact blocks32.
    + exact room32.
    + lia.
    + lia.
    + exact Hsb.
    + exists ks, conv, sk, s, rlk, rtk, c0, c1, c, c'. split; [exact HF|]. split; [exact Hs|]. split; [exact K5|]. split; [exact J5|]. split; [exact X1|]. split; [exact X6|]. split; [exact Y1|].
      eapply carries_ext; [|exact Y2]. intros j Hj. cbv beta. replace (Z.to_nat ((Z.of_nat j + 1) mod 2 ^ Z.of_nat 3)) with ((j + 1) mod 8)%nat; [reflexivity|].
      change (2 ^ Z.of_nat 3)%Z with 8%Z. change (2 ^ 3)%nat with 8%nat in Hj. do 8 (destruct j as [|j]; [reflexivity|]). lia.
Qed.

(** The evaluator of ckks: sums and differences of any degrees and levels, with operands at different scales ... *)
Theorem C77_add : forall rQ m L, built_ring 9 rQ -> rN rQ = (2 ^ (m + 1))%nat ->
  forall level0 level1 lo d B0 B1 c0 c1 out pool sk s v0 v1 A0 A1 e0 e1,
  secret rQ (m + 1) sk s -> ct_ok rQ level0 B0 c0 -> ct_ok rQ level1 B1 c1 -> fits rQ B0 -> fits rQ B1 -> fits rQ (fun q => B0 q + B1 q - q)%Z ->
  carries rQ m L sk c0 v0 e0 -> carries rQ m L sk c1 v1 e1 -> vbound v0 A0 -> vbound v1 A1 -> (1 <= ctDegree c0 + ctDegree c1)%nat ->
  shaped d lo out -> (ctDegree c0 <= d)%nat -> (ctDegree c1 <= d)%nat -> (ctDegree c0 <= ctDegree pool)%nat -> (ctDegree c1 <= ctDegree pool)%nat ->
  let level := Nat.min (Nat.min level0 level1) lo in (level <= ctLevel pool)%nat ->
  let k0 := match_factor (ctScale c1) (ctScale c0) in let k1 := match_factor (ctScale c0) (ctScale c1) in
  (1 <= k0 < 2 ^ 52)%Z -> (1 <= k1 < 2 ^ 52)%Z ->
  exists c, Add rQ c0 c1 out pool = Some c /\ ct_ok rQ level (fun q => B0 q + B1 q - q)%Z c /\ ctDegree c = Nat.max (ctDegree c0) (ctDegree c1) /\
    ctScale c = MaxFloat64 (ctScale c0) (ctScale c1) /\
    carries rQ m L sk c (fun k => (v0 k + v1 k)%C) (sum_eps (fval (ctScale c)) (fval (ctScale c0)) (fval (ctScale c1)) A0 A1 e0 e1 k0 k1).
Proof. exact msg_add. Qed.
Print Assumptions C77_add.

Theorem C77_sub : forall rQ m L, built_ring 9 rQ -> rN rQ = (2 ^ (m + 1))%nat ->
  forall level0 level1 lo d B0 B c0 c1 out pool sk s v0 v1 A0 A1 e0 e1,
  secret rQ (m + 1) sk s -> ct_ok rQ level0 B0 c0 -> ct_ok rQ level1 closed c1 -> fits rQ B0 -> fits rQ B ->
  (forall i, (i < length (rmods rQ))%nat -> (B0 (mq (rmod rQ i)) <= B (mq (rmod rQ i)))%Z /\ ((ctDegree c0 < ctDegree c1)%nat -> (closed (mq (rmod rQ i)) <= B (mq (rmod rQ i)))%Z)) ->
  carries rQ m L sk c0 v0 e0 -> carries rQ m L sk c1 v1 e1 -> vbound v0 A0 -> vbound v1 A1 -> (1 <= ctDegree c0 + ctDegree c1)%nat ->
  shaped d lo out -> (ctDegree c0 <= d)%nat -> (ctDegree c1 <= d)%nat -> (ctDegree c0 <= ctDegree pool)%nat -> (ctDegree c1 <= ctDegree pool)%nat ->
  let level := Nat.min (Nat.min level0 level1) lo in (level <= ctLevel pool)%nat ->
  let k0 := match_factor (ctScale c1) (ctScale c0) in let k1 := match_factor (ctScale c0) (ctScale c1) in
  (1 <= k0 < 2 ^ 52)%Z -> (1 <= k1 < 2 ^ 52)%Z ->
  exists c, Sub rQ c0 c1 out pool = Some c /\ ct_ok rQ level B c /\ ctDegree c = Nat.max (ctDegree c0) (ctDegree c1) /\
    ctScale c = MaxFloat64 (ctScale c0) (ctScale c1) /\
    carries rQ m L sk c (fun k => (v0 k - v1 k)%C) (sum_eps (fval (ctScale c)) (fval (ctScale c0)) (fval (ctScale c1)) A0 A1 e0 e1 k0 k1).
Proof. exact msg_sub. Qed.
Print Assumptions C77_sub.

(** Two fresh encryptions at the same scale: the errors add up. *)
Example C77_sum_case : exists sk s c0 c1 c c', secret xQ 5 sk s /\
  carries xQ 4 3 sk c0 (value_at s_vals) (inEps f_in) /\ carries xQ 4 3 sk c1 (value_at t_vals) (inEps f_in) /\
  Add xQ c0 c1 (NewCiphertext 32 1 2 xscale) (NewCiphertext 32 1 2 xscale) = Some c /\ carries xQ 4 3 sk c (fun k => value_at s_vals k + value_at t_vals k)%C (inEps f_in + inEps f_in) /\
  Sub xQ c0 c1 (NewCiphertext 32 1 2 xscale) (NewCiphertext 32 1 2 xscale) = Some c' /\ carries xQ 4 3 sk c' (fun k => value_at s_vals k - value_at t_vals k)%C (inEps f_in + inEps f_in).
Proof.
  destruct x_inputs as (ks & conv & roots & sk & s & pk & rlk & rtk & c0 & c1 & HF & HR & Hs & Hsb & _ & Hr & Ht & (K1 & K2 & K3 & K4 & K5 & K6) & (J1 & J2 & J3 & J4 & J5 & J6)).
  assert (BQ : built_ring 9 xQ) by apply (f_pair mxQ mxP mxT 1 par32 ks conv 5 HF). assert (FC := fits_canon xQ BQ 5 eq_refl).
  assert (EE : sum_eps (fval xscale) (fval xscale) (fval xscale) 2 2 (inEps f_in) (inEps f_in) 1 1 = inEps f_in + inEps f_in).
  { unfold sum_eps. replace (1 * fval xscale - fval xscale) with 0 by ring. rewrite Rabs_R0. ring. }
  destruct (C77_add xQ 4 3 BQ eq_refl 2 2 2 1 canon canon c0 c1 (NewCiphertext 32 1 2 xscale) (NewCiphertext 32 1 2 xscale) sk s (value_at s_vals) (value_at t_vals) 2 2 (inEps f_in) (inEps f_in) Hs K1 J1 FC FC) as (c & X1 & _ & _ & X2 & X3); try assumption.
  - intros q Hq. unfold canon. replace (mq (rmod xQ q) + mq (rmod xQ q) - mq (rmod xQ q))%Z with (mq (rmod xQ q)) by lia. exact (FC q Hq).
  - lia.
  - apply new_shaped.
  - lia.
  - lia.
  - cbn [ctDegree NewCiphertext]. rewrite K2. cbn. lia.
  - rewrite J2. cbn. lia.
  - cbn. lia.
  - rewrite K3, J3, match_same. lia.
  - rewrite K3, J3, match_same. lia.
  - destruct (C77_sub xQ 4 3 BQ eq_refl 2 2 2 1 canon canon c0 c1 (NewCiphertext 32 1 2 xscale) (NewCiphertext 32 1 2 xscale) sk s (value_at s_vals) (value_at t_vals) 2 2 (inEps f_in) (inEps f_in) Hs K1) as (c' & Y1 & _ & _ & Y2 & Y3); try assumption.
    + destruct J1 as (Z1 & Z2 & Z3 & Z4). split; [exact Z1|]. split; [exact Z2|]. split; [exact Z3|]. intros k Hk. destruct (Z4 k Hk) as [Z5 Z6]. split; [exact Z5|].
      apply (words_weaken xQ 2 canon closed); [intros; unfold canon, closed; lia|exact Z6].
    + intros q Hq. split; [lia|]. intros. lia.
    + lia.
    + apply new_shaped.
    + lia.
    + lia.
    + rewrite K2. cbn. lia.
    + rewrite J2. cbn. lia.
    + cbn. lia.
    + rewrite K3, J3, match_same. lia.
    + rewrite K3, J3, match_same. lia.
    + rewrite X2, K3, J3, max_same, match_same in X3. change (inScale f_in) with xscale in X3. rewrite EE in X3.
      rewrite Y2, K3, J3, max_same, match_same in Y3. change (inScale f_in) with xscale in Y3. rewrite EE in Y3.
      exists sk, s, c0, c1, c, c'. split; [exact Hs|]. split; [exact K5|]. split; [exact J5|]. split; [exact X1|]. split; [exact X3|]. split; [exact Y1|exact Y3].
Qed.

(** ... rescaling ... *)
Theorem C77_rescale : forall rQ m L, built_ring 9 rQ -> rN rQ = (2 ^ (m + 1))%nat -> let n := rN rQ in
  forall level lo B c minScale out same sk s v A eps Bs,
  ct_ok rQ level B c -> (forall i, (i <= level)%nat -> (B (mq (rmod rQ i)) <= 2 * mq (rmod rQ i))%Z) -> fits rQ B ->
  secret rQ (m + 1) sk s -> (0 <= Bs)%Z -> pbound n Bs s -> carries rQ m L sk c v eps -> vbound v A -> shaped (ctDegree c) lo out -> (level <= lo)%nat -> (0 < level)%nat ->
  ffinite minScale -> 1 <= fval minScale <= IZR (2 ^ 1000) -> scale_ok (ctScale c) -> fval (ctScale c) <= IZR (2 ^ 1000) ->
  forall nb, (0 < nb)%nat -> rescale_count rQ level minScale (ctScale c) nb ->
  exists c', Rescale rQ same c minScale out = Done c' /\ ct_ok rQ (level - nb) canon c' /\ ctDegree c' = ctDegree c /\
    ctScale c' = rescaled_scale rQ level nb (ctScale c) /\ scale_ok (ctScale c') /\
    let D := product (last_moduli rQ level nb) in
    Rabs (fval (ctScale c') - fval (ctScale c) / IZR D) <= fval (ctScale c) / IZR D * ((1 + / 2 ^ 51) ^ nb - 1) /\
    carries rQ m L sk c' v (rescale_eps n (ctDegree c) Bs D nb (fval (ctScale c)) A eps).
Proof. exact msg_rescale. Qed.
Print Assumptions C77_rescale.

Example C77_rescale_case : exists v A c', carries gQ 3 3 (fst g_sk) (g_ct 1 1 100000) v 0 /\ Rescale gQ true (g_ct 1 1 100000) (f64_of_Z 1024) (g_ct 1 1 100000) = Done c' /\
  ct_ok gQ 0 canon c' /\ carries gQ 3 3 (fst g_sk) c' v (rescale_eps 16 1 1 97 1 100000 A 0).
Proof.
  assert (K0 : ct_ok gQ 1 canon (g_ct 1 1 100000)) by (apply ctb_ok; vm_compute; reflexivity).
  destruct (g_decrypts 1 canon _ K0 g_fits_canon) as [M D0].
  destruct (CkksFloat.of_Z_int 100000 ltac:(discriminate)) as [F1 E1]. destruct (CkksFloat.of_Z_int 1024 ltac:(discriminate)) as [F2 E2].
  destruct (any_carries 3 gQ (fst g_sk) _ M eq_refl D0) as (v & A & V1 & V2); [cbn [g_ct ctScale]; rewrite E1; lra|].
  assert (B3 : 100000 <= IZR (2 ^ 1000)) by (apply IZR_le; discriminate).
  destruct (C77_rescale gQ 3 3 gQ_built eq_refl 1 1 canon (g_ct 1 1 100000) (f64_of_Z 1024) (g_ct 1 1 100000) true (fst g_sk) ex_s v A 0 1 K0) with (nb := 1%nat) as (c' & X1 & X2 & _ & _ & _ & _ & X3).
  - intros i Hi. destruct (g_fits_canon i) as [F _]; [cbn; lia|]. unfold canon in *. destruct i as [|[|i]]; [vm_compute; discriminate|vm_compute; discriminate|lia].
  - exact g_fits_canon.
  - exact g_secret.
  - lia.
  - exact g_s_bound.
  - exact V1.
  - exact V2.
  - split; [reflexivity|]. split; [reflexivity|]. intros j Hj. cbn in Hj. destruct j as [|[|j]]; [reflexivity|reflexivity|lia].
  - lia.
  - lia.
  - exact F2.
  - rewrite E2. lra.
  - cbn [g_ct ctScale]. split; [exact F1|rewrite E1; lra].
  - cbn [g_ct ctScale]. rewrite E1. exact B3.
  - lia.
  - split; [lia|]. split; [intros i Hi; destruct i as [|i]; [vm_compute; reflexivity|lia]|vm_compute; reflexivity].
  - exists v, A, c'. split; [exact V1|]. split; [exact X1|]. split; [exact X2|]. cbn [g_ct ctScale] in X3. rewrite E1 in X3. exact X3.
Qed.

(** ... products, rotations and conjugation with the keys of rlwe. *)
Theorem C77_ckks_mul_relin : forall rQ rP m L, ring_pair rQ rP -> rN rQ = (2 ^ (m + 1))%nat -> let n := rN rQ in
  forall levelK levelP level0 level1 lo B0 B1 rlk square c0 c1 out scratch sk s v0 v1 A0 A1 e0 e1 DQ Be Bs,
  secret rQ (m + 1) sk s -> key_levels rQ rP levelK levelP -> ct_ok rQ level0 B0 c0 -> ct_ok rQ level1 B1 c1 -> fits rQ B0 -> fits rQ B1 ->
  carries rQ m L sk c0 v0 e0 -> carries rQ m L sk c1 v1 e1 -> vbound v0 A0 -> vbound v1 A1 ->
  scale_ok (ctScale c0) -> scale_ok (ctScale c1) -> let s0 := fval (ctScale c0) in let s1 := fval (ctScale c1) in 1 <= s0 * s1 <= IZR (2 ^ 1000) ->
  ctDegree c0 = 1%nat -> ctDegree c1 = 1%nat -> (square = true -> c0 = c1) -> shaped 1 lo out ->
  let level := Nat.min (Nat.min level0 level1) lo in (level <= levelK)%nat ->
  swkey_ok rQ rP (m + 1) levelK levelP rlk s (ppow n s 2) Be -> blocks_below rQ level levelP DQ -> (0 <= Be)%Z -> (0 <= Bs)%Z -> pbound n Bs s ->
  exists c, MulRelin rQ rP levelP rlk square c0 c1 out scratch = Some c /\ ct_ok rQ level lazy c /\ ctDegree c = 1%nat /\
    ctScale c = f64_mul (ctScale c0) (ctScale c1) /\ scale_ok (ctScale c) /\
    carries rQ m L sk c (fun k => (v0 k * v1 k)%C) (product_eps s0 s1 A0 A1 e0 e1 + INR n * switch_size rQ rP level levelP DQ Be Bs).
Proof. exact msg_ckks_mul_relin. Qed.
Print Assumptions C77_ckks_mul_relin.

Theorem C77_ckks_rotate : forall rQ rP m L, ring_pair rQ rP -> rN rQ = (2 ^ (m + 1))%nat -> let n := rN rQ in
  forall levelK levelP level0 level B rtks key k c out scratch sk s v eps DQ Be Bs, (L <= m)%nat ->
  secret rQ (m + 1) sk s -> key_levels rQ rP levelK levelP -> ct_ok rQ level0 B c -> fits rQ B -> words rQ level0 (fun q => 2 * q)%Z (comp c 1) -> carries rQ m L sk c v eps ->
  ctDegree c = 1%nat -> shaped 1 level out -> (level <= level0)%nat -> (level <= levelK)%nat ->
  let g := GaloisElementForColumnRotationBy rQ k in (k <> 0)%Z -> rtks g = Some key -> rotation_key rQ rP (m + 1) levelK levelP g key s Be ->
  blocks_below rQ level levelP DQ -> (0 <= Be)%Z -> (0 <= Bs)%Z -> pbound n Bs s ->
  exists c', Rotate rQ rP levelP rtks k false c out scratch = Some c' /\ ct_ok rQ level B c' /\ ctDegree c' = 1%nat /\ ctScale c' = ctScale c /\
    carries rQ m L sk c' (fun j => v (Z.to_nat ((Z.of_nat j + k) mod 2 ^ Z.of_nat L))) (eps + INR n * switch_size rQ rP level levelP DQ Be Bs).
Proof. exact msg_ckks_rotate. Qed.
Print Assumptions C77_ckks_rotate.

Theorem C77_conjugate : forall rQ rP m L, ring_pair rQ rP -> rN rQ = (2 ^ (m + 1))%nat -> let n := rN rQ in
  forall levelK levelP level0 level B rtks key c out scratch sk s v eps DQ Be Bs,
  secret rQ (m + 1) sk s -> key_levels rQ rP levelK levelP -> ct_ok rQ level0 B c -> fits rQ B -> words rQ level0 (fun q => 2 * q)%Z (comp c 1) -> carries rQ m L sk c v eps ->
  ctDegree c = 1%nat -> shaped 1 level out -> (level <= level0)%nat -> (level <= levelK)%nat ->
  let g := (2 * Z.of_nat (rN rQ) - 1)%Z in rtks g = Some key -> rotation_key rQ rP (m + 1) levelK levelP g key s Be ->
  blocks_below rQ level levelP DQ -> (0 <= Be)%Z -> (0 <= Bs)%Z -> pbound n Bs s ->
  exists c', Conjugate rQ rP levelP rtks false c out scratch = Some c' /\ ct_ok rQ level B c' /\ ctDegree c' = 1%nat /\ ctScale c' = ctScale c /\
    carries rQ m L sk c' (fun j => Cconj (v j)) (eps + INR n * switch_size rQ rP level levelP DQ Be Bs).
Proof. exact msg_ckks_conjugate. Qed.
Print Assumptions C77_conjugate.

Example C77_ckks_case : exists v0 v1 A0 A1 c r k, carries gQ 3 3 (fst g_sk) (g_ct 1 1 1024) v0 0 /\ vbound v0 A0 /\ carries gQ 3 3 (fst g_sk) (g_ct 2 1 1024) v1 0 /\ vbound v1 A1 /\
  MulRelin gQ gP 0 g_rlk false (g_ct 1 1 1024) (g_ct 2 1 1024) (g_new 1 1) g_scratch = Some c /\
  carries gQ 3 3 (fst g_sk) c (fun k => v0 k * v1 k)%C (product_eps 1024 1024 A0 A1 0 0 + INR 16 * switch_size gQ gP 1 0 12289 1 1) /\
  Rotate gQ gP 0 g_rtks 1 false (g_ct 1 1 1024) (g_new 1 1) g_scratch = Some r /\
  carries gQ 3 3 (fst g_sk) r (fun j => v0 (Z.to_nat ((Z.of_nat j + 1) mod 8))) (0 + INR 16 * switch_size gQ gP 1 0 12289 1 1) /\
  Conjugate gQ gP 0 g_rtks false (g_ct 1 1 1024) (g_new 1 1) g_scratch = Some k /\
  carries gQ 3 3 (fst g_sk) k (fun j => Cconj (v0 j)) (0 + INR 16 * switch_size gQ gP 1 0 12289 1 1).
Proof.
  destruct g_ok as [K0 K1]. destruct (g_carries 1 K0) as (v0 & A0 & C0 & V0). destruct (g_carries 2 K1) as (v1 & A1 & C1 & V1).
  destruct (g_scale 1) as [S0 E0]. destruct (g_scale 2) as [S1 E1].
  assert (W0 : words gQ 1 (fun q => 2 * q)%Z (comp (g_ct 1 1 1024) 1)) by (apply Examples.wordsb_ok; vm_compute; reflexivity).
  destruct (C77_ckks_mul_relin gQ gP 3 3 gpair eq_refl 1 0 1 1 1 canon canon g_rlk false _ _ (g_new 1 1) g_scratch (fst g_sk) ex_s v0 v1 A0 A1 0 0 12289 1 1 g_secret g_levels K0 K1 g_fits_canon g_fits_canon C0 C1 V0 V1 S0 S1)
    as (c & X1 & _ & _ & _ & _ & X2).
  - rewrite E0, E1. replace (1024 * 1024) with (IZR (2 ^ 20)) by lra. split; apply IZR_le; discriminate.
  - reflexivity.
  - reflexivity.
  - discriminate.
  - apply (g_new_shaped 1 1); lia.
  - cbn. lia.
  - exact g_rlk_ok.
  - apply g_blocks. cbn. lia.
  - lia.
  - lia.
  - exact g_s_bound.
  - rewrite E0, E1 in X2.
    destruct (C77_ckks_rotate gQ gP 3 3 gpair eq_refl 1 0 1 1 canon g_rtks g_rot5 1 _ (g_new 1 1) g_scratch (fst g_sk) ex_s v0 0 12289 1 1 ltac:(lia) g_secret g_levels K0 g_fits_canon W0 C0) as (r & Y1 & _ & _ & _ & Y2).
    + reflexivity.
    + apply (g_new_shaped 1 1); lia.
    + lia.
    + lia.
    + discriminate.
    + vm_compute. reflexivity.
    + replace (GaloisElementForColumnRotationBy gQ 1) with 5%Z by (vm_compute; reflexivity). exact g_rot5_ok.
    + apply g_blocks. lia.
    + lia.
    + lia.
    + exact g_s_bound.
    + destruct (C77_conjugate gQ gP 3 3 gpair eq_refl 1 0 1 1 canon g_rtks g_conj _ (g_new 1 1) g_scratch (fst g_sk) ex_s v0 0 12289 1 1 g_secret g_levels K0 g_fits_canon W0 C0) as (k & Z1 & _ & _ & _ & Z2).
      * reflexivity.
      * apply (g_new_shaped 1 1); lia.
      * lia.
      * lia.
      * vm_compute. reflexivity.
      * exact g_conj_ok.
      * apply g_blocks. lia.
      * lia.
      * lia.
      * exact g_s_bound.
      * exists v0, v1, A0, A1, c, r, k. split; [exact C0|]. split; [exact V0|]. split; [exact C1|]. split; [exact V1|]. split; [exact X1|]. split; [exact X2|]. split; [exact Y1|]. split; [exact Y2|]. split; [exact Z1|exact Z2].
Qed.
