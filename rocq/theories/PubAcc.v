(** The accuracy of sessions with a parameter set of the repository: fckks/fckks_test.go PN15QP870. *)
From Flocq Require Import Core IEEE754.Binary IEEE754.Bits IEEE754.BinarySingleNaN.
From Coq Require Import Reals Lra Lia ZArith List Arith.
From Coquelicot Require Import Complex.
From Verif Require Import Word Arith PolySpec PolyProofs Ring RingProofs NTT RingOps RNSSpec RowProofs OpsProofs OpsProps BasisExt Automorphism Gadget Frlwe FrlweSetup GadgetSpec Repr FrlweProps FrlweTop ScalingSpec RlweSpec Rlwe RlweKeys RlweTop Float64 FloatProofs Codec Sampler SamplerSpec Gauss GaussSpec GaussProofs GaussEx Ckks CkksSpec CkksBase CkksConst CkksOps CkksFloat Fckks FckksSpec FckksProps Fft FftSpec EncFft SlotSpec Encoder EncSpec EncFloat EncEx Msg MsgSpec SlotMsg MsgProofs MsgOps MsgCkks MsgEx Draw DrawSpec DrawProofs Session SessionSpec SessionProofs SessionEx.
From Verif Require Import FParams PubParams PubSpec PubTotal PubProofs AccSpec.
From Verif Require Params.
Import ListNotations.
Open Scope R_scope.

(** 2^36. *)
Definition pscale : float64 := f64_of_Z (2 ^ 36).
Lemma pscale_val : ffinite pscale /\ fval pscale = 68719476736.
Proof. destruct (of_Z_int (2 ^ 36) ltac:(discriminate)) as [F E]. split; [exact F|]. unfold pscale. rewrite E. reflexivity. Qed.
Lemma pscale_ok : scale_ok pscale.
Proof. destruct pscale_val as [F E]. split; [exact F|rewrite E; lra]. Qed.
Definition pscale2 : float64 := f64_mul pscale pscale.
Lemma pscale2_val : ffinite pscale2 /\ fval pscale2 = 4722366482869645213696.
Proof.
  assert (F2 : ffinite pscale2) by (vm_compute; reflexivity). assert (F72 : ffinite (f64_of_Z (2 ^ 72))) by (vm_compute; reflexivity).
  assert (EB : Beqb pscale2 (f64_of_Z (2 ^ 72)) = true) by (vm_compute; reflexivity). rewrite (Beqb_correct _ _ _ _ F2 F72) in EB.
  split; [exact F2|]. destruct (Req_bool_spec (fval pscale2) (fval (f64_of_Z (2 ^ 72)))) as [->|]; [|discriminate EB].
  assert (EX : IZR (2 ^ 72) = bpow radix2 72) by (apply (IZR_Zpower radix2 72); discriminate).
  destruct (of_Z_big (2 ^ 72)) as [-> _]; [rewrite EX, Rabs_pos_eq by apply bpow_ge_0; apply bpow_le; lia|].
  assert (RG : rnd (IZR (2 ^ 72)) = IZR (2 ^ 72)) by (apply round_generic; [apply _|]; rewrite EX; apply fmt_bpow; lia). rewrite RG. reflexivity.
Qed.
Lemma p_growth n : (n <= 16)%nat -> 0 <= growth (/ 2 ^ 48) n <= / 4398046511104.
Proof.
  intros Hn. split; [unfold growth; assert (1 <= (1 + (/ 2 ^ 48 + / 2 ^ 49)) ^ n) by (apply pow_R1_Rle; lra); lra|].
  assert (HI : INR n <= 16) by (replace 16 with (INR 16) by (cbn; lra); apply le_INR; exact Hn). assert (P := pos_INR n).
  assert (E : / 2 ^ 48 + / 2 ^ 49 = 3 * / 562949953421312) by lra.
  assert (H : INR n * (/ 2 ^ 48 + / 2 ^ 49) <= 48 * / 562949953421312) by (rewrite E; nra).
  apply Rle_trans with (1 := growth_small (/ 2 ^ 48) n ltac:(lra) ltac:(lra)). lra.
Qed.
Lemma default_bound src : srSigma src = Params.DefaultSigma -> srBound src = 19%Z.
Proof. intros E. unfold srBound. rewrite E. vm_compute. reflexivity. Qed.

Notation set870 := fckks_PN15QP870.
Definition plim : limits := mkLim (sQ set870) (sP set870) (sT set870) (sGamma set870) (largest_block 1 (sQ set870)) 19 1 pscale.

(** What is used of the rings: the degree, the moduli. *)
Section PubAcc.
  Variable p : FParams.
  Hypothesis EN : rN (fpQ p) = (2 ^ 15)%nat.
  Hypothesis MQ : moduli (fpQ p) = sQ set870.
  Hypothesis MP : moduli (fpP p) = sP set870.
  Local Notation rQ := (fpQ p).
  Local Notation rP := (fpP p).
  Hypothesis SW : forall level, (level < 23)%nat -> switch_ok rQ rP plim level.

  Lemma p_INR : INR (rN rQ) = 32768.
  Proof. rewrite EN, pow_INR. replace (INR 2) with 2 by (cbn; lra). lra. Qed.
  Lemma p_Z : Z.of_nat (rN rQ) = 32768%Z.
  Proof. rewrite EN, two_pow_nat. reflexivity. Qed.
  Lemma p_max : maxLevel rQ = 22%nat.
  Proof. unfold maxLevel. rewrite moduli_length, MQ. reflexivity. Qed.
  Lemma p_maxP : maxLevel rP = 0%nat.
  Proof. unfold maxLevel. rewrite moduli_length, MP. reflexivity. Qed.
  Lemma p_P : mq (rmod rP 0) = 68760371201%Z.
  Proof. destruct (rmod_nth rP _ 0 MP ltac:(cbn; lia)) as [_ ->]. reflexivity. Qed.

  Definition f_a : info := fresh_info rQ rP 14 pscale 1 (/ 2 ^ 48) 19 19 1.
  Lemma f_a_eps : 0 <= inEps f_a <= 1074000000.
  Proof.
    unfold f_a, fresh_info. cbn [inEps]. rewrite (proj2 pscale_val), p_INR, p_P. unfold encode_eps, fresh_size. rewrite p_Z.
    change (32768 * (1 * 19) + 19 + 32768 * (19 * 1))%Z with 1245203%Z. change (1 + 32768 * 1)%Z with 32769%Z.
    assert (G := p_growth (14 + 2) ltac:(lia)). set (g := growth _ _) in *. clearbody g. lra.
  Qed.
  Lemma f_a_level : inLevel f_a = 22%nat.
  Proof. exact p_max. Qed.

  (** Decryption of an encryption. *)
  Lemma a_readable : readable rQ 14 f_a.
  Proof.
    assert (H := f_a_eps). unfold readable. rewrite f_a_level. change (inScale f_a) with pscale. change (inSize f_a) with 1. rewrite (proj2 pscale_val).
    assert (PB : IZR (2 ^ 60) <= IZR (product (RlweSpec.prefix rQ 22))) by (apply IZR_le; unfold RlweSpec.prefix; rewrite MQ; vm_compute; discriminate).
    assert (B : IZR (2 ^ 60) <= IZR (2 ^ 900)) by (apply IZR_le; discriminate). assert (B' : IZR (2 ^ 60) <= IZR (2 ^ 1000)) by (apply IZR_le; discriminate).
    assert (E60 : IZR (2 ^ 60) = 1152921504606846976) by reflexivity. rewrite E60 in B, B', PB. clear E60.
    set (e := inEps f_a) in *. clearbody e. set (X := IZR (2 ^ 900)) in *. set (Y := IZR (2 ^ 1000)) in *. set (Z0 := IZR (product _)) in *. clearbody X Y Z0.
    split; [lra|]. split; [lra|]. split; lra.
  Qed.
  Lemma a_accuracy : decoded_eps 14 (/ 2 ^ 48) f_a <= / 60.
  Proof.
    assert (H := f_a_eps). unfold decoded_eps. change (inScale f_a) with pscale. change (inSize f_a) with 1. rewrite (proj2 pscale_val). set (e := inEps f_a) in *. clearbody e.
    assert (G := p_growth (14 + 1) ltac:(lia)). set (g := growth _ _) in *. clearbody g.
    assert (D : 0 <= e / 68719476736 <= 1 / 63) by lra. set (d := e / 68719476736) in *. clearbody d. nra.
  Qed.

  (** The sum of a product and of its rotation. *)
  Lemma p_switch : 0 <= INR (rN rQ) * switch_size rQ rP 22 (maxLevel rP) (liDQ plim) 19 1 <= 480000000000.
  Proof.
    unfold switch_size. rewrite p_INR, p_Z, p_maxP. change (ceil_div (22 + 1) (0 + 1)) with 23%nat. unfold RlweSpec.prefix. rewrite MP.
    change (product (firstn 1 (sP set870))) with 68760371201%Z. change (liDQ plim) with (largest_block 1 (sQ set870)).
    assert (B : (0 <= Z.of_nat 23 * (32768 * (largest_block 1 (sQ set870) * 19)) <= 984616206594900000)%Z) by (split; vm_compute; discriminate).
    set (z := (Z.of_nat 23 * _)%Z) in *. clearbody z. destruct B as [B1 B2]. apply IZR_le in B1, B2. change (1 + 32768 * 1)%Z with 32769%Z. set (zr := IZR z) in *. clearbody zr. lra.
  Qed.
  Definition f_ab : info := product_info rQ rP plim f_a f_a.
  Definition f_ab1 : info := rotate_info rQ rP plim f_ab.
  Definition f_s : info := sum_info f_ab f_ab1.
  Definition f_r : info := rescale_info rQ plim 1 f_s.
  Lemma f_ab_level : inLevel f_ab = 22%nat.
  Proof. unfold f_ab, product_info. cbn [inLevel]. rewrite f_a_level. reflexivity. Qed.
  Lemma f_ab_eps : 0 <= inEps f_ab <= 148800000000000000000.
  Proof.
    assert (H := f_a_eps). assert (H2 := p_switch). unfold f_ab, product_info. cbn [inEps]. rewrite f_a_level. change (Nat.min 22 22) with 22%nat. change (inScale f_a) with pscale. change (inSize f_a) with 1. rewrite (proj2 pscale_val).
    change (liBe plim) with 19%Z. change (liBs plim) with 1%Z. unfold product_eps. set (e := inEps f_a) in *. clearbody e. set (w := INR (rN rQ) * _) in *. clearbody w.
    assert (0 <= e * e <= 1074000000 * 1074000000) by nra. lra.
  Qed.
  Lemma f_ab1_eps : 0 <= inEps f_ab1 <= 148900000000000000000.
  Proof.
    assert (H := f_ab_eps). assert (H2 := p_switch). unfold f_ab1, rotate_info. cbn [inEps]. rewrite f_ab_level. change (liBe plim) with 19%Z. change (liBs plim) with 1%Z.
    set (e := inEps f_ab) in *. clearbody e. set (w := INR (rN rQ) * _) in *. clearbody w. lra.
  Qed.
  Lemma f_s_eps : 0 <= inEps f_s <= 297700000000000000000.
  Proof.
    assert (H := f_ab_eps). assert (H2 := f_ab1_eps). unfold f_s, sum_info. cbn [inEps]. change (inScale f_ab) with pscale2. change (inScale f_ab1) with pscale2.
    rewrite max_same, !match_same. unfold sum_eps. replace (1 * fval pscale2 - fval pscale2) with 0 by ring. rewrite Rabs_R0. lra.
  Qed.
  Lemma f_s_scale : inScale f_s = pscale2.
  Proof. unfold f_s, sum_info. cbn [inScale]. change (inScale f_ab) with pscale2. change (inScale f_ab1) with pscale2. apply max_same. Qed.
  Lemma f_s_level : inLevel f_s = 22%nat.
  Proof. unfold f_s, sum_info. cbn [inLevel]. change (inLevel f_ab1) with (inLevel f_ab). rewrite f_ab_level. reflexivity. Qed.
  Lemma f_s_size : inSize f_s = 2.
  Proof. cbn. lra. Qed.
  Lemma q22 : mq (rmod rQ (22 - 0)) = 68744380417%Z.
  Proof. destruct (rmod_nth rQ _ 22 MQ ltac:(cbn; lia)) as [_ E]. exact E. Qed.
  Lemma q21 : mq (rmod rQ (22 - 1)) = 68743069697%Z.
  Proof. destruct (rmod_nth rQ _ 21 MQ ltac:(cbn; lia)) as [_ E]. exact E. Qed.
  Lemma p_count : rescale_count rQ 22 pscale pscale2 1.
  Proof.
    split; [lia|]. unfold rescaled_scale, last_moduli. split.
    - intros i Hi. destruct i as [|i]; [|lia]. cbn [seq map fold_left]. rewrite q22. vm_compute. reflexivity.
    - cbn [seq map fold_left]. rewrite q22, q21. vm_compute. reflexivity.
  Qed.
  Lemma f_r_scale : 68690000000 <= fval (inScale f_r) <= 68700000000.
  Proof.
    unfold f_r, rescale_info. cbn [inScale]. rewrite f_s_scale, f_s_level. unfold rescaled_scale, last_moduli. cbn [seq map fold_left]. rewrite q22.
    destruct pscale2_val as [F2 E2]. destruct pscale_val as [F E]. assert (B : IZR (2 ^ 80) <= IZR (2 ^ 1000)) by (apply IZR_le; discriminate).
    assert (B2 : 4722366482869645213696 <= IZR (2 ^ 80)) by (apply IZR_le; discriminate).
    destruct (div_step pscale2 68744380417 (f64_div pscale (f64_of_Z 2))) as (_ & _ & H).
    - split; [exact F2|rewrite E2; lra].
    - rewrite E2. lra.
    - split; [discriminate|reflexivity].
    - vm_compute. reflexivity.
    - assert (FH : ffinite (f64_div pscale (f64_of_Z 2))) by (vm_compute; reflexivity). assert (FI : ffinite (f64_of_Z (2 ^ 35))) by (vm_compute; reflexivity).
      assert (EB : Beqb (f64_div pscale (f64_of_Z 2)) (f64_of_Z (2 ^ 35)) = true) by (vm_compute; reflexivity). rewrite (Beqb_correct _ _ _ _ FH FI) in EB.
      destruct (Req_bool_spec (fval (f64_div pscale (f64_of_Z 2))) (fval (f64_of_Z (2 ^ 35)))) as [->|]; [|discriminate EB]. destruct (of_Z_int (2 ^ 35) ltac:(discriminate)) as [_ ->]. apply Rle_trans with 1; [lra|]. apply IZR_le. discriminate.
    - vm_compute. reflexivity.
    - rewrite E2 in H. lra.
  Qed.
  Lemma f_r_eps : 0 <= inEps f_r <= 5405000000.
  Proof.
    assert (H := f_s_eps). unfold f_r, rescale_info. cbn [inEps]. rewrite f_s_scale, f_s_level, f_s_size, (proj2 pscale2_val). change (liBs plim) with 1%Z. unfold last_moduli. cbn [seq map]. rewrite q22.
    change (product [68744380417%Z]) with 68744380417%Z. unfold rescale_eps. rewrite p_INR. cbn [sum_f_R0]. set (e := inEps f_s) in *. clearbody e. rewrite !pow_1, pow_O. lra.
  Qed.
  Lemma p_analysis : analysed rQ rP plim [1%Z] (repeat f_a 2) xprog [f_a; f_a; f_ab; f_ab1; f_s; f_r].
  Proof.
    destruct pscale_val as [F E]. destruct pscale2_val as [F2 E2]. assert (S22 := SW 22 ltac:(lia)).
    assert (B : IZR (2 ^ 80) <= IZR (2 ^ 1000)) by (apply IZR_le; discriminate). assert (B2 : 4722366482869645213696 <= IZR (2 ^ 80)) by (apply IZR_le; discriminate).
    unfold xprog. eapply an_cons; [apply (an_mul _ _ _ _ _ 0 1 f_a f_a); [reflexivity|reflexivity| |]|].
    { change (inScale f_a) with pscale. rewrite E. lra. }
    { rewrite f_a_level. exact S22. }
    eapply an_cons; [apply (an_rot _ _ _ _ _ 0 2 f_ab); [cbn; lia|reflexivity|rewrite f_ab_level; exact S22]|].
    eapply an_cons; [apply (an_add _ _ _ _ _ 2 3 f_ab f_ab1); [reflexivity|reflexivity|]|].
    { unfold scales_meet. change (inScale f_ab) with pscale2. change (inScale f_ab1) with pscale2. rewrite match_same. lia. }
    eapply an_cons; [apply (an_rescale _ _ _ _ _ 4 f_s 1); [reflexivity|lia| | |]|apply an_nil].
    - rewrite f_s_level. lia.
    - rewrite f_s_scale, E2. lra.
    - rewrite f_s_scale, f_s_level. exact p_count.
  Qed.
  Lemma r_readable : readable rQ 14 f_r.
  Proof.
    assert (H1 := f_r_scale). assert (H2 := f_r_eps). unfold readable. change (inLevel f_r) with (inLevel f_s - 1)%nat. rewrite f_s_level. change (22 - 1)%nat with 21%nat. change (inSize f_r) with (inSize f_s). rewrite f_s_size.
    assert (PB : IZR (2 ^ 60) <= IZR (product (RlweSpec.prefix rQ 21))) by (apply IZR_le; unfold RlweSpec.prefix; rewrite MQ; vm_compute; discriminate).
    set (sc := fval (inScale f_r)) in *. set (e := inEps f_r) in *. clearbody sc e.
    assert (B : IZR (2 ^ 60) <= IZR (2 ^ 900)) by (apply IZR_le; discriminate). assert (B' : IZR (2 ^ 60) <= IZR (2 ^ 1000)) by (apply IZR_le; discriminate).
    assert (E60 : IZR (2 ^ 60) = 1152921504606846976) by reflexivity. rewrite E60 in B, B', PB. clear E60.
    assert (D : e / sc <= 1) by (apply Rmult_le_reg_r with sc; [lra|]; unfold Rdiv; rewrite Rmult_assoc, Rinv_l by lra; lra).
    set (X := IZR (2 ^ 900)) in *. set (Y := IZR (2 ^ 1000)) in *. set (Z0 := IZR (product _)) in *. clearbody X Y Z0.
    split; [lra|]. split; [lra|]. split; lra.
  Qed.
  Lemma r_accuracy : decoded_eps 14 (/ 2 ^ 48) f_r <= / 12.
  Proof.
    assert (H1 := f_r_scale). assert (H2 := f_r_eps). unfold decoded_eps. change (inSize f_r) with (inSize f_s). rewrite f_s_size. set (sc := fval (inScale f_r)) in *. set (e := inEps f_r) in *. clearbody sc e.
    assert (G := p_growth (14 + 1) ltac:(lia)). set (g := growth _ _) in *. clearbody g.
    assert (D : 0 <= e / sc <= 79 / 1000).
    { split; [apply Rmult_le_pos; [lra|apply Rlt_le, Rinv_0_lt_compat; lra]|]. apply Rmult_le_reg_r with sc; [lra|]. unfold Rdiv at 1. rewrite Rmult_assoc, Rinv_l by lra. lra. }
    set (d := e / sc) in *. clearbody d. nra.
  Qed.
End PubAcc.

(** What every use of a published set has. *)
Lemma set_setup s p ks conv : In s fast_sets -> fast_setup (sQ s) (sP s) (sT s) (sGamma s) p ks conv (sLogN s) -> let DQ := largest_block (length (sP s)) (sQ s) in
  rN (fpQ p) = (2 ^ sLogN s)%nat /\ moduli (fpQ p) = sQ s /\ moduli (fpP p) = sP s /\ errors_fit (fpQ p) (fpP p) 19 /\
  forall level, (level < length (sQ s))%nat -> blocks_below (fpQ p) level (maxLevel (fpP p)) DQ /\ FckksSpec.room (sQ s) (sP s) (sT s) (sGamma s) (rN (fpQ p)) level DQ.
Proof.
  intros Hin HF DQ. assert (HB := proj1 (forallb_forall _ _) fasts_ok s Hin). destruct (fast_checked s HB) as (HA & ET & H9 & LS & HZ' & D0 & R0 & RM). clear HB. fold DQ in D0, RM.
  destruct HF as (fuel & N & HZ & NF & _ & _ & EN). assert (FP := NewFParams_ok fuel N (sQ s) (sP s) (sT s) (sGamma s) p HZ NF).
  assert (MQ := fk_mQ _ _ _ _ _ _ FP). assert (MP := fk_mP _ _ _ _ _ _ FP). assert (LQ := fk_hQ _ _ _ _ _ _ FP). assert (LP := fk_hP _ _ _ _ _ _ FP).
  assert (LQ' : length (rmods (fpQ p)) = length (sQ s)) by (rewrite moduli_length, MQ; reflexivity). assert (LP' : length (rmods (fpP p)) = length (sP s)) by (rewrite moduli_length, MP; reflexivity).
  split; [exact EN|]. split; [exact MQ|]. split; [exact MP|].
  split; [apply fit_ok; [rewrite MQ; intros q Hq; specialize (H9 q ltac:(apply in_or_app; right; exact Hq)); lia|rewrite MP; intros q Hq; specialize (H9 q ltac:(apply in_or_app; left; exact Hq)); lia|lia|rewrite LQ'; lia]|].
  intros level Hl. split.
  - unfold DQ. rewrite <- LP'. apply (blocks_ok (fpQ p) (fpP p) (sQ s) level MQ); [|exact Hl|lia]. intros q Hq. specialize (H9 q ltac:(apply in_or_app; right; exact Hq)). lia.
  - apply room_ok; [apply HZ|exact LP|exact Hl|exact D0|exact R0|]. rewrite EN, two_pow_nat. exact RM.
Qed.

Lemma p_meaning a b k : (k < 2 ^ 14)%nat -> nth 5 (meanings 14 [1%Z] (map value_at [a; b]) xprog) vec0 k =
  (value_at a k * value_at b k + value_at a ((k + 1) mod 2 ^ 14) * value_at b ((k + 1) mod 2 ^ 14))%C.
Proof.
  intros Hk. cbn [map]. set (u := value_at a). set (v := value_at b). clearbody u v.
  change (nth 5 (meanings 14 [1%Z] [u; v] xprog) vec0 k) with (u k * v k + turn 14 1 (fun j => u j * v j)%C k)%C.
  unfold turn. replace (Z.to_nat ((Z.of_nat k + 1) mod 2 ^ Z.of_nat 14)) with ((k + 1) mod 2 ^ 14)%nat; [reflexivity|].
  apply Nat2Z.inj. rewrite Z2Nat.id by (apply Z.mod_pos_bound; lia). rewrite Nat2Z.inj_mod, two_pow_nat. f_equal. lia.
Qed.

Lemma p_session p ks conv : fast_setup (sQ set870) (sP set870) (sT set870) (sGamma set870) p ks conv 15 ->
  forall ksrc esrc h roots kpools epools scratch pool dbuf dpool rots msgs prog out fs f, session_env (fpQ p) 14 ksrc esrc roots epools pool dbuf dpool ->
  (forall msg, In msg msgs -> values_ok 14 1 msg) -> analysed (fpQ p) (fpP p) plim rots (repeat (f_a p) (length msgs)) prog fs -> nth_error fs out = Some f -> readable (fpQ p) 14 f ->
  yields (session ksrc esrc h p ks conv roots kpools epools scratch pool dbuf dpool 14 pscale pscale rots msgs prog out) (fun vals =>
    length vals = (2 ^ 14)%nat /\ forall k, (k < 2 ^ 14)%nat -> cfinite (nth k vals c_zero) /\
      Cmod (value_at vals k - nth out (meanings 14 rots (map value_at msgs) prog) vec0 k)%C <= decoded_eps 14 (/ 2 ^ 48) f).
Proof.
  intros HF ksrc esrc h roots kpools epools scratch pool dbuf dpool rots msgs prog out fs f (S1 & S2 & D1 & D2 & HR & B1 & B2 & B3 & B4) HV AN EO RD.
  destruct (set_setup set870 p ks conv ltac:(cbn; tauto) HF) as (EN & MQ & MP & EF & SW). destruct pscale_val as [F E].
  assert (Y := session_ok (sQ set870) (sP set870) (sT set870) (sGamma set870) p ks conv 14 14 HF ltac:(lia) ltac:(lia) ksrc esrc h (/ 2 ^ 48) roots kpools epools scratch pool dbuf dpool pscale 1 rots msgs prog out plim fs f S1 S2).
  rewrite (default_bound ksrc D1), (default_bound esrc D2) in Y. specialize (Y EF EF HR). apply Y; try assumption; try reflexivity.
  - apply Rle_trans with (1 := proj2 (p_growth 16 (le_n 16))). lra.
  - exact pscale_ok.
  - rewrite E. replace (4 * (68719476736 * 1)) with (IZR (2 ^ 38)) by lra. apply IZR_le. discriminate.
  - cbn [plim liMin]. rewrite E. split; [lra|]. apply Rle_trans with (IZR (2 ^ 36)); [lra|]. apply IZR_le. discriminate.
Qed.
Lemma p_encryption p ks conv : fast_setup (sQ set870) (sP set870) (sT set870) (sGamma set870) p ks conv 15 ->
  forall ksrc esrc h roots kpools epools scratch pool dbuf dpool rots msgs out, session_env (fpQ p) 14 ksrc esrc roots epools pool dbuf dpool ->
  (forall msg, In msg msgs -> values_ok 14 1 msg) -> (out < length msgs)%nat ->
  yields (session ksrc esrc h p ks conv roots kpools epools scratch pool dbuf dpool 14 (f64_of_Z (2 ^ 36)) (f64_of_Z (2 ^ 36)) rots msgs [] out) (fun vals =>
    length vals = (2 ^ 14)%nat /\ forall k, (k < 2 ^ 14)%nat -> cfinite (nth k vals c_zero) /\ Cmod (value_at vals k - value_at (nth out msgs []) k)%C <= / 60).
Proof.
  intros HF ksrc esrc h roots kpools epools scratch pool dbuf dpool rots msgs out HE HV HO.
  destruct (set_setup set870 p ks conv ltac:(cbn; tauto) HF) as (EN & MQ & MP & EF & SW).
  eapply yields_weaken; [|apply (p_session p ks conv HF ksrc esrc h roots kpools epools scratch pool dbuf dpool rots msgs [] out (repeat (f_a p) (length msgs)) (f_a p) HE HV)].
  - intros vals [V1 V2]. split; [exact V1|]. intros k Hk. destruct (V2 k Hk) as [V3 V4]. split; [exact V3|]. cbn [meanings] in V4.
    rewrite (nth_indep _ vec0 (value_at [])), map_nth in V4 by (rewrite map_length; exact HO). apply Rle_trans with (1 := V4). exact (a_accuracy p EN MP).
  - constructor.
  - apply nth_error_repeat. exact HO.
  - exact (a_readable p EN MQ MP).
Qed.
Lemma p_program p ks conv : fast_setup (sQ set870) (sP set870) (sT set870) (sGamma set870) p ks conv 15 ->
  forall ksrc esrc h roots kpools epools scratch pool dbuf dpool a b, session_env (fpQ p) 14 ksrc esrc roots epools pool dbuf dpool ->
  values_ok 14 1 a -> values_ok 14 1 b ->
  yields (session ksrc esrc h p ks conv roots kpools epools scratch pool dbuf dpool 14 (f64_of_Z (2 ^ 36)) (f64_of_Z (2 ^ 36)) [1%Z] [a; b] xprog 5) (fun vals =>
    length vals = (2 ^ 14)%nat /\ forall k, (k < 2 ^ 14)%nat -> cfinite (nth k vals c_zero) /\
      Cmod (value_at vals k - (value_at a k * value_at b k + value_at a ((k + 1) mod 2 ^ 14) * value_at b ((k + 1) mod 2 ^ 14)))%C <= / 12).
Proof.
  intros HF ksrc esrc h roots kpools epools scratch pool dbuf dpool a b HE HA HB.
  destruct (set_setup set870 p ks conv ltac:(cbn; tauto) HF) as (EN & MQ & MP & EF & SW).
  eapply yields_weaken; [|apply (p_session p ks conv HF ksrc esrc h roots kpools epools scratch pool dbuf dpool [1%Z] [a; b] xprog 5 [f_a p; f_a p; f_ab p; f_ab1 p; f_s p; f_r p] (f_r p) HE)].
  - intros vals [V1 V2]. split; [exact V1|]. intros k Hk. destruct (V2 k Hk) as [V3 V4]. split; [exact V3|]. rewrite (p_meaning a b k Hk) in V4. apply Rle_trans with (1 := V4). exact (r_accuracy p EN MQ MP).
  - intros msg [<-|[<-|[]]]; assumption.
  - exact (p_analysis p EN MQ SW).
  - reflexivity.
  - exact (r_readable p EN MQ MP).
Qed.

Definition psrc : source := mkSource 100 (fun _ => 85%Z) Params.DefaultSigma no_fun no_fun no_word.
Lemma psrc_ok : source_ok psrc.
Proof. split; [intros j; cbn; lia|]. split; [exact no_word_valued|]. rewrite (default_bound psrc eq_refl). lia. Qed.
Lemma p_case : exists p ks conv src roots epools pool dbuf dpool, fast_setup (sQ set870) (sP set870) (sT set870) (sGamma set870) p ks conv 15 /\
  session_env (fpQ p) 14 src src roots epools pool dbuf dpool /\ values_ok 14 1 (map (fun '(a, b) => (f64_of_Z a, f64_of_Z b)) [(0, 1); (1, 0); (-1, 0)]%Z).
Proof.
  destruct (fast_sets_ok set870 ltac:(cbn; tauto)) as (p & ks & conv & HF & _). destruct (roots_exist (2 ^ 16)) as [roots HR].
  exists p, ks, conv, psrc, roots, (fun _ => mkEP (repeat c_zero (2 ^ 14)) [] [] []), (fun _ => NewCiphertext 1 1 (maxLevel (fpQ p)) xscale), (repeat c_zero (2 ^ 14)), (repeat [] (length (rmods (fpQ p)))).
  split; [exact HF|]. split.
  - split; [exact psrc_ok|]. split; [exact psrc_ok|]. split; [reflexivity|]. split; [reflexivity|]. split; [exact HR|]. cbn [epBuf].
    split; [intros _; apply repeat_length|]. split; [apply repeat_length|]. split; [apply repeat_length|]. intros _. split; [cbn; lia|].
    unfold ctLevel, NewCiphertext, comp. cbn [ctV repeat nth]. unfold zero_rows. rewrite repeat_length. lia.
  - split; [rewrite map_length; cbn [length]; change 3%nat with (3 * 1)%nat; assert (4 <= 2 ^ 14)%nat by (change 4%nat with (2 ^ 2)%nat; apply Nat.pow_le_mono_r; lia); lia|]. split.
    + intros z Hz. apply in_map_iff in Hz. destruct Hz as ((a & b) & <- & Hz).
      assert (H : (Z.abs a + Z.abs b <= 1)%Z) by (cbn in Hz; destruct Hz as [E | [E | [E | []]]]; injection E as <- <-; lia).
      destruct (of_Z_int a ltac:(lia)) as [F1 E1]. destruct (of_Z_int b ltac:(lia)) as [F2 E2]. split; [split; assumption|].
      apply Rle_trans with (1 := Cmod_sum _ _). cbn [fst snd]. rewrite E1, E2, <- !abs_IZR, <- plus_IZR. apply IZR_le. exact H.
    + split; [lra|]. replace (2 ^ 14 * 1)%R with (IZR (2 ^ 14)) by lra. apply IZR_le. discriminate.
Qed.
