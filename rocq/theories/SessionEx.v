(** A concrete session: the parameters of MsgEx.v, scale 2^20, two messages of 8 slots, the program a*b, its rotation by 1, the sum of the
    two; generators with simple bytes. *)
From Flocq Require Import IEEE754.Binary IEEE754.Bits IEEE754.BinarySingleNaN.
From Coq Require Import Reals Lra Lia ZArith List Arith.
From Coquelicot Require Import Complex.
From Verif Require Import Word Arith PolySpec PolyProofs Ring RingProofs NTT RingOps RNSSpec RowProofs OpsProofs OpsProps BasisExt Automorphism Gadget Frlwe FrlweSetup GadgetSpec Repr FrlweProps FrlweTop ScalingSpec RlweSpec Rlwe RlweKeys RlweTop Float64 FloatProofs Codec Sampler SamplerSpec Gauss GaussSpec GaussProofs GaussEx Ckks CkksSpec CkksBase CkksConst CkksOps CkksFloat Fckks FckksSpec FckksProps Fft FftSpec EncFft SlotSpec Encoder EncSpec EncFloat EncEx Msg MsgSpec SlotMsg MsgProofs MsgOps MsgCkks MsgEx Draw DrawSpec DrawProofs Session SessionSpec SessionProofs.
From Verif Require BasisEx.
Import ListNotations.
Local Open Scope Z_scope.

Lemma sizes32 : sizes_ok 32 mxQ mxP mxT 1.
Proof.
  split; [unfold Z.le; vm_compute; discriminate|]. split; [|unfold mxP, mxT; cbn [length]; lia].
  intros q Hq. cbn in Hq. repeat (destruct Hq as [<-|Hq]; [unfold Z.le; vm_compute; discriminate|]). contradiction.
Qed.
Lemma setup32 : exists ks conv, fast_setup mxQ mxP mxT 1 par32 ks conv (4 + 1).
Proof.
  destruct (fast_constructors 1000 32 mxQ mxP mxT 1 par32 sizes32 par32_built) as [[ks HK] [conv HC]].
  exists ks, conv, 1000%nat, 32. split; [exact sizes32|]. split; [exact par32_built|]. split; [exact HK|]. split; [exact HC|reflexivity].
Qed.
Lemma blocks32 : blocks_below xQ 2 0 32321.
Proof. intros i Hi. change (ceil_div (2 + 1) (0 + 1)) with 3%nat in Hi. destruct i as [|[|[|i]]]; [unfold Z.le; vm_compute; discriminate..|lia]. Qed.
Lemma room32 : FckksSpec.room mxQ mxP mxT 1 32 2 32321.
Proof.
  exists 32321. split.
  - intros j Hj. change (length mxP) with 1%nat in Hj. destruct j as [|[|[|[|j]]]]; [unfold Z.le; vm_compute; discriminate..|lia].
  - unfold Z.le. vm_compute. discriminate.
Qed.

(** Generators whose bytes are all 85, sigma = 3.2, ternary polynomials of weight 10. *)
Definition xsrc : source := mkSource 100 (fun _ => 85) sigma32 no_fun no_fun no_word.
Lemma xsrc_bound : srBound xsrc = 19.
Proof. vm_compute. reflexivity. Qed.
Lemma xsrc_ok : source_ok xsrc.
Proof. split; [intros j; cbn; lia|]. split; [exact no_word_valued|rewrite xsrc_bound; lia]. Qed.
Lemma fit32 : errors_fit xQ xP 19.
Proof.
  split; [reflexivity|]. split.
  - intros i Hi. change (length (rmods xQ)) with 3%nat in Hi. destruct i as [|[|[|i]]]; [reflexivity..|lia].
  - intros i Hi. change (length (rmods xP)) with 1%nat in Hi. destruct i as [|i]; [discriminate|lia].
Qed.

(** The draws of a session, without the keys and ciphertexts. *)
Definition drawn {A} (x : res A) : bool := match x with Ret _ => true | _ => false end.
Definition after {A S} (x : res (A * S)) : res S := let* '(_, s) := x in Ret s.
Definition skel_keys (src : source) (rQ rP : Ring) (st : samplers) : res samplers :=
  let* st := after (read_ternary src rQ (maxLevel rQ) (zero_poly rQ) st) in
  let* st := after (read_gauss src rQ (maxLevel rQ) (zero_poly rQ) st) in
  let* st := after (read_uniform src rQ (maxLevel rQ) (zero_poly rQ) st) in
  let* st := after (read_uniform src rP (maxLevel rP) (zero_poly rP) st) in
  let* st := after (draw_digits src rQ rP (key_digits rQ rP) st) in
  after (draw_digits src rQ rP (key_digits rQ rP) st).
Fixpoint skel_enc (src : source) (rQ : Ring) (n : nat) (pool : rows) (st : samplers) : res samplers :=
  match n with
  | O => Ret st
  | S n => let* '(_, _, _, e1, st) := draw_encryption src rQ (maxLevel rQ) (zero_rows (rN rQ) (S (maxLevel rQ))) pool st in skel_enc src rQ n e1 st
  end.
Lemma x_keys : drawn (skel_keys xsrc xQ xP (newSamplers 10)) = true.
Proof. vm_compute. reflexivity. Qed.
Lemma x_enc : drawn (skel_enc xsrc xQ 2 (zero_poly xQ) (newSamplers 10)) = true.
Proof. vm_compute. reflexivity. Qed.

Lemma encrypt_all_drawn (Qs Ps Ts : list Z) gamma p ks conv m L src delta roots pools A scale sk s pk Be Bs :
  fast_setup Qs Ps Ts gamma p ks conv (m + 1) -> (3 <= L <= m)%nat -> (4 <= m)%nat -> source_ok src -> errors_fit (fpQ p) (fpP p) (srBound src) ->
  roots_near (2 ^ (m + 2)) delta roots -> (forall n, length (epBuf (pools n)) = 2 ^ m)%nat -> (growth delta (L + 2) <= 1)%R ->
  scale_ok scale -> (4 * (fval scale * A) <= IZR (2 ^ 64))%R -> secret (fpQ p) (m + 1) sk s -> public_key_ok (fpQ p) (fpP p) (m + 1) pk s Be -> 0 <= Be -> 0 <= Bs -> pbound (rN (fpQ p)) Bs s ->
  forall msgs, (forall msg, In msg msgs -> values_ok L A msg) -> forall enc, encryptor_ok (fpQ p) scale enc -> drawn (skel_enc src (fpQ p) (length msgs) (fePool enc) (feSm enc)) = true ->
  encrypt_all src (fpQ p) (fpP p) pk roots pools L scale msgs enc <> Codec.Fail.
Proof.
  intros HF HL Hm HS HE HR HB HG Hsc H4 Hs Hpk HBe HBs Hsb.
  assert (HP := f_pair Qs Ps Ts gamma p ks conv (m + 1) HF). assert (ML := max_ne (fpQ p) (k_Q (fpQ p) (fpP p) HP)).
  induction msgs as [|msg msgs IH]; intros HV enc He HD; [discriminate|].
  assert (Y := encrypt_all_ok Qs Ps Ts gamma p ks conv m L HF HL Hm src delta roots (fun _ => pools (length msgs)) A scale sk s pk Be Bs [msg] HS HE HR ltac:(intros n; apply HB) HG Hsc H4 Hs Hpk HBe HBs Hsb).
  specialize (Y ltac:(intros msg' [<-|[]]; apply HV; left; reflexivity) enc He). cbn [encrypt_all length] in Y |- *. cbn [length skel_enc] in HD.
  unfold DrawEncryptMsgNew, DrawEncryptMsg in *.
  replace (Nat.min (length (ptV (fePt enc)) - 1) (length (comp (NewCiphertext (rN (fpQ p)) 1 (maxLevel (fpQ p)) scale) 0) - 1)) with (maxLevel (fpQ p)) in *.
  2: { destruct He as ((_ & E2 & _) & _). rewrite E2. unfold comp, NewCiphertext. cbn [ctV repeat nth]. unfold zero_rows. rewrite repeat_length. lia. }
  change (comp (NewCiphertext (rN (fpQ p)) 1 (maxLevel (fpQ p)) scale) 1) with (zero_rows (rN (fpQ p)) (S (maxLevel (fpQ p)))) in *.
  destruct (draw_encryption src (fpQ p) (maxLevel (fpQ p)) _ (fePool enc) (feSm enc)) as [[[[[c1 u] e0] e1] st]| |]; cbn [bind] in *; [|discriminate HD|discriminate HD].
  destruct (EncryptMsg _ _ _ _ _ _ _ _ _ _ _ _ _ _ _) as [[c pt]|]; [|intros E; discriminate E]. cbn [bind] in *.
  cbn [yields] in Y. destruct Y as [Y _].
  specialize (IH ltac:(intros msg' Hin; apply HV; right; exact Hin) (mkEnc pt e1 st) Y HD).
  destruct (encrypt_all _ _ _ _ _ _ _ _ _ _) as [[l enc']| |]; cbn [bind]; [discriminate|contradiction|discriminate].
Qed.

Definition t_vals : list complex128 := map (fun '(a, b) => (f64_of_Z a, f64_of_Z b)) [(0, 1); (1, 1); (2, 0); (-1, 0); (0, 0); (1, -1)]%Z.
Lemma t_vals_ok : values_ok 3 2 t_vals.
Proof.
  split; [unfold t_vals; rewrite map_length; cbn [length]; change (2 ^ 3)%nat with 8%nat; lia|]. split.
  - intros z Hz. apply in_map_iff in Hz. destruct Hz as ((a & b) & <- & Hz).
    assert (H : (Z.abs a + Z.abs b <= 2)%Z) by (cbn in Hz; destruct Hz as [E | [E | [E | [E | [E | [E | []]]]]]]; injection E as <- <-; lia).
    destruct (of_Z_int a ltac:(lia)) as [F1 E1]. destruct (of_Z_int b ltac:(lia)) as [F2 E2]. split; [split; assumption|].
    apply Rle_trans with (1 := Cmod_sum _ _). cbn [fst snd]. rewrite E1, E2, <- !abs_IZR, <- plus_IZR. apply IZR_le. exact H.
  - split; [lra|]. replace (2 ^ 3 * 2)%R with (IZR 16) by lra. apply IZR_le. discriminate.
Qed.

Definition xscale : float64 := f64_of_Z (2 ^ 20).
Definition xlim : limits := mkLim mxQ mxP mxT 1 32321 19 1 xscale.
(** a*b, its rotation by 1, the sum of the two, divided by the last modulus. *)
Definition xprog : list instr := [IMul 0 1; IRot 0 2; IAdd 2 3; IRescale 4].

Open Scope R_scope.
Lemma xscale_val : ffinite xscale /\ fval xscale = 1048576.
Proof. destruct (of_Z_int (2 ^ 20) ltac:(discriminate)) as [F E]. split; [exact F|]. unfold xscale. rewrite E. reflexivity. Qed.
Lemma xscale_ok : scale_ok xscale.
Proof. destruct xscale_val as [F E]. split; [exact F|rewrite E; lra]. Qed.
Definition xscale2 : float64 := f64_mul xscale xscale.
Lemma xscale2_val : ffinite xscale2 /\ fval xscale2 = 1099511627776.
Proof.
  destruct xscale_val as [F E]. destruct (mul_correct xscale xscale F F) as [E2 F2]; [rewrite E, Rabs_pos_eq by lra; replace (1048576 * 1048576) with (IZR (2 ^ 40)) by lra; apply IZR_le; discriminate|].
  split; [exact F2|]. unfold xscale2. rewrite E2, E. replace (1048576 * 1048576) with (IZR (2 ^ 40)) by lra. rewrite rnd_Z by discriminate. reflexivity.
Qed.
Definition f_in : info := fresh_info xQ xP 3 xscale 2 (/ 2 ^ 48) 19 19 1.
Lemma f_in_eps : 0 <= inEps f_in <= 1100.
Proof.
  unfold f_in, fresh_info. cbn [inEps]. rewrite (proj2 xscale_val). unfold encode_eps, fresh_size.
  change (rN xQ) with 32%nat. change (mq (rmod xP 0)) with 31489%Z. replace (INR 32) with 32 by (cbn; lra).
  change (Z.of_nat 32 * (1 * 19) + 19 + Z.of_nat 32 * (19 * 1))%Z with 1235%Z. change (1 + Z.of_nat 32 * 1)%Z with 33%Z.
  assert (G := s_growth 5 (le_n 5)). assert (G0 : 0 <= growth (/ 2 ^ 48) 5) by (unfold growth; assert (1 <= (1 + (/ 2 ^ 48 + / 2 ^ 49)) ^ 5) by (apply pow_R1_Rle; lra); lra).
  change (3 + 2)%nat with 5%nat. lra.
Qed.
Lemma switch32 : 0 <= INR (rN xQ) * switch_size xQ xP 2 (maxLevel xP) 32321 19 1 <= 62000.
Proof.
  unfold switch_size. change (rN xQ) with 32%nat. replace (INR 32) with 32 by (cbn; lra). change (maxLevel xP) with 0%nat.
  change (Z.of_nat (ceil_div (2 + 1) (0 + 1)) * (Z.of_nat 32 * (32321 * 19)))%Z with 58953504%Z. change (product (prefix xP 0)) with 31489%Z. change (1 + Z.of_nat 32 * 1)%Z with 33%Z. lra.
Qed.
Definition f_mul : info := product_info xQ xP xlim f_in f_in.
Definition f_rot : info := rotate_info xQ xP xlim f_mul.
Definition f_sum : info := sum_info f_mul f_rot.
Definition f_out : info := rescale_info xQ xlim 1 f_sum.
Lemma f_mul_eps : 0 <= inEps f_mul <= 4620000000.
Proof.
  assert (H := f_in_eps). assert (H2 := switch32). unfold f_mul, product_info. cbn [inEps inSize inScale inLevel xlim liDQ liBe liBs f_in fresh_info].
  change (encode_eps 3 (fval xscale) 2 (/ 2 ^ 48) + INR (rN xQ) * fresh_size (rN xQ) (mq (rmod xP 0)) 1 19 19 1) with (inEps f_in). 
  change (Nat.min (maxLevel xQ) (maxLevel xQ)) with 2%nat. rewrite (proj2 xscale_val). unfold product_eps. set (e := inEps f_in) in *. clearbody e.
  set (w := INR (rN xQ) * _) in *. clearbody w. assert (0 <= e * e <= 1100 * 1100) by nra. lra.
Qed.
Lemma f_rot_eps : 0 <= inEps f_rot <= 4621000000.
Proof.
  assert (H := f_mul_eps). assert (H2 := switch32). unfold f_rot, rotate_info. cbn [inEps]. change (inLevel f_mul) with 2%nat. cbn [xlim liDQ liBe liBs].
  set (e := inEps f_mul) in *. clearbody e. set (w := INR (rN xQ) * _) in *. clearbody w. lra.
Qed.
Lemma f_sum_eps : 0 <= inEps f_sum <= 9241000000.
Proof.
  assert (H := f_mul_eps). assert (H2 := f_rot_eps). unfold f_sum, sum_info. cbn [inEps]. change (inScale f_mul) with xscale2. change (inScale f_rot) with xscale2.
  rewrite max_same, !match_same. unfold sum_eps. replace (1 * fval xscale2 - fval xscale2) with 0 by ring. rewrite Rabs_R0. lra.
Qed.
Lemma f_sum_scale : inScale f_sum = xscale2.
Proof. unfold f_sum, sum_info. cbn [inScale]. change (inScale f_mul) with xscale2. change (inScale f_rot) with xscale2. apply max_same. Qed.
Lemma x_count : rescale_count xQ 2 xscale xscale2 1.
Proof. split; [lia|]. split; [|vm_compute; reflexivity]. intros i Hi. destruct i as [|i]; [|lia]. vm_compute. reflexivity. Qed.
Lemma f_out_scale : 34496000 <= fval (inScale f_out) <= 34497000.
Proof.
  unfold f_out, rescale_info. cbn [inScale]. rewrite f_sum_scale. change (inLevel f_sum) with 2%nat. unfold rescaled_scale, last_moduli. cbn [seq map fold_left].
  change (mq (rmod xQ (2 - 0))) with 31873%Z. destruct xscale2_val as [F2 E2]. destruct xscale_val as [F E].
  destruct (div_step xscale2 31873 xscale) as (_ & _ & H).
  - split; [exact F2|rewrite E2; lra].
  - rewrite E2. apply IZR_le. discriminate.
  - split; [discriminate|reflexivity].
  - exact F.
  - rewrite E. lra.
  - vm_compute. reflexivity.
  - rewrite E2 in H. lra.
Qed.
Lemma f_out_eps : 0 <= inEps f_out <= 292000.
Proof.
  assert (H := f_sum_eps). unfold f_out, rescale_info. cbn [inEps xlim liBs]. rewrite f_sum_scale, (proj2 xscale2_val). change (inLevel f_sum) with 2%nat.
  change (product (last_moduli xQ 2 1)) with 31873%Z. unfold rescale_eps. change (rN xQ) with 32%nat. replace (INR 32) with 32 by (cbn; lra).
  replace (inSize f_sum) with 8 by (cbn; lra). cbn [sum_f_R0]. set (e := inEps f_sum) in *. clearbody e. rewrite !pow_1, pow_O. lra.
Qed.
Lemma x_analysis : analysed xQ xP xlim [1%Z] (repeat f_in 2) xprog [f_in; f_in; f_mul; f_rot; f_sum; f_out].
Proof.
  destruct xscale_val as [F E]. destruct xscale2_val as [F2 E2]. assert (S32 : switch_ok xQ xP xlim 2) by (split; [exact blocks32|exact room32]).
  assert (B : 1 <= IZR (2 ^ 1000)) by (apply IZR_le; discriminate).
  unfold xprog. eapply an_cons; [apply (an_mul _ _ _ _ _ 0 1 f_in f_in); [reflexivity|reflexivity| |exact S32]|].
  { change (inScale f_in) with xscale. rewrite E. replace (1048576 * 1048576) with (IZR (2 ^ 40)) by lra. split; [lra|apply IZR_le; discriminate]. }
  eapply an_cons; [apply (an_rot _ _ _ _ _ 0 2 f_mul); [cbn; lia|reflexivity|exact S32]|].
  eapply an_cons; [apply (an_add _ _ _ _ _ 2 3 f_mul f_rot); [reflexivity|reflexivity|]|].
  { unfold scales_meet. change (inScale f_mul) with xscale2. change (inScale f_rot) with xscale2. rewrite match_same. lia. }
  eapply an_cons; [apply (an_rescale _ _ _ _ _ 4 f_sum 1); [reflexivity|lia| | |]|apply an_nil].
  - change (inLevel f_sum) with 2%nat. lia.
  - rewrite f_sum_scale, E2. apply IZR_le. discriminate.
  - rewrite f_sum_scale. exact x_count.
Qed.
Lemma x_readable : readable xQ 3 f_out.
Proof.
  assert (H1 := f_out_scale). assert (H2 := f_out_eps). unfold readable. change (inLevel f_out) with 1%nat. change (product (prefix xQ 1)) with 1042578497%Z.
  replace (inSize f_out) with 8 by (cbn; lra). set (sc := fval (inScale f_out)) in *. set (e := inEps f_out) in *. clearbody sc e.
  assert (B : IZR (2 ^ 60) <= IZR (2 ^ 900)) by (apply IZR_le; discriminate). assert (B' : IZR (2 ^ 60) <= IZR (2 ^ 1000)) by (apply IZR_le; discriminate).
  assert (E60 : IZR (2 ^ 60) = 1152921504606846976) by reflexivity. rewrite E60 in B, B'. clear E60.
  assert (D : e / sc <= 1) by (apply Rmult_le_reg_r with sc; [lra|]; unfold Rdiv; rewrite Rmult_assoc, Rinv_l by lra; lra).
  set (X := IZR (2 ^ 900)) in *. set (Y := IZR (2 ^ 1000)) in *. clearbody X Y.
  split; [lra|]. split; [lra|]. split; lra.
Qed.
Lemma x_accuracy : decoded_eps 3 (/ 2 ^ 48) f_out <= / 100.
Proof.
  assert (H1 := f_out_scale). assert (H2 := f_out_eps). unfold decoded_eps. replace (inSize f_out) with 8 by (cbn; lra). set (sc := fval (inScale f_out)) in *. set (e := inEps f_out) in *. clearbody sc e.
  assert (G := s_growth 4 ltac:(lia)). assert (G0 : 0 <= growth (/ 2 ^ 48) 4) by (unfold growth; assert (1 <= (1 + (/ 2 ^ 48 + / 2 ^ 49)) ^ 4) by (apply pow_R1_Rle; lra); lra).
  assert (D : 0 <= e / sc <= 85 / 10000).
  { split; [apply Rmult_le_pos; [lra|apply Rlt_le, Rinv_0_lt_compat; lra]|]. apply Rmult_le_reg_r with sc; [lra|]. unfold Rdiv at 1. rewrite Rmult_assoc, Rinv_l by lra. lra. }
  set (d := e / sc) in *. clearbody d. change (3 + 1)%nat with 4%nat. set (g := growth _ 4) in *. clearbody g. nra.
Qed.

Definition x_fs : FScratch := mkFS (mkScratch [] ([], []) [] [] [] [] [] [] []) [] [] [] [] [] [] [] [] [] [] [] [].
Definition x_session (ks : KeySwitcher) (conv : list BasisExtender) (roots : list complex128) : res (list complex128) :=
  session xsrc xsrc 10 par32 ks conv roots (fun _ => mkKP ([], []) [] [] []) (fun _ => mkEP (repeat c_zero 16) [] [] []) (fun _ => x_fs) (fun _ => NewCiphertext 32 1 2 xscale)
    (repeat c_zero 16) (zero_rows 32 3) 3 xscale xscale [1%Z] [s_vals; t_vals] xprog 5.
Lemma x_meaning k : (k < 8)%nat -> nth 5 (meanings 3 [1%Z] (map value_at [s_vals; t_vals]) xprog) vec0 k =
  (value_at s_vals k * value_at t_vals k + value_at s_vals ((k + 1) mod 8) * value_at t_vals ((k + 1) mod 8))%C.
Proof.
  intros Hk. cbn [map]. set (a := value_at s_vals). set (b := value_at t_vals). clearbody a b.
  change (nth 5 (meanings 3 [1%Z] [a; b] xprog) vec0 k) with (a k * b k + turn 3 1 (fun j => a j * b j)%C k)%C.
  unfold turn. replace (Z.to_nat ((Z.of_nat k + 1) mod 2 ^ Z.of_nat 3)) with ((k + 1) mod 8)%nat; [reflexivity|].
  change (2 ^ Z.of_nat 3)%Z with 8%Z. do 8 (destruct k as [|k]; [reflexivity|]). lia.
Qed.
Lemma x_yields ks conv roots : fast_setup mxQ mxP mxT 1 par32 ks conv (4 + 1) -> roots_near 64 (/ 2 ^ 48) roots ->
  yields (x_session ks conv roots) (fun vals => length vals = 8%nat /\ forall k, (k < 8)%nat ->
    Cmod (value_at vals k - (value_at s_vals k * value_at t_vals k + value_at s_vals ((k + 1) mod 8) * value_at t_vals ((k + 1) mod 8)))%C <= / 100).
Proof.
  intros HF HR. destruct xscale_val as [F E].
  assert (Y := session_ok mxQ mxP mxT 1 par32 ks conv 4 3 HF ltac:(lia) ltac:(lia) xsrc xsrc 10 (/ 2 ^ 48) roots (fun _ => mkKP ([], []) [] [] []) (fun _ => mkEP (repeat c_zero 16) [] [] []) (fun _ => x_fs)
    (fun _ => NewCiphertext 32 1 2 xscale) (repeat c_zero 16) (zero_rows 32 3) xscale 2 [1%Z] [s_vals; t_vals] xprog 5 xlim [f_in; f_in; f_mul; f_rot; f_sum; f_out] f_out xsrc_ok xsrc_ok).
  rewrite xsrc_bound in Y. specialize (Y fit32 fit32 HR). eapply yields_weaken; [|apply Y].
  - intros vals [V1 V2]. split; [exact V1|]. intros k Hk. destruct (V2 k Hk) as [_ V3].
    rewrite (x_meaning k Hk) in V3. apply Rle_trans with (1 := V3). exact x_accuracy.
  - apply Rle_trans with (1 := s_growth 5 (le_n 5)). lra.
  - intros n. reflexivity.
  - reflexivity.
  - reflexivity.
  - intros n. split; [cbn; lia|]. cbn. lia.
  - exact xscale_ok.
  - rewrite E. replace (4 * (1048576 * 2)) with (IZR (2 ^ 23)) by lra. apply IZR_le. discriminate.
  - intros msg [<-|[<-|[]]]; [exact s_vals_ok|exact t_vals_ok].
  - reflexivity.
  - reflexivity.
  - reflexivity.
  - reflexivity.
  - reflexivity.
  - reflexivity.
  - exact F.
  - cbn [xlim liMin]. rewrite E. split; [lra|]. apply IZR_le. discriminate.
  - exact x_analysis.
  - reflexivity.
  - exact x_readable.
Qed.

(** The generators do not run out: the session returns. *)
Lemma session_drawn (Qs Ps Ts : list Z) gamma p ks conv m L ksrc esrc h delta roots kpools epools scratch pool dbuf dpool A scale minScale k msgs prog out :
  fast_setup Qs Ps Ts gamma p ks conv (m + 1) -> (3 <= L <= m)%nat -> (4 <= m)%nat -> source_ok ksrc -> source_ok esrc -> errors_fit (fpQ p) (fpP p) (srBound ksrc) -> errors_fit (fpQ p) (fpP p) (srBound esrc) ->
  roots_near (2 ^ (m + 2)) delta roots -> (forall n, length (epBuf (epools n)) = 2 ^ m)%nat -> growth delta (L + 2) <= 1 -> scale_ok scale -> 4 * (fval scale * A) <= IZR (2 ^ 64) ->
  (forall msg, In msg msgs -> values_ok L A msg) -> drawn (skel_keys ksrc (fpQ p) (fpP p) (newSamplers h)) = true -> drawn (skel_enc esrc (fpQ p) (length msgs) (zero_poly (fpQ p)) (newSamplers h)) = true ->
  session ksrc esrc h p ks conv roots kpools epools scratch pool dbuf dpool L scale minScale [k] msgs prog out <> Codec.Fail.
Proof.
  intros HF HL Hm SK SE EK EE HR HB HG Hsc H4 HV K KE. assert (HP := f_pair Qs Ps Ts gamma p ks conv (m + 1) HF). assert (EN := f_EL Qs Ps Ts gamma p ks conv (m + 1) HF).
  unfold skel_keys, after in K. unfold session, DrawKeyPair.
  assert (Y := draw_secret_key (fpQ p) (fpP p) HP ksrc (newSamplers h) (new_samplers_ok h)). unfold DrawSecretKey in *.
  destruct (read_ternary ksrc (fpQ p) _ _ (newSamplers h)) as [[s0 st0]| |]; cbn [bind] in K; [|discriminate K|discriminate K]. cbn [bind] in Y |- *. cbn [yields] in Y. destruct Y as (Y1 & _ & s & Y2 & Y3).
  assert (Y4 := draw_public_key (fpQ p) (fpP p) HP ksrc SK (m + 1) EN (genSecretKey (fpQ p) (fpP p) s0) s st0 Y1 EK Y2). unfold DrawPublicKey in *.
  destruct (read_gauss ksrc (fpQ p) _ _ st0) as [[e0 st1]| |]; cbn [bind] in K; [|discriminate K|discriminate K]. cbn [bind] in Y4 |- *.
  destruct (read_uniform ksrc (fpQ p) _ _ st1) as [[aQ st2]| |]; cbn [bind] in K; [|discriminate K|discriminate K]. cbn [bind] in Y4 |- *.
  destruct (read_uniform ksrc (fpP p) _ _ st2) as [[aP st3]| |]; cbn [bind] in K; [|discriminate K|discriminate K]. cbn [bind] in Y4 |- *. cbn [yields] in Y4. destruct Y4 as (_ & _ & Y4).
  cbn [length draw_rot_keys]. unfold DrawRelinKey, DrawRotKey.
  destruct (draw_digits ksrc (fpQ p) (fpP p) _ st3) as [[l1 st4]| |]; cbn [bind] in K; [|discriminate K|discriminate K]. cbn [bind].
  destruct (draw_digits ksrc (fpQ p) (fpP p) _ st4) as [[l2 st5]| |]; cbn [bind] in K; [|discriminate K|discriminate K]. cbn [bind]. clear K.
  assert (Hs : secret (fpQ p) (m + 1) (fst (genSecretKey (fpQ p) (fpP p) s0)) s) by (destruct Y2 as (rs & Hs & ->); apply (secret_key (fpQ p) (fpP p) (m + 1) HP EN rs s Hs)).
  assert (D := encrypt_all_drawn Qs Ps Ts gamma p ks conv m L esrc delta roots epools A scale (fst (genSecretKey (fpQ p) (fpP p) s0)) s (GenPublicKey (fpQ p) (fpP p) (genSecretKey (fpQ p) (fpP p) s0) e0 aQ aP) (srBound ksrc) 1
    HF HL Hm SE EE HR HB HG Hsc H4 Hs Y4 ltac:(apply SK) ltac:(lia) ltac:(intros j _; apply (ternary_small _ _ _ Y3)) msgs HV (NewFEncryptor (fpQ p) h scale) (new_encryptor_ok Qs Ps Ts gamma p ks conv m L HF HL Hm h scale) KE).
  destruct (encrypt_all _ _ _ _ _ _ _ _ _ _) as [[cts enc]| |]; cbn [bind]; [|contradiction|discriminate].
  destruct (run _ _ _) as [cts'|]; [|discriminate]. destruct (nth_error cts' out) as [c|]; [|discriminate]. destruct (fst (DecryptToMsg _ _ _ _ _ _)); discriminate.
Qed.
Lemma x_drawn ks conv roots : fast_setup mxQ mxP mxT 1 par32 ks conv (4 + 1) -> roots_near 64 (/ 2 ^ 48) roots -> x_session ks conv roots <> Codec.Fail.
Proof.
  intros HF HR. unfold x_session. apply (session_drawn mxQ mxP mxT 1 par32 ks conv 4 3) with (delta := / 2 ^ 48) (A := 2).
  - exact HF.
  - lia.
  - lia.
  - exact xsrc_ok.
  - exact xsrc_ok.
  - rewrite xsrc_bound. exact fit32.
  - rewrite xsrc_bound. exact fit32.
  - exact HR.
  - intros n. reflexivity.
  - apply Rle_trans with (1 := s_growth 5 (le_n 5)). lra.
  - exact xscale_ok.
  - rewrite (proj2 xscale_val). replace (4 * (1048576 * 2)) with (IZR (2 ^ 23)) by lra. apply IZR_le. discriminate.
  - intros msg [<-|[<-|[]]]; [exact s_vals_ok|exact t_vals_ok].
  - exact x_keys.
  - exact x_enc.
Qed.
Lemma x_returns : exists ks conv roots vals, fast_setup mxQ mxP mxT 1 par32 ks conv (4 + 1) /\ roots_near 64 (/ 2 ^ 48) roots /\ x_session ks conv roots = Ret vals /\ length vals = 8%nat /\
  forall k, (k < 8)%nat -> Cmod (value_at vals k - (value_at s_vals k * value_at t_vals k + value_at s_vals ((k + 1) mod 8) * value_at t_vals ((k + 1) mod 8)))%C <= / 100.
Proof.
  destruct setup32 as (ks & conv & HF). destruct (roots_exist 64) as [roots HR]. assert (Y := x_yields ks conv roots HF HR). assert (D := x_drawn ks conv roots HF HR).
  destruct (x_session ks conv roots) as [vals| |] eqn:E; [|contradiction|contradiction]. exists ks, conv, roots, vals. split; [exact HF|]. split; [exact HR|]. split; [exact E|]. exact Y.
Qed.
