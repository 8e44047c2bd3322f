(** The keys and ciphertexts of the session of SessionEx.v. *)
From Flocq Require Import IEEE754.Binary IEEE754.Bits IEEE754.BinarySingleNaN.
From Coq Require Import Reals Lra Lia ZArith List Arith.
From Coquelicot Require Import Complex.
From Verif Require Import Word Arith PolySpec PolyProofs Ring RingProofs NTT RingOps RNSSpec RowProofs OpsProofs OpsProps BasisExt Automorphism Gadget Frlwe FrlweSetup GadgetSpec Repr FrlweProps FrlweTop ScalingSpec RlweSpec Rlwe RlweKeys RlweTop Float64 FloatProofs Codec Sampler SamplerSpec Gauss GaussSpec GaussProofs GaussEx Ckks CkksSpec CkksBase CkksConst CkksOps CkksFloat Fckks FckksSpec FckksProps Fft FftSpec EncFft SlotSpec Encoder EncSpec EncFloat EncEx Msg MsgSpec SlotMsg MsgProofs MsgOps MsgCkks MsgEx Draw DrawSpec DrawProofs Session SessionSpec SessionProofs SessionEx.
Import ListNotations.
Local Open Scope R_scope.

(** What a session draws: the keys, the message keys, the ciphertexts. *)
Definition parts (p : FParams) conv m L (ksrc esrc : source) h k delta A scale msgs roots epools
    (sk : rows * rows) (s : poly) (pk : (rows * rows) * (rows * rows)) (rlk : fkey) (rtk : RotKey) (cts : list Ct) : Prop :=
  let rQ := fpQ p in let rP := fpP p in
  key_of rQ rP sk s /\ ternary (rN rQ) h s /\ public_key_ok rQ rP (m + 1) pk s (srBound ksrc) /\
  fast_key conv p (m + 1) rlk s (ppow (rN rQ) s 2) (srBound ksrc) /\ fast_rotation_key conv p (m + 1) k rtk s (srBound ksrc) /\
  all3 (holds rQ m L (fst sk)) cts (repeat (fresh_info rQ rP L scale A delta (srBound ksrc) (srBound esrc) 1) (length msgs)) (map value_at msgs) /\
  exists st st1 st2 enc, DrawKeyPair ksrc rQ rP (newSamplers h) = Ret (sk, pk, st) /\ DrawRelinKey ksrc conv p sk [] [] [] [] st = Ret (rlk, st1) /\
    DrawRotKey ksrc conv p k sk ([], []) [] [] [] st1 = Ret (rtk, st2) /\ encrypt_all esrc rQ rP pk roots epools L scale msgs (NewFEncryptor rQ h scale) = Ret (cts, enc).

Lemma parts_drawn (Qs Ps Ts : list Z) gamma p ks conv m L ksrc esrc h delta roots epools A scale k msgs :
  fast_setup Qs Ps Ts gamma p ks conv (m + 1) -> (3 <= L <= m)%nat -> (4 <= m)%nat -> source_ok ksrc -> source_ok esrc -> errors_fit (fpQ p) (fpP p) (srBound ksrc) -> errors_fit (fpQ p) (fpP p) (srBound esrc) ->
  roots_near (2 ^ (m + 2)) delta roots -> (forall n, length (epBuf (epools n)) = 2 ^ m)%nat -> growth delta (L + 2) <= 1 -> scale_ok scale -> 4 * (fval scale * A) <= IZR (2 ^ 64) ->
  (forall msg, In msg msgs -> values_ok L A msg) -> drawn (skel_keys ksrc (fpQ p) (fpP p) (newSamplers h)) = true -> drawn (skel_enc esrc (fpQ p) (length msgs) (zero_poly (fpQ p)) (newSamplers h)) = true ->
  exists sk s pk rlk rtk cts, parts p conv m L ksrc esrc h k delta A scale msgs roots epools sk s pk rlk rtk cts.
Proof.
  intros HF HL Hm SK SE EK EE HR HB HG Hsc H4 HV K KE. assert (HP := f_pair Qs Ps Ts gamma p ks conv (m + 1) HF). assert (EN := f_EL Qs Ps Ts gamma p ks conv (m + 1) HF).
  unfold skel_keys, after in K. unfold parts, DrawKeyPair.
  assert (Y := draw_secret_key (fpQ p) (fpP p) HP ksrc (newSamplers h) (new_samplers_ok h)). unfold DrawSecretKey in *.
  destruct (read_ternary ksrc (fpQ p) _ _ (newSamplers h)) as [[s0 st0]| |]; cbn [bind] in K; [|discriminate K|discriminate K]. cbn [bind] in Y |- *. cbn [yields] in Y. destruct Y as (Y1 & _ & s & Y2 & Y3).
  assert (Y4 := draw_public_key (fpQ p) (fpP p) HP ksrc SK (m + 1) EN (genSecretKey (fpQ p) (fpP p) s0) s st0 Y1 EK Y2). unfold DrawPublicKey in *.
  destruct (read_gauss ksrc (fpQ p) _ _ st0) as [[e0 st1]| |]; cbn [bind] in K; [|discriminate K|discriminate K]. cbn [bind] in Y4 |- *.
  destruct (read_uniform ksrc (fpQ p) _ _ st1) as [[aQ st2]| |]; cbn [bind] in K; [|discriminate K|discriminate K]. cbn [bind] in Y4 |- *.
  destruct (read_uniform ksrc (fpP p) _ _ st2) as [[aP st3]| |]; cbn [bind] in K; [|discriminate K|discriminate K]. cbn [bind] in Y4 |- *. cbn [yields] in Y4. destruct Y4 as (Z1 & _ & Y4).
  set (sk := genSecretKey (fpQ p) (fpP p) s0) in *. set (pk := GenPublicKey (fpQ p) (fpP p) sk e0 aQ aP) in *.
  assert (Y5 := draw_relin_key Qs Ps Ts gamma p ks conv (m + 1) HF ksrc SK sk s [] [] [] [] st3 Z1 EK Y2). unfold DrawRelinKey in *.
  destruct (draw_digits ksrc (fpQ p) (fpP p) _ st3) as [[l1 st4]| |] eqn:D1; cbn [bind] in K; [|discriminate K|discriminate K]. cbn [bind yields] in Y5. destruct Y5 as (Z2 & _ & Y5).
  assert (Y6 := draw_rot_key Qs Ps Ts gamma p ks conv (m + 1) HF ksrc SK k sk s ([], []) [] [] [] st4 Z2 EK Y2). unfold DrawRotKey in *.
  destruct (draw_digits ksrc (fpQ p) (fpP p) _ st4) as [[l2 st5]| |] eqn:D2; cbn [bind] in K; [|discriminate K|discriminate K]. cbn [bind yields] in Y6. destruct Y6 as (Z3 & _ & Y6). clear K.
  assert (Hs : secret (fpQ p) (m + 1) (fst sk) s) by (destruct Y2 as (rs & Hs & E); rewrite E; apply (secret_key (fpQ p) (fpP p) (m + 1) HP EN rs s Hs)).
  assert (Hsb : pbound (rN (fpQ p)) 1 s) by (intros j _; apply (ternary_small _ _ _ Y3)).
  assert (D := encrypt_all_drawn Qs Ps Ts gamma p ks conv m L esrc delta roots epools A scale (fst sk) s pk (srBound ksrc) 1
    HF HL Hm SE EE HR HB HG Hsc H4 Hs Y4 ltac:(apply SK) ltac:(lia) Hsb msgs HV (NewFEncryptor (fpQ p) h scale) (new_encryptor_ok Qs Ps Ts gamma p ks conv m L HF HL Hm h scale) KE).
  assert (D' := encrypt_all_ok Qs Ps Ts gamma p ks conv m L HF HL Hm esrc delta roots epools A scale (fst sk) s pk (srBound ksrc) 1 msgs
    SE EE HR HB HG Hsc H4 Hs Y4 ltac:(apply SK) ltac:(lia) Hsb HV (NewFEncryptor (fpQ p) h scale) (new_encryptor_ok Qs Ps Ts gamma p ks conv m L HF HL Hm h scale)).
  destruct (encrypt_all _ _ _ _ _ _ _ _ _ _) as [[cts enc]| |] eqn:D3; [|contradiction|contradiction]. cbn [yields] in D'. destruct D' as [_ D'].
  exists sk, s, pk. eexists _, _, cts. split; [exact Y2|]. split; [exact Y3|]. split; [exact Y4|]. split; [exact Y5|]. split; [exact Y6|]. split; [exact D'|].
  exists st3, st4, st5, enc. split; [reflexivity|]. split; [rewrite D1; reflexivity|]. split; [rewrite D2; reflexivity|exact D3].
Qed.

Definition x_parts conv roots := parts par32 conv 4 3 xsrc xsrc 10 1 (/ 2 ^ 48) 2 xscale [s_vals; t_vals] roots (fun _ => mkEP (repeat c_zero 16) [] [] []).
Lemma x_parts_drawn ks conv roots : fast_setup mxQ mxP mxT 1 par32 ks conv (4 + 1) -> roots_near 64 (/ 2 ^ 48) roots -> exists sk s pk rlk rtk cts, x_parts conv roots sk s pk rlk rtk cts.
Proof.
  intros HF HR. unfold x_parts.
  apply (parts_drawn mxQ mxP mxT 1 par32 ks conv 4 3 xsrc xsrc 10 (/ 2 ^ 48) roots (fun _ => mkEP (repeat c_zero 16) [] [] []) 2 xscale 1 [s_vals; t_vals]).
  - exact HF.
  - lia.
  - lia.
  - exact xsrc_ok.
  - exact xsrc_ok.
  - rewrite xsrc_bound. exact fit32.
  - rewrite xsrc_bound. exact fit32.
  - exact HR.
  - intros n. reflexivity.
  - apply Rle_trans with (1 := s_growth 5 (le_n 5)). lra.
  - exact xscale_ok.
  - rewrite (proj2 xscale_val). replace (4 * (1048576 * 2)) with (IZR (2 ^ 23)) by lra. apply IZR_le. discriminate.
  - intros msg [<-|[<-|[]]]; [exact s_vals_ok|exact t_vals_ok].
  - exact x_keys.
  - exact x_enc.
Qed.

(** Two fresh ciphertexts, a relinearization key and a key for the rotation by 1. *)
Lemma x_inputs : exists ks conv roots sk s pk rlk rtk c0 c1,
  fast_setup mxQ mxP mxT 1 par32 ks conv (4 + 1) /\ roots_near 64 (/ 2 ^ 48) roots /\ secret xQ 5 sk s /\ pbound 32 1 s /\ public_key_ok xQ xP 5 pk s 19 /\
  fast_key conv par32 5 rlk s (ppow 32 s 2) 19 /\ fast_rotation_key conv par32 5 1 rtk s 19 /\ holds xQ 4 3 sk c0 f_in (value_at s_vals) /\ holds xQ 4 3 sk c1 f_in (value_at t_vals).
Proof.
  destruct setup32 as (ks & conv & HF). destruct (roots_exist 64) as [roots HR]. destruct (x_parts_drawn ks conv roots HF HR) as (sk & s & pk & rlk & rtk & cts & P1 & P2 & P3 & P4 & P5 & P6 & _).
  rewrite xsrc_bound in P3, P4, P5, P6.
  assert (HP := f_pair mxQ mxP mxT 1 par32 ks conv 5 HF). assert (Hs : secret xQ 5 (fst sk) s) by (destruct P1 as (rs & Hs & E); rewrite E; apply (secret_key xQ xP 5 HP eq_refl rs s Hs)).
  inversion P6 as [|c0 ? ? cs0 ? ? H0 H1]; subst. inversion H1 as [|c1 ? ? cs1 ? ? H2 H3]; subst.
  exists ks, conv, roots, (fst sk), s, pk, rlk, rtk, c0, c1. split; [exact HF|]. split; [exact HR|]. split; [exact Hs|].
  split; [intros j _; apply (ternary_small _ _ _ P2)|]. split; [exact P3|]. split; [exact P4|]. split; [exact P5|]. split; [exact H0|exact H2].
Qed.
Lemma x_parts_returned : exists ks conv roots sk s pk rlk rtk c0 c1 st st1 st2 enc,
  fast_setup mxQ mxP mxT 1 par32 ks conv 5 /\ source_ok xsrc /\ srBound xsrc = 19%Z /\ errors_fit xQ xP 19 /\
  DrawKeyPair xsrc xQ xP (newSamplers 10) = Ret (sk, pk, st) /\ key_of xQ xP sk s /\ ternary 32 10 s /\ public_key_ok xQ xP 5 pk s 19 /\
  DrawRelinKey xsrc conv par32 sk [] [] [] [] st = Ret (rlk, st1) /\ fast_key conv par32 5 rlk s (ppow 32 s 2) 19 /\
  DrawRotKey xsrc conv par32 1 sk ([], []) [] [] [] st1 = Ret (rtk, st2) /\ fast_rotation_key conv par32 5 1 rtk s 19 /\
  encrypt_all xsrc xQ xP pk roots (fun _ => mkEP (repeat c_zero 16) [] [] []) 3 xscale [s_vals; t_vals] (NewFEncryptor xQ 10 xscale) = Ret ([c0; c1], enc) /\
  holds xQ 4 3 (fst sk) c0 f_in (value_at s_vals) /\ holds xQ 4 3 (fst sk) c1 f_in (value_at t_vals).
Proof.
  destruct setup32 as (ks & conv & HF). destruct (roots_exist 64) as [roots HR].
  destruct (x_parts_drawn ks conv roots HF HR) as (sk & s & pk & rlk & rtk & cts & P1 & P2 & P3 & P4 & P5 & P6 & st & st1 & st2 & enc & D1 & D2 & D3 & D4).
  rewrite xsrc_bound in P3, P4, P5, P6.
  inversion P6 as [|c0 ? ? cs0 ? ? H0 H1]; subst. inversion H1 as [|c1 ? ? cs1 ? ? H2 H3]; subst. inversion H3; subst.
  exists ks, conv, roots, sk, s, pk, rlk, rtk, c0, c1, st, st1, st2, enc. split; [exact HF|]. split; [exact xsrc_ok|]. split; [exact xsrc_bound|]. split; [exact fit32|].
  split; [exact D1|]. split; [exact P1|]. split; [exact P2|]. split; [exact P3|]. split; [exact D2|]. split; [exact P4|]. split; [exact D3|]. split; [exact P5|]. split; [exact D4|]. split; [exact H0|exact H2].
Qed.
Lemma all3_length {X Y T} (P : X -> Y -> T -> Prop) xs ys ts : all3 P xs ys ts -> length xs = length ys.
Proof. induction 1; cbn; congruence. Qed.
