(** C78: keys and encryptions drawn from the bytes of a generator.  [yields x P] says that the computation x does not panic and that
    what it returns satisfies P (it may run out of the number of rejections allowed by [srFuel]). *)
From Coq Require Import Reals Lra Lia.
From Coquelicot Require Import Complex.
From Verif Require Import Word Arith PolySpec Ring RingOps RNSSpec Gadget GadgetSpec Frlwe FrlweSetup ScalingSpec RlweSpec Rlwe RlweKeys Float64 Codec Sampler SamplerSpec Gauss GaussSpec Ckks CkksSpec Fckks FckksSpec FckksProps FftSpec SlotSpec Encoder EncSpec EncEx Msg MsgSpec MsgEx Draw DrawSpec DrawProofs DrawFresh Session SessionSpec SessionEx SessionParts.
Open Scope Z_scope.

(** ** The secret key: exactly h coefficients (at most N) are 1 or -1. *)
Theorem C78_secret_key : forall rQ rP, ring_pair rQ rP -> forall src st, samplers_ok st ->
  yields (DrawSecretKey src rQ rP st) (fun '(sk, st') => samplers_ok st' /\ smHw st' = Nat.min (smHw st) (rN rQ) /\ exists s, key_of rQ rP sk s /\ ternary (rN rQ) (smHw st) s).
Proof. exact draw_secret_key. Qed.
Print Assumptions C78_secret_key.

(** ** The public key: b + a s is an error of at most 6 sigma. *)
Theorem C78_public_key : forall rQ rP, ring_pair rQ rP -> forall src, source_ok src -> forall L, rN rQ = (2 ^ L)%nat -> forall sk s st,
  samplers_ok st -> errors_fit rQ rP (srBound src) -> key_of rQ rP sk s ->
  yields (DrawPublicKey src rQ rP sk st) (fun '(pk, st') => samplers_ok st' /\ smHw st' = smHw st /\ public_key_ok rQ rP L pk s (srBound src)).
Proof. exact draw_public_key. Qed.
Print Assumptions C78_public_key.

(** ** The keys of the fast evaluator: for s^2, and for a rotation. *)
Theorem C78_relin_key : forall Qs Ps Ts gamma p ks conv L, fast_setup Qs Ps Ts gamma p ks conv L -> let rQ := fpQ p in let rP := fpP p in forall src, source_ok src ->
  forall sk s poolQP poolQ pool0 pool1 st, samplers_ok st -> errors_fit rQ rP (srBound src) -> key_of rQ rP sk s ->
  yields (DrawRelinKey src conv p sk poolQP poolQ pool0 pool1 st) (fun '(rlk, st') => samplers_ok st' /\ smHw st' = smHw st /\ fast_key conv p L rlk s (ppow (rN rQ) s 2) (srBound src)).
Proof. exact draw_relin_key. Qed.
Print Assumptions C78_relin_key.

Theorem C78_rot_key : forall Qs Ps Ts gamma p ks conv L, fast_setup Qs Ps Ts gamma p ks conv L -> let rQ := fpQ p in let rP := fpP p in forall src, source_ok src ->
  forall k sk s poolQP poolQ pool0 pool1 st, samplers_ok st -> errors_fit rQ rP (srBound src) -> key_of rQ rP sk s ->
  yields (DrawRotKey src conv p k sk poolQP poolQ pool0 pool1 st) (fun '(rtk, st') => samplers_ok st' /\ smHw st' = smHw st /\ fast_rotation_key conv p L k rtk s (srBound src)).
Proof. exact draw_rot_key. Qed.
Print Assumptions C78_rot_key.

(** ** Encryption of a message. *)
Theorem C78_encrypt_msg : forall m L rQ rP src delta roots buf vals A sk s pk Be Bs lo out pool poolP0 poolP1 scale enc,
  ring_pair rQ rP -> source_ok src -> errors_fit rQ rP (srBound src) -> encoder_shape m L rQ delta roots buf -> (3 <= L)%nat -> (16 <= length buf)%nat ->
  encryptor_ok rQ scale enc -> scale_ok scale -> values_ok L A vals -> (4 * (fval scale * A) <= IZR (2 ^ 64))%R -> (growth delta (L + 2) <= 1)%R ->
  secret rQ (m + 1) sk s -> public_key_ok rQ rP (m + 1) pk s Be -> 0 <= Be -> 0 <= Bs -> pbound (rN rQ) Bs s -> receiver rQ lo out ->
  yields (DrawEncryptMsg src rQ rP pk roots buf L vals out pool poolP0 poolP1 enc) (fun '(c, enc') => encryptor_ok rQ scale enc' /\
    ct_ok rQ lo canon c /\ ctDegree c = 1%nat /\ ctScale c = scale /\
    carries rQ m L sk c (value_at vals) (encode_eps L (fval scale) A delta + INR (rN rQ) * fresh_size (rN rQ) (mq (rmod rP 0)) 1 Be (srBound src) Bs)).
Proof. exact draw_encrypt_msg. Qed.
Print Assumptions C78_encrypt_msg.

(** ** Fresh bytes: what is drawn depends only on bytes that the generator had not returned before, and on at least the number stated; the next
    polynomial is drawn from the bytes behind them.  So no two polynomials use the same byte. *)
Theorem C78_fresh_secret_key : forall src rQ rP st, reads_fresh smGen (fun src => DrawSecretKey src rQ rP) (ternary_bytes (rN rQ) (smHw st)) src st.
Proof. exact secret_fresh. Qed.
Print Assumptions C78_fresh_secret_key.

Theorem C78_fresh_public_key : forall src rQ rP sk st, samplers_ok st -> reads_fresh smGen (fun src => DrawPublicKey src rQ rP sk) (digit_bytes (rN rQ) (rN rP)) src st.
Proof. exact public_fresh. Qed.
Print Assumptions C78_fresh_public_key.

Theorem C78_fresh_relin_key : forall src conv p sk poolQP poolQ pool0 pool1 st, samplers_ok st ->
  reads_fresh smGen (fun src => DrawRelinKey src conv p sk poolQP poolQ pool0 pool1) (key_digits (fpQ p) (fpP p) * digit_bytes (rN (fpQ p)) (rN (fpP p))) src st.
Proof. exact relin_fresh. Qed.
Print Assumptions C78_fresh_relin_key.

Theorem C78_fresh_rot_key : forall src conv p k sk poolQP poolQ pool0 pool1 st, samplers_ok st ->
  reads_fresh smGen (fun src => DrawRotKey src conv p k sk poolQP poolQ pool0 pool1) (key_digits (fpQ p) (fpP p) * digit_bytes (rN (fpQ p)) (rN (fpP p))) src st.
Proof. exact rot_fresh. Qed.
Print Assumptions C78_fresh_rot_key.

Theorem C78_fresh_encryption : forall src rQ rP pk roots buf logSlots msg out pool poolP0 poolP1 enc, samplers_ok (feSm enc) ->
  reads_fresh (fun enc => smGen (feSm enc)) (fun src => DrawEncryptMsg src rQ rP pk roots buf logSlots msg out pool poolP0 poolP1)
    (rN rQ + ternary_bytes (rN rQ) (smHw (feSm enc)) + 2048) src enc.
Proof. exact encryption_fresh. Qed.
Print Assumptions C78_fresh_encryption.

(** Degree 32, sigma = 3.2 (errors up to 19), weight 10, two messages: the generators do not run out, every key and ciphertext is drawn. *)
Example C78_case : exists ks conv roots sk s pk rlk rtk c0 c1 st st1 st2 enc,
  fast_setup mxQ mxP mxT 1 par32 ks conv 5 /\ source_ok xsrc /\ srBound xsrc = 19 /\ errors_fit xQ xP 19 /\
  DrawKeyPair xsrc xQ xP (newSamplers 10) = Ret (sk, pk, st) /\ key_of xQ xP sk s /\ ternary 32 10 s /\ public_key_ok xQ xP 5 pk s 19 /\
  DrawRelinKey xsrc conv par32 sk [] [] [] [] st = Ret (rlk, st1) /\ fast_key conv par32 5 rlk s (ppow 32 s 2) 19 /\
  DrawRotKey xsrc conv par32 1 sk ([], []) [] [] [] st1 = Ret (rtk, st2) /\ fast_rotation_key conv par32 5 1 rtk s 19 /\
  encrypt_all xsrc xQ xP pk roots (fun _ => mkEP (repeat c_zero 16) [] [] []) 3 xscale [s_vals; t_vals] (NewFEncryptor xQ 10 xscale) = Ret ([c0; c1], enc) /\
  holds xQ 4 3 (fst sk) c0 f_in (value_at s_vals) /\ holds xQ 4 3 (fst sk) c1 f_in (value_at t_vals).
Proof. exact x_parts_returned. Qed.
