(** C79, C80: programs and sessions.  The program, the meaning of its instructions on vectors of complex numbers and the analysis of its
    levels, scales and errors are in Session.v and SessionSpec.v. *)
From Coq Require Import Reals Lra Lia.
From Coquelicot Require Import Complex.
From Verif Require Import Word Arith PolySpec Ring RingOps RNSSpec Gadget GadgetSpec Frlwe FrlweSetup ScalingSpec RlweSpec Rlwe RlweKeys Float64 Codec Sampler SamplerSpec Gauss GaussSpec Ckks CkksSpec CkksBase Fckks FckksSpec FckksProps FftSpec SlotSpec Encoder EncSpec EncEx Msg MsgSpec MsgEx Draw DrawSpec DrawProofs Session SessionSpec SessionProofs SessionEx SessionParts.
Open Scope R_scope.

(** ** C79: a program whose analysis succeeds does not fail, and every ciphertext carries what the program computes on vectors. *)
Theorem C79_program : forall Qs Ps Ts gamma p ks conv m L, fast_setup Qs Ps Ts gamma p ks conv (m + 1) -> (L <= m)%nat ->
  let rQ := fpQ p in let rP := fpP p in
  forall li ev rots sk s, liQ li = Qs /\ liP li = Ps /\ liT li = Ts /\ liGamma li = gamma ->
  evaluator_ok p conv (m + 1) li ks ev rots s -> limits_ok rQ li s -> secret rQ (m + 1) sk s ->
  forall fs prog fs', analysed rQ rP li rots fs prog fs' -> forall cts vs, all3 (holds rQ m L sk) cts fs vs ->
  exists cts', run ev cts prog = Some cts' /\ all3 (holds rQ m L sk) cts' fs' (meanings L rots vs prog).
Proof. exact run_ok. Qed.
Print Assumptions C79_program.

(** (a b) + rotate(a b, 1), rescaled: six ciphertexts, the last at level 1. *)
Example C79_case : exists ks conv sk s rlk rtk c0 c1 cts c, fast_setup mxQ mxP mxT 1 par32 ks conv 5 /\ secret xQ 5 sk s /\
  run (mkEval ks rlk [rtk] xscale (fun _ => x_fs) (fun _ => NewCiphertext 32 1 2 xscale)) [c0; c1] xprog = Some cts /\ length cts = 6%nat /\ nth_error cts 5 = Some c /\
  holds xQ 4 3 sk c f_out (nth 5 (meanings 3 [1%Z] (map value_at [s_vals; t_vals]) xprog) vec0).
Proof.
  destruct x_inputs as (ks & conv & roots & sk & s & pk & rlk & rtk & c0 & c1 & HF & HR & Hs & Hsb & _ & Hr & Ht & H0 & H1).
  destruct (C79_program mxQ mxP mxT 1 par32 ks conv 4 3 HF ltac:(lia) xlim (mkEval ks rlk [rtk] xscale (fun _ => x_fs) (fun _ => NewCiphertext 32 1 2 xscale)) [1%Z] sk s) with
    (fs := repeat f_in 2) (prog := xprog) (fs' := [f_in; f_in; f_mul; f_rot; f_sum; f_out]) (cts := [c0; c1]) (vs := map value_at [s_vals; t_vals]) as (cts & X1 & X2).
  - split; [reflexivity|]. split; [reflexivity|]. split; reflexivity.
  - split; [reflexivity|]. split; [reflexivity|]. split; [exact Hr|]. split; [reflexivity|]. split.
    + intros [|[|t]] rtk' E; cbn in E; [injection E as <-; exact Ht|discriminate|discriminate].
    + intros n. split; [cbn; lia|]. cbn. lia.
  - split; [cbn; lia|]. split; [cbn; lia|]. split; [exact Hsb|]. split; [exact (proj1 xscale_val)|]. cbn [xlim liMin]. rewrite (proj2 xscale_val). split; [lra|]. apply IZR_le. discriminate.
  - exact Hs.
  - exact x_analysis.
  - constructor; [exact H0|]. constructor; [exact H1|]. constructor.
  - destruct (all3_get _ _ _ _ vec0 5 f_out X2 eq_refl) as (c & C1 & C2). exists ks, conv, sk, s, rlk, rtk, c0, c1, cts, c. split; [exact HF|]. split; [exact Hs|]. split; [exact X1|].
    split; [|split; [exact C1|exact C2]]. apply all3_length in X2. exact X2.
Qed.

(** ** C80: a session: keys drawn from one generator, messages encrypted with another, a program, decryption. *)
Theorem C80_session : forall Qs Ps Ts gamma p ks conv m L, fast_setup Qs Ps Ts gamma p ks conv (m + 1) -> (3 <= L <= m)%nat -> (4 <= m)%nat ->
  let rQ := fpQ p in let rP := fpP p in
  forall ksrc esrc h delta roots kpools epools scratch pool dbuf dpool scale A rots msgs prog out li fs f,
  source_ok ksrc -> source_ok esrc -> errors_fit rQ rP (srBound ksrc) -> errors_fit rQ rP (srBound esrc) ->
  roots_near (2 ^ (m + 2)) delta roots -> growth delta (L + 2) <= 1 ->
  (forall n, length (epBuf (epools n)) = 2 ^ m)%nat -> length dbuf = (2 ^ m)%nat -> pool_shape rQ dpool -> (forall n, 1 <= ctDegree (pool n) /\ maxLevel rQ <= ctLevel (pool n))%nat ->
  scale_ok scale -> 4 * (fval scale * A) <= IZR (2 ^ 64) -> (forall msg, In msg msgs -> values_ok L A msg) ->
  liQ li = Qs -> liP li = Ps -> liT li = Ts -> liGamma li = gamma -> liBe li = srBound ksrc -> liBs li = 1%Z -> ffinite (liMin li) -> 1 <= fval (liMin li) <= IZR (2 ^ 1000) ->
  analysed rQ rP li rots (repeat (fresh_info rQ rP L scale A delta (srBound ksrc) (srBound esrc) 1) (length msgs)) prog fs -> nth_error fs out = Some f -> readable rQ L f ->
  yields (session ksrc esrc h p ks conv roots kpools epools scratch pool dbuf dpool L scale (liMin li) rots msgs prog out) (fun vals =>
    length vals = (2 ^ L)%nat /\ forall k, (k < 2 ^ L)%nat -> cfinite (nth k vals c_zero) /\
      Cmod (value_at vals k - nth out (meanings L rots (map value_at msgs) prog) vec0 k)%C <= decoded_eps L delta f).
Proof. exact session_ok. Qed.
Print Assumptions C80_session.

(** A session that returns, with two messages a, b of 8 values: every value is within 1/100 of a(k) b(k) + a(k+1) b(k+1). *)
Example C80_case : exists ks conv roots vals, fast_setup mxQ mxP mxT 1 par32 ks conv (4 + 1) /\ roots_near 64 (/ 2 ^ 48) roots /\ x_session ks conv roots = Ret vals /\ length vals = 8%nat /\
  forall k, (k < 8)%nat -> Cmod (value_at vals k - (value_at s_vals k * value_at t_vals k + value_at s_vals ((k + 1) mod 8) * value_at t_vals ((k + 1) mod 8)))%C <= / 100.
Proof. exact x_returns. Qed.
