(** Straight-line programs of evaluator calls, and sessions from the generators to the decrypted message. *)
From Flocq Require Import IEEE754.Binary IEEE754.Bits IEEE754.BinarySingleNaN.
From Coq Require Import Reals Lra Lia ZArith List Arith.
From Coquelicot Require Import Complex.
From Verif Require Import Word Arith PolySpec PolyProofs Ring RingProofs NTT RingOps RNSSpec RowProofs OpsProofs OpsProps BasisExt Automorphism Gadget Frlwe FrlweSetup GadgetSpec Repr FrlweProps ScalingSpec RlweSpec Rlwe RlweKeys RlweTop Float64 Codec Sampler SamplerSpec Gauss GaussSpec GaussProofs Ckks CkksSpec CkksBase CkksConst CkksOps Fckks FckksSpec FckksProps Fft FftSpec SlotSpec Encoder EncSpec Msg MsgSpec SlotMsg MsgProofs MsgOps MsgCkks Draw DrawSpec DrawProofs Session SessionSpec.
From Verif Require BasisEx.
Import ListNotations.
Local Open Scope R_scope.

Lemma new_shaped N d level sc : shaped d level (NewCiphertext N d level sc).
Proof.
  unfold NewCiphertext. split; [cbn [ctV]; rewrite repeat_length; reflexivity|]. split; [reflexivity|]. intros j Hj. unfold comp. cbn [ctV].
  assert (E : nth j (repeat (zero_rows N (S level)) (S d)) [] = zero_rows N (S level)) by (apply (repeat_spec (S d)); apply nth_In; rewrite repeat_length; lia).
  rewrite E. unfold zero_rows. apply repeat_length.
Qed.
Lemma ct_level rQ level B c : ct_ok rQ level B c -> ctLevel c = level.
Proof. intros (_ & K2 & _ & K3). unfold ctLevel. destruct (K3 0%nat ltac:(lia)) as [-> _]. lia. Qed.
Lemma ct_ok_ext rQ level B B' c : (forall q, B q = B' q) -> ct_ok rQ level B c -> ct_ok rQ level B' c.
Proof.
  intros E (K1 & K2 & K3 & K4). split; [exact K1|]. split; [exact K2|]. split; [exact K3|]. intros j Hj. destruct (K4 j Hj) as [K5 K6]. split; [exact K5|].
  unfold words in *. setoid_rewrite <- E. exact K6.
Qed.
Lemma words_weaken r level B B' p : (forall i, (i <= level)%nat -> (B (mq (rmod r i)) <= B' (mq (rmod r i)))%Z) -> words r level B p -> words r level B' p.
Proof. intros H [H1 H2]. split; [exact H1|]. intros i Hi. destruct (H2 i Hi) as [H3 H4]. split; [exact H3|]. intros k Hk. specialize (H4 k Hk). specialize (H i Hi). lia. Qed.
Lemma max_ok a b : scale_ok a -> scale_ok b -> scale_ok (MaxFloat64 a b).
Proof. intros Ha Hb. unfold MaxFloat64. destruct (f64_le b a); assumption. Qed.

Lemma vb_add v0 v1 A0 A1 : vbound v0 A0 -> vbound v1 A1 -> vbound (fun k => (v0 k + v1 k)%C) (A0 + A1).
Proof. intros [H1 H2] [H3 H4]. split; [lra|]. intros k. eapply Rle_trans; [apply Cmod_triangle|]. specialize (H2 k). specialize (H4 k). lra. Qed.
Lemma vb_sub v0 v1 A0 A1 : vbound v0 A0 -> vbound v1 A1 -> vbound (fun k => (v0 k - v1 k)%C) (A0 + A1).
Proof. intros [H1 H2] [H3 H4]. split; [lra|]. intros k. unfold Cminus. eapply Rle_trans; [apply Cmod_triangle|]. rewrite Cmod_opp. specialize (H2 k). specialize (H4 k). lra. Qed.
Lemma vb_turn L k v A : vbound v A -> vbound (turn L k v) A.
Proof. intros [H1 H2]. split; [exact H1|]. intros j. apply H2. Qed.

(** Lists of the same length. *)
Lemma all3_app {X Y T} (P : X -> Y -> T -> Prop) xs ys ts x y t : all3 P xs ys ts -> P x y t -> all3 P (xs ++ [x]) (ys ++ [y]) (ts ++ [t]).
Proof. induction 1; intros H'; cbn; repeat constructor; auto. Qed.
Lemma all3_get {X Y T} (P : X -> Y -> T -> Prop) xs ys ts d i y : all3 P xs ys ts -> nth_error ys i = Some y -> exists x, nth_error xs i = Some x /\ P x y (nth i ts d).
Proof.
  intros H. revert i. induction H as [|x y' t xs ys ts H0 H IH]; intros [|i] E; cbn in *; try discriminate; [injection E as <-; exists x; split; [reflexivity|exact H0]|].
  apply IH. exact E.
Qed.

Section Program.
  Variables (Qs Ps Ts : list Z) (gamma : nat) (p : FParams) (ks : KeySwitcher) (conv : list BasisExtender) (m L : nat).
  Hypothesis (HF : fast_setup Qs Ps Ts gamma p ks conv (m + 1)) (HL : (L <= m)%nat).
  Let rQ := fpQ p.
  Let rP := fpP p.
  Variables (li : limits) (ev : Eval) (rots : list Z) (sk : rows) (s : poly).
  Hypothesis (ELi : liQ li = Qs /\ liP li = Ps /\ liT li = Ts /\ liGamma li = gamma).
  Hypothesis (HE : evaluator_ok p conv (m + 1) li ks ev rots s) (HLi : limits_ok rQ li s) (Hs : secret rQ (m + 1) sk s).

  Let BQ : built_ring 9 rQ.
  Proof. apply (f_pair Qs Ps Ts gamma p ks conv (m + 1) HF). Qed.
  Let EN : rN rQ = (2 ^ (m + 1))%nat.
  Proof. exact (f_EL Qs Ps Ts gamma p ks conv (m + 1) HF). Qed.
  Let FC : fits rQ canon.
  Proof. exact (fits_canon rQ BQ (m + 1) EN). Qed.
  Let EQ : evQ ev = rQ.
  Proof. unfold evQ. destruct HE as (-> & _). rewrite (f_ks Qs Ps Ts gamma p ks conv (m + 1) HF). reflexivity. Qed.

  Lemma exec_ok cts fs vs op f : all3 (holds rQ m L sk) cts fs vs -> analysed1 rQ rP li rots fs op f ->
    exists c, exec ev cts op = Some c /\ holds rQ m L sk c f (meaning L rots vs op).
  Proof.
    intros H HA. destruct HE as (Ek & Em & Kr & Kl & Kt & Kp). destruct HLi as (L1 & L2 & L3 & L4 & L5). destruct ELi as (E1 & E2 & E3 & E4).
    destruct HA as [i j f0 f1 I0 I1 [M0 M1]|i j f0 f1 I0 I1 [M0 M1]|i j f0 f1 I0 I1 HSc [SB SR]|t i f Ht I0 [SB SR]|i f nb I0 Hnb Hl Hsc Hc].
    - destruct (all3_get _ _ _ _ vec0 i f0 H I0) as (c0 & C0 & K0 & G0 & S0 & O0 & V0 & B0). destruct (all3_get _ _ _ _ vec0 j f1 H I1) as (c1 & C1 & K1 & G1 & S1 & O1 & V1 & B1).
      cbn [exec meaning]. rewrite C0, C1, EQ. destruct (Kp (length cts)) as [P1 P2]. set (pool := evPool ev (length cts)) in *.
      assert (lvl0 := ct_level _ _ _ _ K0). assert (lvl1 := ct_level _ _ _ _ K1). assert (Hl0 : (inLevel f0 <= maxLevel rQ)%nat) by (destruct K0 as (K0 & _); unfold maxLevel; lia).
      set (out := newCiphertextBinary rQ c0 c1).
      assert (Ho : shaped 1 (Nat.min (inLevel f0) (inLevel f1)) out).
      { unfold out, newCiphertextBinary. rewrite G0, G1, lvl0, lvl1. apply new_shaped. }
      destruct (msg_add rQ m L BQ EN (inLevel f0) (inLevel f1) (Nat.min (inLevel f0) (inLevel f1)) 1 canon canon c0 c1 out pool sk s
        (nth i vs vec0) (nth j vs vec0) (inSize f0) (inSize f1) (inEps f0) (inEps f1) Hs K0 K1 FC FC) as (c & X1 & X2 & X3 & X4 & X5); try assumption.
      + intros q Hq. unfold canon. replace (mq (rmod rQ q) + mq (rmod rQ q) - mq (rmod rQ q))%Z with (mq (rmod rQ q)) by lia. exact (FC q Hq).
      + lia.
      + lia.
      + lia.
      + lia.
      + lia.
      + fold rQ in P2. lia.
      + rewrite S0, S1. exact M0.
      + rewrite S0, S1. exact M1.
      + exists c. unfold AddNew. fold out. split; [exact X1|]. rewrite S0, S1 in *. rewrite Nat.min_id in X2. unfold holds, sum_info. cbn [inLevel inScale inSize inEps].
        split; [apply (ct_ok_ext rQ _ (fun q => canon q + canon q - q)%Z); [intros q; unfold canon; lia|exact X2]|]. split; [rewrite X3; lia|]. split; [exact X4|].
        split; [apply max_ok; assumption|]. rewrite X4 in X5. split; [exact X5|]. apply vb_add; assumption.
    - destruct (all3_get _ _ _ _ vec0 i f0 H I0) as (c0 & C0 & K0 & G0 & S0 & O0 & V0 & B0). destruct (all3_get _ _ _ _ vec0 j f1 H I1) as (c1 & C1 & K1 & G1 & S1 & O1 & V1 & B1).
      cbn [exec meaning]. rewrite C0, C1, EQ. destruct (Kp (length cts)) as [P1 P2]. set (pool := evPool ev (length cts)) in *.
      assert (lvl0 := ct_level _ _ _ _ K0). assert (lvl1 := ct_level _ _ _ _ K1). assert (Hl0 : (inLevel f0 <= maxLevel rQ)%nat) by (destruct K0 as (K0 & _); unfold maxLevel; lia).
      set (out := newCiphertextBinary rQ c0 c1).
      assert (Ho : shaped 1 (Nat.min (inLevel f0) (inLevel f1)) out).
      { unfold out, newCiphertextBinary. rewrite G0, G1, lvl0, lvl1. apply new_shaped. }
      assert (K1' : ct_ok rQ (inLevel f1) closed c1).
      { destruct K1 as (Y1 & Y2 & Y3 & Y4). split; [exact Y1|]. split; [exact Y2|]. split; [exact Y3|]. intros k Hk. destruct (Y4 k Hk) as [Y5 Y6]. split; [exact Y5|].
        apply (words_weaken rQ (inLevel f1) canon closed); [intros; unfold canon, closed; lia|exact Y6]. }
      destruct (msg_sub rQ m L BQ EN (inLevel f0) (inLevel f1) (Nat.min (inLevel f0) (inLevel f1)) 1 canon canon c0 c1 out pool sk s
        (nth i vs vec0) (nth j vs vec0) (inSize f0) (inSize f1) (inEps f0) (inEps f1) Hs K0 K1' FC FC) as (c & X1 & X2 & X3 & X4 & X5); try assumption.
      + intros q Hq. split; [lia|]. intros. lia.
      + lia.
      + lia.
      + lia.
      + lia.
      + lia.
      + fold rQ in P2. lia.
      + rewrite S0, S1. exact M0.
      + rewrite S0, S1. exact M1.
      + exists c. unfold SubNew. fold out. split; [exact X1|]. rewrite S0, S1 in *. rewrite Nat.min_id in X2. unfold holds, sum_info. cbn [inLevel inScale inSize inEps].
        split; [exact X2|]. split; [rewrite X3; lia|]. split; [exact X4|].
        split; [apply max_ok; assumption|]. rewrite X4 in X5. split; [exact X5|]. apply vb_sub; assumption.
    - destruct (all3_get _ _ _ _ vec0 i f0 H I0) as (c0 & C0 & K0 & G0 & S0 & O0 & V0 & B0). destruct (all3_get _ _ _ _ vec0 j f1 H I1) as (c1 & C1 & K1 & G1 & S1 & O1 & V1 & B1).
      cbn [exec meaning]. rewrite C0, C1. set (scratch := evScratch ev (length cts)) in *.
      assert (lvl0 := ct_level _ _ _ _ K0). assert (lvl1 := ct_level _ _ _ _ K1).
      set (out := NewCiphertext (rN (fpQ (ksParams (evKs ev)))) 2 (Nat.min (ctLevel c0) (ctLevel c1)) f64_zero).
      assert (Ho : shaped 2 (Nat.min (inLevel f0) (inLevel f1)) out) by (unfold out; rewrite lvl0, lvl1; apply new_shaped).
      destruct (msg_mul_relin Qs Ps Ts gamma p ks conv m L HF (inLevel f0) (inLevel f1) (Nat.min (inLevel f0) (inLevel f1)) 2 canon canon (evRlk ev) (Nat.eqb i j) c0 c1 out scratch sk s
        (nth i vs vec0) (nth j vs vec0) (inSize f0) (inSize f1) (inEps f0) (inEps f1) (liDQ li) (liBe li) (liBs li) Hs K0 K1 FC FC) as (c & X1 & X2 & X3 & X4 & X5 & X6); try assumption.
      + rewrite S0. exact O0.
      + rewrite S1. exact O1.
      + rewrite S0, S1. exact HSc.
      + intros Hij. apply Nat.eqb_eq in Hij. subst j. rewrite C0 in C1. injection C1 as ->. reflexivity.
      + lia.
      + rewrite Nat.min_id. exact SB.
      + rewrite Nat.min_id, <- E1, <- E2, <- E3, <- E4. exact SR.
      + exists c. unfold FMulRelinNew. fold out. rewrite Ek. split; [exact X1|]. rewrite S0, S1 in *. rewrite Nat.min_id in X2, X6. unfold holds, product_info. cbn [inLevel inScale inSize inEps].
        split; [exact X2|]. split; [exact X3|]. split; [exact X4|]. split; [rewrite <- X4; exact X5|]. split; [exact X6|]. apply vb_mul; assumption.
    - destruct (all3_get _ _ _ _ vec0 i f H I0) as (c0 & C0 & K0 & G0 & S0 & O0 & V0 & B0). cbn [exec meaning].
      destruct (nth_error (evRtks ev) t) as [rtk|] eqn:Et; [|apply nth_error_None in Et; lia]. rewrite C0, Ek.
      destruct (msg_rotate_new Qs Ps Ts gamma p ks conv m L HF (inLevel f) canon rtk (nth t rots 0%Z) c0 (evScratch ev (length cts)) sk s (nth i vs vec0) (inEps f) (liDQ li) (liBe li) (liBs li) HL Hs K0 FC)
        as (c & X1 & X2 & X3 & X4 & X5); try assumption.
      + destruct K0 as (Y1 & Y2 & Y3 & Y4). destruct (Y4 1%nat) as [_ Y5]; [unfold ctDegree in G0; lia|]. apply (words_weaken rQ (inLevel f) canon (fun q => 2 * q)%Z); [|exact Y5].
        intros q Hq. unfold canon. destruct (one_mod rQ BQ q) as [Q1 _]; [lia|]. lia.
      + apply Kt. exact Et.
      + rewrite <- E1, <- E2, <- E3, <- E4. exact SR.
      + exists c. split; [exact X1|]. unfold holds, rotate_info. cbn [inLevel inScale inSize inEps]. split; [exact X2|]. split; [exact X3|]. rewrite <- S0.
        split; [exact X4|]. split; [rewrite S0; exact O0|]. split; [exact X5|]. apply vb_turn. exact B0.
    - destruct (all3_get _ _ _ _ vec0 i f H I0) as (c0 & C0 & K0 & G0 & S0 & O0 & V0 & B0). cbn [exec meaning]. rewrite C0, EQ, Em.
      destruct (msg_rescale rQ m L BQ EN (inLevel f) (inLevel f) canon c0 (liMin li) c0 true sk s (nth i vs vec0) (inSize f) (inEps f) (liBs li) K0) with (nb := nb)
        as (c & X1 & X2 & X3 & X4 & X5 & _ & X7); try assumption.
      + intros q Hq. unfold canon. destruct K0 as (K0 & _). destruct (one_mod rQ BQ q) as [Q1 _]; [lia|]. lia.
      + destruct K0 as (Y1 & Y2 & Y3 & Y4). split; [unfold ctDegree; lia|]. split; [exact Y3|]. intros k Hk. apply Y4. unfold ctDegree in Hk. lia.
      + lia.
      + rewrite S0. exact O0.
      + rewrite S0. exact Hsc.
      + rewrite S0. exact Hc.
      + exists c. rewrite X1. split; [reflexivity|]. unfold holds, rescale_info. cbn [inLevel inScale inSize inEps]. rewrite S0, G0 in *. split; [exact X2|]. split; [exact X3|]. split; [exact X4|].
        split; [rewrite <- X4; exact X5|]. split; [exact X7|exact B0].
  Qed.

  Lemma run_ok fs prog fs' : analysed rQ rP li rots fs prog fs' -> forall cts vs, all3 (holds rQ m L sk) cts fs vs ->
    exists cts', run ev cts prog = Some cts' /\ all3 (holds rQ m L sk) cts' fs' (meanings L rots vs prog).
  Proof.
    induction 1 as [fs|fs op f prog fs' H1 H2 IH]; intros cts vs H; cbn [run meanings].
    - exists cts. split; [reflexivity|exact H].
    - destruct (exec_ok cts fs vs op f H H1) as (c & -> & Hc). apply IH. apply all3_app; assumption.
  Qed.
End Program.

Lemma value_bound L A vals : values_ok L A vals -> vbound (value_at vals) A.
Proof.
  intros (_ & H2 & H3 & _). split; [lra|]. intros k. unfold value_at. destruct (Nat.lt_ge_cases k (length vals)) as [Hk|Hk]; [apply H2; apply nth_In; exact Hk|].
  rewrite nth_overflow by exact Hk. replace (cnum c_zero) with (RtoC 0) by reflexivity. rewrite Cmod_0. lra.
Qed.
Lemma new_samplers_ok h : samplers_ok (newSamplers h).
Proof. apply GaussProofs.new_state. Qed.
Lemma carries_nonneg r m L sk c v eps : carries r m L sk c v eps -> 0 <= eps.
Proof. intros (P & _ & H). eapply Rle_trans; [apply Cmod_ge_0|apply (H 0%nat)]. Qed.

Section Session.
  Variables (Qs Ps Ts : list Z) (gamma : nat) (p : FParams) (ks : KeySwitcher) (conv : list BasisExtender) (m L : nat).
  Hypothesis (HF : fast_setup Qs Ps Ts gamma p ks conv (m + 1)) (HL : (3 <= L <= m)%nat) (Hm : (4 <= m)%nat).
  Let rQ := fpQ p.
  Let rP := fpP p.
  Let HP : ring_pair rQ rP := f_pair Qs Ps Ts gamma p ks conv (m + 1) HF.
  Let EN : rN rQ = (2 ^ (m + 1))%nat := f_EL Qs Ps Ts gamma p ks conv (m + 1) HF.

  Lemma draw_rot_keys_ok src sk s pools rots : source_ok src -> errors_fit rQ rP (srBound src) -> key_of rQ rP sk s -> forall st, samplers_ok st ->
    yields (draw_rot_keys src conv p sk pools rots st) (fun '(l, st') => samplers_ok st' /\ length l = length rots /\
      forall t rtk, nth_error l t = Some rtk -> fast_rotation_key conv p (m + 1) (nth t rots 0%Z) rtk s (srBound src)).
  Proof.
    intros HS HE HK. induction rots as [|k rots IH]; intros st Hst; cbn [draw_rot_keys].
    - cbn [yields]. split; [exact Hst|]. split; [reflexivity|]. intros [|t] rtk E; discriminate E.
    - eapply yields_bind; [apply (draw_rot_key Qs Ps Ts gamma p ks conv (m + 1) HF src HS k sk s); assumption|].
      intros [rtk st1] (X1 & _ & X3). eapply yields_bind; [apply (IH st1 X1)|]. intros [l st2] (Y1 & Y2 & Y3). cbn [yields]. split; [exact Y1|]. split; [cbn; congruence|].
      intros [|t] rtk' E; cbn in E |- *; [injection E as <-; exact X3|apply Y3; exact E].
  Qed.

  Lemma encrypt_all_ok src delta roots pools A scale sk s pk Be Bs msgs : source_ok src -> errors_fit rQ rP (srBound src) ->
    roots_near (2 ^ (m + 2)) delta roots -> (forall n, length (epBuf (pools n)) = 2 ^ m)%nat -> growth delta (L + 2) <= 1 ->
    scale_ok scale -> 4 * (fval scale * A) <= IZR (2 ^ 64) -> secret rQ (m + 1) sk s -> public_key_ok rQ rP (m + 1) pk s Be -> (0 <= Be)%Z -> (0 <= Bs)%Z -> pbound (rN rQ) Bs s ->
    (forall msg, In msg msgs -> values_ok L A msg) -> forall enc, encryptor_ok rQ scale enc ->
    yields (encrypt_all src rQ rP pk roots pools L scale msgs enc) (fun '(cts, enc') => encryptor_ok rQ scale enc' /\
      all3 (holds rQ m L sk) cts (repeat (fresh_info rQ rP L scale A delta Be (srBound src) Bs) (length msgs)) (map value_at msgs)).
  Proof.
    intros HS HE HR HB HG Hsc H4 Hs Hpk HBe HBs Hsb. induction msgs as [|msg msgs IH]; intros HV enc He; cbn [encrypt_all].
    - cbn [yields]. split; [exact He|constructor].
    - assert (ML := max_ne rQ (k_Q rQ rP HP)).
      eapply yields_bind; [unfold DrawEncryptMsgNew; apply (draw_encrypt_msg m L rQ rP src delta roots _ msg A sk s pk Be Bs (maxLevel rQ) _ _ _ _ scale enc); try assumption|].
      + split; [exact EN|]. split; [lia|]. split; [apply HB|exact HR].
      + lia.
      + rewrite HB. change 16%nat with (2 ^ 4)%nat. apply Nat.pow_le_mono_r; lia.
      + apply HV. left. reflexivity.
      + split; [exact ML|]. split; [apply new_shaped|]. unfold comp, NewCiphertext. cbn [ctV repeat nth]. split; [unfold zero_rows; rewrite repeat_length; lia|].
        intros i Hi. unfold zero_rows. rewrite (nth_indep _ [] (repeat 0%Z (rN rQ))) by (rewrite repeat_length; lia). rewrite nth_repeat. apply repeat_length.
      + intros [c enc1] (X1 & X2 & X3 & X4 & X5). eapply yields_bind; [apply IH; [intros msg' Hin; apply HV; right; exact Hin|exact X1]|].
        intros [cts enc2] (Y1 & Y2). cbn [yields length repeat map]. split; [exact Y1|]. constructor; [|exact Y2].
        unfold holds, fresh_info. cbn [inLevel inScale inSize inEps]. split; [exact X2|]. split; [exact X3|]. split; [exact X4|]. split; [exact Hsc|]. split; [exact X5|].
        apply (value_bound L). apply HV. left. reflexivity.
  Qed.

  Lemma new_encryptor_ok h scale : encryptor_ok rQ scale (NewFEncryptor rQ h scale).
  Proof.
    assert (ML := max_ne rQ (k_Q rQ rP HP)). unfold NewFEncryptor, encryptor_ok. cbn [fePt fePool feSm]. split; [|split; [reflexivity|split; [reflexivity|split; [apply zero_poly_rows; exact ML|apply new_samplers_ok]]]].
    unfold NewPlaintext, pt_shape. cbn [ptV]. split; [exact ML|]. unfold zero_rows. split; [rewrite repeat_length; lia|].
    intros i Hi. rewrite (nth_indep _ [] (repeat 0%Z (rN rQ))) by (rewrite repeat_length; lia). rewrite nth_repeat. apply repeat_length.
  Qed.

  Lemma session_ok ksrc esrc h delta roots kpools epools scratch pool dbuf dpool scale A rots msgs prog out li fs f :
    source_ok ksrc -> source_ok esrc -> errors_fit rQ rP (srBound ksrc) -> errors_fit rQ rP (srBound esrc) ->
    roots_near (2 ^ (m + 2)) delta roots -> growth delta (L + 2) <= 1 ->
    (forall n, length (epBuf (epools n)) = 2 ^ m)%nat -> length dbuf = (2 ^ m)%nat -> pool_shape rQ dpool -> (forall n, 1 <= ctDegree (pool n) /\ maxLevel rQ <= ctLevel (pool n))%nat ->
    scale_ok scale -> 4 * (fval scale * A) <= IZR (2 ^ 64) -> (forall msg, In msg msgs -> values_ok L A msg) ->
    liQ li = Qs -> liP li = Ps -> liT li = Ts -> liGamma li = gamma -> liBe li = srBound ksrc -> liBs li = 1%Z -> ffinite (liMin li) -> 1 <= fval (liMin li) <= IZR (2 ^ 1000) ->
    analysed rQ rP li rots (repeat (fresh_info rQ rP L scale A delta (srBound ksrc) (srBound esrc) 1) (length msgs)) prog fs -> nth_error fs out = Some f -> readable rQ L f ->
    yields (session ksrc esrc h p ks conv roots kpools epools scratch pool dbuf dpool L scale (liMin li) rots msgs prog out) (fun vals =>
      length vals = (2 ^ L)%nat /\ forall k, (k < 2 ^ L)%nat -> cfinite (nth k vals c_zero) /\
        Cmod (value_at vals k - nth out (meanings L rots (map value_at msgs) prog) vec0 k)%C <= decoded_eps L delta f).
  Proof.
    intros SK SE EK EE HR HG HB HD Pl Hpool Hsc H4 HV E1 E2 E3 E4 E5 E6 Fm Hm1 HA Hf (R1 & R2 & R3 & R4).
    assert (BQ := k_Q rQ rP HP). assert (HB0 : (0 <= srBound ksrc)%Z) by apply SK. unfold session. fold rQ rP.
    assert (G1 : growth delta (L + 1) <= 1).
    { eapply Rle_trans; [|exact HG]. unfold growth. destruct HR as [[D0 _] _]. assert (0 < / 2 ^ 49) by (apply Rinv_0_lt_compat, pow_lt; lra).
      apply Rplus_le_compat_r. apply Rle_pow; [lra|lia]. }
    eapply yields_bind with (P := fun '(sk, pk, st) => samplers_ok st /\ exists s, key_of rQ rP sk s /\ ternary (rN rQ) h s /\ public_key_ok rQ rP (m + 1) pk s (srBound ksrc)).
    { unfold DrawKeyPair. eapply yields_bind; [apply (draw_secret_key rQ rP HP ksrc (newSamplers h) (new_samplers_ok h))|]. intros [sk st1] (X1 & X2 & s & X3 & X4).
      eapply yields_bind; [apply (draw_public_key rQ rP HP ksrc SK (m + 1) EN sk s st1 X1 EK X3)|]. intros [pk st2] (Y1 & Y2 & Y3). cbn [yields]. split; [exact Y1|].
      exists s. split; [exact X3|]. split; [exact X4|exact Y3]. }
    intros [[sk pk] st] (X1 & s & X2 & X3 & X4).
    assert (Hs : secret rQ (m + 1) (fst sk) s) by (destruct X2 as (rs & Hs & ->); apply (secret_key rQ rP (m + 1) HP EN rs s Hs)).
    assert (Hsb : pbound (rN rQ) 1 s) by (intros k _; apply (ternary_small _ _ _ X3)).
    eapply yields_bind; [apply (draw_relin_key Qs Ps Ts gamma p ks conv (m + 1) HF ksrc SK sk s _ _ _ _ st X1 EK X2)|]. intros [rlk st1] (Y1 & _ & Y2). fold rQ in Y2.
    eapply yields_bind; [apply (draw_rot_keys_ok ksrc sk s kpools rots SK EK X2 st1 Y1)|]. intros [rtks st2] (_ & Z2 & Z3).
    eapply yields_bind; [apply (encrypt_all_ok esrc delta roots epools A scale (fst sk) s pk (srBound ksrc) 1 msgs); try assumption; [lia|apply new_encryptor_ok]|].
    intros [cts enc] (_ & W). set (ev := mkEval ks rlk rtks (liMin li) scratch pool).
    destruct (run_ok Qs Ps Ts gamma p ks conv m L HF ltac:(lia) li ev rots (fst sk) s) with (fs := repeat (fresh_info rQ rP L scale A delta (srBound ksrc) (srBound esrc) 1) (length msgs))
      (prog := prog) (fs' := fs) (cts := cts) (vs := map value_at msgs) as (cts' & -> & Hc); try assumption.
    - repeat split; assumption.
    - unfold evaluator_ok, ev. cbn [evKs evMin evRlk evRtks evPool]. rewrite E5. split; [reflexivity|]. split; [reflexivity|]. split; [exact Y2|]. split; [exact Z2|]. split; [exact Z3|]. exact Hpool.
    - unfold limits_ok. rewrite E5, E6. split; [exact HB0|]. split; [lia|]. split; [exact Hsb|]. split; [exact Fm|exact Hm1].
    - destruct (all3_get _ _ _ _ vec0 out f Hc Hf) as (c & -> & K1 & K2 & K3 & K4 & K5 & K6).
      assert (N0 := carries_nonneg _ _ _ _ _ _ _ K5). rewrite <- prefix_lprod in R2.
      destruct (decrypt_msg m L rQ delta roots dbuf dpool [] (inLevel f) canon c (fst sk) s (nth out (meanings L rots (map value_at msgs) prog) vec0) (inSize f) (inEps f) BQ) as (o & O1 & O2 & O3); try assumption.
      + split; [exact EN|]. split; [lia|]. split; [exact HD|exact HR].
      + intros _. rewrite HD. change 16%nat with (2 ^ 4)%nat. apply Nat.pow_le_mono_r; lia.
      + exact (fits_canon rQ BQ (m + 1) EN).
      + rewrite K3. exact K4.
      + rewrite K3. unfold lowest. cbn [fold_left]. assert (KL : (inLevel f <= maxLevel rQ)%nat) by (destruct K1 as (K1 & _); fold rQ in K1; unfold maxLevel; lia). rewrite (Nat.min_r _ _ KL). exact R2.
      + rewrite K3. exact R3.
      + rewrite K3. exact R4.
      + cbn [decrypt_all fold_left] in O1. rewrite O1. cbn [yields]. split; [exact O2|]. intros k Hk. destruct (O3 k Hk) as [O4 O5]. split; [exact O4|]. rewrite K3 in O5. exact O5.
  Qed.
End Session.
