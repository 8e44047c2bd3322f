(** Keys and ciphertexts drawn from the bytes of a generator. *)
From Flocq Require Import IEEE754.Binary IEEE754.Bits IEEE754.BinarySingleNaN.
From Coq Require Import Reals Lra.
From Coquelicot Require Import Complex.
From Verif Require Import Word Arith PolySpec PolyProofs Ring RingProofs NTT RingOps RNSSpec RowProofs OpsProofs OpsProps BasisExt Automorphism Gadget Frlwe FrlweSetup GadgetSpec Repr FrlweProps RlweSpec Rlwe RlweKeys RlweTop Float64 Codec Sampler SamplerSpec SamplerProofs SamplerTop SparseProofs SparseTop Gauss GaussSpec GaussProofs Ckks CkksSpec CkksBase CkksConst CkksOps Fckks FckksSpec FckksProps Fft FftSpec SlotSpec Encoder EncSpec Msg MsgSpec MsgProofs Draw DrawSpec.
From Verif Require BasisEx.
Local Open Scope Z_scope.

Lemma yields_bind {A B} (x : res A) (f : A -> res B) P Q : yields x P -> (forall a, P a -> yields (f a) Q) -> yields (bind x f) Q.
Proof. destruct x as [a| |]; cbn; intros H1 H2; [apply H2; exact H1|exact I|exact H1]. Qed.
Lemma yields_weaken {A} (x : res A) (P Q : A -> Prop) : (forall a, P a -> Q a) -> yields x P -> yields x Q.
Proof. destruct x as [a| |]; cbn; auto. Qed.
Lemma yields_ret {A} (a : A) (P : A -> Prop) : P a -> yields (Ret a) P.
Proof. exact (fun H => H). Qed.

Lemma zero_poly_rows r level : (level < length (rmods r))%nat -> has_rows (rN r) level (zero_poly r).
Proof.
  intros Hl. unfold zero_poly. split; [rewrite repeat_length; exact Hl|]. intros i Hi.
  rewrite (nth_indep _ [] (repeat 0 (rN r))) by (rewrite repeat_length; lia). rewrite nth_repeat. apply repeat_length.
Qed.

Lemma keep_rows level N (pol pol' : rows) : length pol' = length pol -> (forall k, (k <= level)%nat -> length (nth k pol' []) = N) -> (forall k, (level < k)%nat -> nth k pol' [] = nth k pol []) ->
  forall l, has_rows N l pol -> has_rows N l pol'.
Proof.
  intros H1 H2 H3 l [P1 P2]. split; [lia|]. intros i Hi. destruct (Nat.le_gt_cases i level) as [Hc|Hc]; [apply H2; exact Hc|rewrite H3 by exact Hc; apply P2; exact Hi].
Qed.

Section Reads.
  Variables rQ rP : Ring.
  Hypothesis HP : ring_pair rQ rP.
  Variable src : source.
  Hypothesis HS : source_ok src.

  Lemma read_uniform_ok r level pol st : built_ring 9 r -> (level < length (rmods r))%nat -> has_rows (rN r) level pol -> samplers_ok st ->
    yields (read_uniform src r level pol st) (fun '(pol', st') => words r level canon pol' /\ length pol' = length pol /\ samplers_ok st' /\ smHw st' = smHw st).
  Proof.
    intros Br Hl Hp Hst. unfold read_uniform. pose proof (one_2 r Br) as B2.
    destruct (Uniform_ReadLvl (srFuel src) (srBytes src) r level pol (smGen st)) as [[pol' g]| |] eqn:E; cbn [bind yields].
    - destruct (uniform_canonical r B2 _ _ _ _ _ _ _ Hl Hp E) as (X1 & X2 & _). split; [exact X1|]. split; [exact X2|]. split; [exact Hst|reflexivity].
    - exact I.
    - apply (uniform_no_panic r B2 _ _ _ _ _ Hl Hp E).
  Qed.

  Lemma first_modulus : 5 <= mq (rmod rQ 0).
  Proof. apply (one_mod rQ (k_Q rQ rP HP)). pose proof (max_ne rQ (k_Q rQ rP HP)). lia. Qed.
  Lemma modulus_pos r i : built_ring 9 r -> (i < length (rmods r))%nat -> 5 <= mq (rmod r i).
  Proof. intros Br Hi. apply (one_mod r Br). exact Hi. Qed.

  Lemma nth_map_seq {A} (f : nat -> A) n i d : (i < n)%nat -> nth i (map f (seq 0 n)) d = f i.
  Proof. intros Hi. rewrite (nth_indep _ d (f 0%nat)) by (rewrite map_length, seq_length; exact Hi). rewrite map_nth, seq_nth by exact Hi. reflexivity. Qed.

  Lemma read_gauss_ok level levelP pol st : (level < length (rmods rQ))%nat -> (levelP < length (rmods rP))%nat -> has_rows (rN rQ) level pol -> samplers_ok st -> errors_fit rQ rP (srBound src) ->
    yields (read_gauss src rQ level pol st) (fun '(pol', st') => samplers_ok st' /\ smHw st' = smHw st /\ (forall l, has_rows (rN rQ) l pol -> has_rows (rN rQ) l pol') /\ length pol' = length pol /\
      exists E, sampled rQ rP level levelP pol' E /\ forall k, Z.abs (E k) <= srBound src).
  Proof.
    intros Hl HlP Hp Hst (F1 & F2 & F3). pose proof (k_Q rQ rP HP) as BQ. pose proof (one_2 rQ BQ) as B2. destruct HS as (S1 & S2 & S3).
    unfold read_gauss.
    pose proof (gauss_read rQ B2 (srLog src) (srExp src) (srOther src) (srBytes src) (srSigma src) (srBound src) level pol (smGauss st) (srFuel src) S1 S2 S3 Hst Hl Hp
      (fun k Hk => F2 k (Nat.le_lt_trans _ _ _ Hk Hl))) as R.
    destruct (Gauss_ReadLvl _ _ _ _ _ _ _ _ _ _ _) as [[pol' g]| |]; cbn [bind yields]; [|exact I|exact R].
    destruct R as (G & e & ng & E1 & E2 & M1 & M2 & M3). split; [exact G|]. split; [reflexivity|].
    assert (LN : forall k, (k <= level)%nat -> length (nth k pol' []) = rN rQ) by (intros k Hk; rewrite M3 by exact Hk; rewrite map_length, seq_length; reflexivity).
    split; [apply (keep_rows level); assumption|]. destruct Hp as [P1 P2]. split; [exact M1|]. exists e. split.
    - split.
      + split; [exact Hl|]. split; [lia|]. intros i Hi. split; [apply LN; exact Hi|]. intros k Hk. rewrite M3 by exact Hi. rewrite nth_map_seq by exact Hk.
        pose proof (modulus_pos rQ i BQ ltac:(lia)) as Q5. destruct (ng k && (e k =? 0)) eqn:EN.
        * apply andb_prop in EN. destruct EN as [_ EN]. apply Z.eqb_eq in EN. rewrite EN. split; [lia|]. unfold eqm. rewrite Z_mod_same_full, Z.mod_0_l by lia. reflexivity.
        * pose proof (Z.mod_pos_bound (e k) (mq (rmod rQ i)) ltac:(lia)). split; [lia|]. unfold eqm. apply Z.mod_mod. lia.
      + intros k Hk. specialize (E1 k). split; [lia|]. intros i Hi. pose proof (F3 i ltac:(lia)). lia.
    - intros k. specialize (E1 k). lia.
  Qed.

  Lemma read_ternary_ok level levelP pol st : (level < length (rmods rQ))%nat -> (levelP < length (rmods rP))%nat -> has_rows (rN rQ) level pol -> samplers_ok st ->
    yields (read_ternary src rQ level pol st) (fun '(pol', st') => samplers_ok st' /\ smHw st' = Nat.min (smHw st) (rN rQ) /\ (forall l, has_rows (rN rQ) l pol -> has_rows (rN rQ) l pol') /\ length pol' = length pol /\
      exists E, sampled rQ rP level levelP pol' E /\ ternary (rN rQ) (smHw st) E).
  Proof.
    intros Hl HlP Hp Hst. pose proof (k_Q rQ rP HP) as BQ. pose proof (one_2 rQ BQ) as B2. unfold read_ternary.
    pose proof (sample_sparse_sound rQ B2 (srFuel src) (srBytes src) false (smHw st) level pol (smGen st) Hl Hp) as R.
    destruct (sampleSparse _ _ _ _ _ _ _ _) as [[[pol' hw] g]| |]; cbn [bind yields]; [|exact I|exact R].
    pose proof (sparse_weight rQ _ _ _ _ _ _ _ _ _ R) as (ps & e & N1 & N2 & N3 & N4 & N5 & M1 & M2 & M3).
    destruct R as (Ehw & _). split; [exact Hst|]. split; [exact Ehw|].
    assert (LN : forall k, (k <= level)%nat -> length (nth k pol' []) = rN rQ) by (intros k Hk; rewrite M3 by exact Hk; rewrite map_length, seq_length; reflexivity).
    split; [apply (keep_rows level); assumption|]. destruct Hp as [P1 P2]. split; [exact M1|]. exists e.
    assert (Ab : forall k, Z.abs (e k) <= 1).
    { intros k. destruct (in_dec Nat.eq_dec k ps) as [Hi|Hi]; [destruct (N4 k Hi) as [-> | ->]; cbn; lia|rewrite (N5 k Hi); cbn; lia]. }
    split; [split|exists ps; repeat split; assumption].
    - split; [exact Hl|]. split; [lia|]. intros i Hi. split; [apply LN; exact Hi|]. intros k Hk. rewrite M3 by exact Hi. rewrite nth_map_seq by exact Hk.
      pose proof (modulus_pos rQ i BQ ltac:(lia)) as Q5. cbn [factor]. rewrite Z.mul_1_l. pose proof (Z.mod_pos_bound (e k) (mq (rmod rQ i)) ltac:(lia)). split; [lia|]. unfold eqm. apply Z.mod_mod. lia.
    - intros k Hk. specialize (Ab k). split; [pose proof first_modulus; lia|]. intros i Hi. pose proof (modulus_pos rP i (k_P rQ rP HP) ltac:(lia)). lia.
  Qed.

  Let lQ := maxLevel rQ.
  Let lP := maxLevel rP.

  Lemma draw_secret_key st : samplers_ok st ->
    yields (DrawSecretKey src rQ rP st) (fun '(sk, st') => samplers_ok st' /\ smHw st' = Nat.min (smHw st) (rN rQ) /\ exists s, key_of rQ rP sk s /\ ternary (rN rQ) (smHw st) s).
  Proof.
    intros Hst. pose proof (max_ne rQ (k_Q rQ rP HP)) as ML. pose proof (max_ne rP (k_P rQ rP HP)) as MP. unfold DrawSecretKey.
    eapply yields_bind; [apply (read_ternary_ok (maxLevel rQ) (maxLevel rP)); [exact ML|exact MP|apply zero_poly_rows; exact ML|exact Hst]|].
    intros [s st'] (X1 & X2 & _ & _ & E & X3 & X4). cbn [yields]. split; [exact X1|]. split; [exact X2|]. exists E. split; [exists s; split; [exact X3|reflexivity]|exact X4].
  Qed.

  Lemma draw_digits_ok n : forall st, samplers_ok st -> errors_fit rQ rP (srBound src) ->
    yields (draw_digits src rQ rP n st) (fun '(l, st') => samplers_ok st' /\ smHw st' = smHw st /\ length l = n /\ exists E, forall i, (i < n)%nat ->
      sampled rQ rP lQ lP (digit_e l i) (E i) /\ words rQ lQ canon (digit_aQ l i) /\ words rP lP canon (digit_aP l i) /\ forall k, Z.abs (E i k) <= srBound src).
  Proof.
    pose proof (max_ne rQ (k_Q rQ rP HP)) as ML. pose proof (max_ne rP (k_P rQ rP HP)) as MP.
    induction n as [|n IH]; intros st Hst HE; cbn [draw_digits].
    - cbn [yields]. split; [exact Hst|]. split; [reflexivity|]. split; [reflexivity|]. exists (fun _ _ => 0). intros i Hi. lia.
    - eapply yields_bind; [apply (read_gauss_ok (maxLevel rQ) (maxLevel rP)); [exact ML|exact MP|apply zero_poly_rows; exact ML|exact Hst|exact HE]|].
      intros [e st1] (X1 & X2 & _ & _ & E0 & X3 & X4).
      eapply yields_bind; [apply (read_uniform_ok rQ (maxLevel rQ)); [apply HP|exact ML|apply zero_poly_rows; exact ML|exact X1]|].
      intros [aQ st2] (Y1 & _ & Y2 & Y3).
      eapply yields_bind; [apply (read_uniform_ok rP (maxLevel rP)); [apply HP|exact MP|apply zero_poly_rows; exact MP|exact Y2]|].
      intros [aP st3] (Z1 & _ & Z2 & Z3).
      eapply yields_bind; [apply (IH st3 Z2 HE)|].
      intros [l st4] (W1 & W2 & W3 & E & W4). cbn [yields]. split; [exact W1|]. split; [congruence|]. split; [cbn; congruence|].
      exists (fun i => match i with O => E0 | S i => E i end). intros [|i] Hi; cbn.
      + split; [exact X3|]. split; [exact Y1|]. split; [exact Z1|exact X4].
      + apply W4. lia.
  Qed.

  Variable L : nat.
  Hypothesis EL : rN rQ = (2 ^ L)%nat.
  Lemma draw_public_key sk s st : samplers_ok st -> errors_fit rQ rP (srBound src) -> key_of rQ rP sk s ->
    yields (DrawPublicKey src rQ rP sk st) (fun '(pk, st') => samplers_ok st' /\ smHw st' = smHw st /\ public_key_ok rQ rP L pk s (srBound src)).
  Proof.
    intros Hst HE (rs & Hs & ->). pose proof (max_ne rQ (k_Q rQ rP HP)) as ML. pose proof (max_ne rP (k_P rQ rP HP)) as MP. unfold DrawPublicKey.
    eapply yields_bind; [apply (read_gauss_ok (maxLevel rQ) (maxLevel rP)); [exact ML|exact MP|apply zero_poly_rows; exact ML|exact Hst|exact HE]|].
    intros [e st1] (X1 & X2 & _ & _ & E & X3 & X4).
    eapply yields_bind; [apply (read_uniform_ok rQ (maxLevel rQ)); [apply HP|exact ML|apply zero_poly_rows; exact ML|exact X1]|].
    intros [aQ st2] (Y1 & _ & Y2 & Y3).
    eapply yields_bind; [apply (read_uniform_ok rP (maxLevel rP)); [apply HP|exact MP|apply zero_poly_rows; exact MP|exact Y2]|].
    intros [aP st3] (Z1 & _ & Z2 & Z3). cbn [yields]. split; [exact Z2|]. split; [congruence|].
    destruct (public_key rQ rP L HP EL (genSecretKey rQ rP rs) s e E aQ aP (secret_key rQ rP L HP EL rs s Hs) X3 Y1 Z1) as (A & B & H).
    destruct (GenPublicKey rQ rP _ e aQ aP) as [pk0 pk1]. destruct H as (_ & H1 & H2 & H3). exists B, A, E. split; [exact H2|]. split; [exact H1|]. split; [exact H3|]. intros k _. apply X4.
  Qed.
End Reads.

Lemma digits_random rQ rP l E : (forall i, (i < key_digits rQ rP)%nat -> sampled rQ rP (maxLevel rQ) (maxLevel rP) (digit_e l i) (E i) /\ words rQ (maxLevel rQ) canon (digit_aQ l i) /\
    words rP (maxLevel rP) canon (digit_aP l i)) -> randomness_ok rQ rP (maxLevel rQ) (maxLevel rP) (digit_e l) E (digit_aQ l) (digit_aP l).
Proof. intros H i Hi. apply H. exact Hi. Qed.

Section Fast.
  Variables (Qs Ps Ts : list Z) (gamma : nat) (p : FParams) (ks : KeySwitcher) (conv : list BasisExtender) (L : nat).
  Hypothesis HF : fast_setup Qs Ps Ts gamma p ks conv L.
  Let rQ := fpQ p.
  Let rP := fpP p.
  Variable src : source.
  Hypothesis HS : source_ok src.
  Let HP : ring_pair rQ rP := f_pair Qs Ps Ts gamma p ks conv L HF.

  Lemma draw_relin_key sk s poolQP poolQ pool0 pool1 st : samplers_ok st -> errors_fit rQ rP (srBound src) -> key_of rQ rP sk s ->
    yields (DrawRelinKey src conv p sk poolQP poolQ pool0 pool1 st) (fun '(rlk, st') => samplers_ok st' /\ smHw st' = smHw st /\ fast_key conv p L rlk s (ppow (rN rQ) s 2) (srBound src)).
  Proof.
    intros Hst HE (rs & Hs & ->). unfold DrawRelinKey.
    eapply yields_bind; [apply (draw_digits_ok rQ rP HP src HS); [exact Hst|exact HE]|].
    intros [l st'] (X1 & X2 & X3 & E & X4). cbn [yields]. split; [exact X1|]. split; [exact X2|].
    set (E' := fun i => if Nat.ltb i (key_digits rQ rP) then E i else pzero).
    apply (f_gen_relin Qs Ps Ts gamma p ks conv L HF rs s (fun _ => digit_e l) E' (fun _ => digit_aQ l) (fun _ => digit_aP l) poolQP poolQ pool0 pool1 (srBound src) Hs).
    - apply digits_random. intros i Hi. unfold E'. rewrite (proj2 (Nat.ltb_lt i (key_digits rQ rP)) Hi). destruct (X4 i Hi) as (Y1 & Y2 & Y3 & _). split; [exact Y1|split; [exact Y2|exact Y3]].
    - intros i k _. unfold E'. destruct (Nat.ltb i _) eqn:Ei; [apply Nat.ltb_lt in Ei; apply (X4 i Ei)|]. unfold pzero. cbn. destruct HS as (_ & _ & H0). exact H0.
  Qed.
  Lemma draw_rot_key k sk s poolQP poolQ pool0 pool1 st : samplers_ok st -> errors_fit rQ rP (srBound src) -> key_of rQ rP sk s ->
    yields (DrawRotKey src conv p k sk poolQP poolQ pool0 pool1 st) (fun '(rtk, st') => samplers_ok st' /\ smHw st' = smHw st /\ fast_rotation_key conv p L k rtk s (srBound src)).
  Proof.
    intros Hst HE (rs & Hs & ->). unfold DrawRotKey.
    eapply yields_bind; [apply (draw_digits_ok rQ rP HP src HS); [exact Hst|exact HE]|].
    intros [l st'] (X1 & X2 & X3 & E & X4). cbn [yields]. split; [exact X1|]. split; [exact X2|].
    set (E' := fun i => if Nat.ltb i (key_digits rQ rP) then E i else pzero).
    apply (f_gen_rot Qs Ps Ts gamma p ks conv L HF k rs s (digit_e l) E' (digit_aQ l) (digit_aP l) poolQP poolQ pool0 pool1 (srBound src) Hs).
    - apply digits_random. intros i Hi. unfold E'. rewrite (proj2 (Nat.ltb_lt i (key_digits rQ rP)) Hi). destruct (X4 i Hi) as (Y1 & Y2 & Y3 & _). split; [exact Y1|split; [exact Y2|exact Y3]].
    - intros i j _. unfold E'. destruct (Nat.ltb i _) eqn:Ei; [apply Nat.ltb_lt in Ei; apply (X4 i Ei)|]. unfold pzero. cbn. destruct HS as (_ & _ & H0). exact H0.
  Qed.
End Fast.

Lemma has_rows_le N l l' pol : (l' <= l)%nat -> has_rows N l pol -> has_rows N l' pol.
Proof. intros H [H1 H2]. split; [lia|]. intros i Hi. apply H2. lia. Qed.
Lemma ternary_small N h s : ternary N h s -> forall k, Z.abs (s k) <= 1.
Proof.
  intros (ps & _ & _ & _ & N4 & N5) k. destruct (in_dec Nat.eq_dec k ps) as [Hi|Hi]; [destruct (N4 k Hi) as [-> | ->]; cbn; lia|rewrite (N5 k Hi); cbn; lia].
Qed.

Section Encrypt.
  Variables rQ rP : Ring.
  Hypothesis HP : ring_pair rQ rP.
  Variable src : source.
  Hypothesis HS : source_ok src.

  Lemma draw_encryption_ok level ct1 pool st : (level < length (rmods rQ))%nat -> has_rows (rN rQ) level ct1 -> has_rows (rN rQ) (maxLevel rQ) pool -> samplers_ok st -> errors_fit rQ rP (srBound src) ->
    yields (draw_encryption src rQ level ct1 pool st) (fun '(c1, u, e0, e1, st') => samplers_ok st' /\ smHw st' = Nat.min (smHw st) (rN rQ) /\ has_rows (rN rQ) (maxLevel rQ) e1 /\ length c1 = length ct1 /\
      exists U E0 E1, sampled rQ rP level 0 u U /\ sampled rQ rP level 0 e0 E0 /\ sampled rQ rP level 0 e1 E1 /\ ternary (rN rQ) (smHw st) U /\
        (forall k, Z.abs (E0 k) <= srBound src) /\ (forall k, Z.abs (E1 k) <= srBound src)).
  Proof.
    intros Hl H1 Hp Hst HE. pose proof (max_ne rP (k_P rQ rP HP)) as MP. assert (Hlm : (level <= maxLevel rQ)%nat) by (unfold maxLevel; lia). unfold draw_encryption.
    eapply yields_bind; [apply (read_uniform_ok src rQ level); [apply HP|exact Hl|exact H1|exact Hst]|].
    intros [c1 st1] (_ & X1 & X2 & X3).
    eapply yields_bind; [apply (read_ternary_ok rQ rP HP src level 0); [exact Hl|lia|apply (has_rows_le _ (maxLevel rQ)); [exact Hlm|exact Hp]|exact X2]|].
    intros [u st2] (Y1 & Y2 & Y3 & _ & U & Y4 & Y5). specialize (Y3 _ Hp).
    eapply yields_bind; [apply (read_gauss_ok rQ rP HP src HS level 0); [exact Hl|lia|apply (has_rows_le _ (maxLevel rQ)); [exact Hlm|exact Y3]|exact Y1|exact HE]|].
    intros [e0 st3] (Z1 & Z2 & Z3 & _ & E0 & Z4 & Z5). specialize (Z3 _ Y3).
    eapply yields_bind; [apply (read_gauss_ok rQ rP HP src HS level 0); [exact Hl|lia|apply (has_rows_le _ (maxLevel rQ)); [exact Hlm|exact Z3]|exact Z1|exact HE]|].
    intros [e1 st4] (W1 & W2 & W3 & _ & E1 & W4 & W5). specialize (W3 _ Z3). cbn [yields].
    split; [exact W1|]. split; [congruence|]. split; [exact W3|]. split; [exact X1|]. exists U, E0, E1.
    split; [exact Y4|]. split; [exact Z4|]. split; [exact W4|]. split; [rewrite X3 in Y5; exact Y5|]. split; [exact Z5|exact W5].
  Qed.
End Encrypt.

Lemma draw_encrypt_msg m L rQ rP src delta roots buf vals A sk s pk Be Bs lo out pool poolP0 poolP1 scale enc :
  ring_pair rQ rP -> source_ok src -> errors_fit rQ rP (srBound src) -> encoder_shape m L rQ delta roots buf -> (3 <= L)%nat -> (16 <= length buf)%nat ->
  encryptor_ok rQ scale enc -> scale_ok scale -> values_ok L A vals -> (4 * (fval scale * A) <= IZR (2 ^ 64))%R -> (growth delta (L + 2) <= 1)%R ->
  secret rQ (m + 1) sk s -> public_key_ok rQ rP (m + 1) pk s Be -> 0 <= Be -> 0 <= Bs -> pbound (rN rQ) Bs s -> receiver rQ lo out ->
  yields (DrawEncryptMsg src rQ rP pk roots buf L vals out pool poolP0 poolP1 enc) (fun '(c, enc') => encryptor_ok rQ scale enc' /\
    ct_ok rQ lo canon c /\ ctDegree c = 1%nat /\ ctScale c = scale /\
    carries rQ m L sk c (value_at vals) (encode_eps L (fval scale) A delta + INR (rN rQ) * fresh_size (rN rQ) (mq (rmod rP 0)) 1 Be (srBound src) Bs)).
Proof.
  intros HP HS HF HE H3 H16 (Sh & Np & Es & Hp & Hst) Hsc HV H4 HG Hs Hpk HBe HBs Hsb (Hlo & Ho & Hr). unfold DrawEncryptMsg.
  assert (Lv : Nat.min (length (ptV (fePt enc)) - 1) (length (comp out 0) - 1) = lo).
  { destruct Sh as (S1 & S2 & _). destruct Ho as (_ & _ & O3). rewrite S2, (O3 0%nat) by lia. unfold maxLevel. lia. }
  rewrite Lv. eapply yields_bind; [apply (draw_encryption_ok rQ rP HP src HS); [exact Hlo|exact Hr|exact Hp|exact Hst|exact HF]|].
  intros [[[[c1 u] e0] e1] st'] (X1 & X2 & X3 & X4 & U & E0 & E1 & Y1 & Y2 & Y3 & Y4 & Y5 & Y6).
  assert (Ho' : shaped 1 lo (mkCt [comp out 0; c1] (ctScale out) (ctNTT out))).
  { destruct Ho as (O1 & O2 & O3). split; [reflexivity|]. split; [exact O2|]. intros [|[|j]] Hj; [apply (O3 0%nat); lia|unfold comp; cbn [nth ctV]; rewrite X4; apply (O3 1%nat); lia|lia]. }
  assert (Ml : Nat.min (maxLevel rQ) lo = lo) by (unfold maxLevel; lia).
  destruct (encrypt_msg m L rQ rP delta roots buf vals A (maxLevel rQ) (fePt enc) sk s pk Be Bs lo (mkCt [comp out 0; c1] (ctScale out) (ctNTT out)) u e0 e1 pool poolP0 poolP1 U E0 E1 1 (srBound src)
    HP HE H3 H16 Sh Np ltac:(rewrite Es; exact Hsc) HV ltac:(rewrite Es; exact H4) HG Hs Hpk Ho') as (c & pt' & R1 & R2 & R3 & R4 & R5 & R6 & R7 & R8); rewrite ?Ml in *; try assumption.
  - lia.
  - apply HS.
  - intros k _. apply (ternary_small _ _ _ Y4).
  - intros k _. apply Y5.
  - intros k _. apply Y6.
  - rewrite R1. cbn [yields]. rewrite Es in *. split; [split; [exact R2|split; [exact R3|split; [exact R4|split; [exact X3|exact X1]]]]|]. split; [exact R5|]. split; [exact R6|]. split; [exact R7|exact R8].
Qed.
