(** The kinds of secret keys, and key pairs and encryptions without special moduli. *)
From Flocq Require Import IEEE754.BinarySingleNaN.
From Verif Require Import Word Arith PolySpec PolyProofs Ring RingProofs NTT RingOps RNSSpec RowProofs OpsProofs OpsProps BasisExt Automorphism Gadget Frlwe FrlweSetup GadgetSpec Repr FrlweProps RlweSpec Rlwe RlweKeys RlweEnc RlweTop Float64 Codec Sampler SamplerSpec SamplerProofs SamplerTop SparseProofs SparseTop ProbaTop Gauss GaussSpec GaussProofs Ckks CkksSpec CkksBase Draw DrawSpec DrawProofs DrawFresh KeyKinds KeyKindsSpec.
Local Open Scope Z_scope.

Lemma ternary_abs N h s : ternary N h s -> forall k, Z.abs (s k) <= 1.
Proof.
  intros (ps & _ & _ & _ & N4 & N5) k. destruct (in_dec Nat.eq_dec k ps) as [Hi|Hi]; [destruct (N4 k Hi) as [-> | ->]; cbn; lia|rewrite (N5 k Hi); cbn; lia].
Qed.
Lemma kind_bound N h B k s : of_kind N h B k s -> forall i, Z.abs (s i) <= kind_size B k.
Proof. destruct k; cbn [of_kind kind_size]; intros H i; try (apply (ternary_abs _ _ _ H)); [apply H|specialize (H i); lia]. Qed.

Section Q.
  Variable rQ : Ring.
  Hypothesis BQ : built_ring 9 rQ.
  Notation lQ := (maxLevel rQ).
  Notation word1 := (fun q => q + 1).

  (** The rows of a sampler of signed integers. *)
  Lemma signed_repr level e pol pol' : (level < length (rmods rQ))%nat -> has_rows (rN rQ) level pol -> signed_rows rQ level 1 e pol pol' -> rns_repr rQ level word1 pol' e.
  Proof.
    intros Hl [P1 P2] (M1 & M2 & M3). split; [exact Hl|]. split; [lia|]. intros i Hi. split; [rewrite M3 by exact Hi; rewrite map_length, seq_length; reflexivity|].
    intros k Hk. rewrite M3 by exact Hi. rewrite nth_map_seq by exact Hk. pose proof (modulus_pos rQ i BQ ltac:(lia)) as Q5. rewrite Z.mul_1_l.
    pose proof (Z.mod_pos_bound (e k) (mq (rmod rQ i)) ltac:(lia)). split; [lia|]. unfold eqm. apply Z.mod_mod. lia.
  Qed.

  Lemma ternary_Q src level pol st : (level < length (rmods rQ))%nat -> has_rows (rN rQ) level pol -> samplers_ok st ->
    yields (read_ternary src rQ level pol st) (fun '(pol', st') => samplers_ok st' /\ smHw st' = Nat.min (smHw st) (rN rQ) /\ (forall l, has_rows (rN rQ) l pol -> has_rows (rN rQ) l pol') /\
      exists E, rns_repr rQ level word1 pol' E /\ ternary (rN rQ) (smHw st) E).
  Proof.
    intros Hl Hp Hst. pose proof (one_2 rQ BQ) as B2. unfold read_ternary.
    pose proof (sample_sparse_sound rQ B2 (srFuel src) (srBytes src) false (smHw st) level pol (smGen st) Hl Hp) as R.
    destruct (sampleSparse _ _ _ _ _ _ _ _) as [[[pol' hw] g]| |]; cbn [bind yields]; [|exact I|exact R].
    pose proof (sparse_weight rQ _ _ _ _ _ _ _ _ _ R) as (ps & e & N1 & N2 & N3 & N4 & N5 & M). pose proof M as (M1 & M2 & M3).
    destruct R as (Ehw & _). split; [exact Hst|]. split; [exact Ehw|].
    split; [apply (keep_rows level); [exact M1| |exact M2]; intros k Hk; rewrite M3 by exact Hk; rewrite map_length, seq_length; reflexivity|].
    exists e. split; [apply (signed_repr level e pol); assumption|exists ps; repeat split; assumption].
  Qed.

  Lemma gauss_Q src level pol st : source_ok src -> (level < length (rmods rQ))%nat -> has_rows (rN rQ) level pol -> samplers_ok st -> errors_fit_Q rQ (srBound src) ->
    yields (read_gauss src rQ level pol st) (fun '(pol', st') => samplers_ok st' /\ smHw st' = smHw st /\ (forall l, has_rows (rN rQ) l pol -> has_rows (rN rQ) l pol') /\
      exists E, rns_repr rQ level word1 pol' E /\ forall k, Z.abs (E k) <= srBound src).
  Proof.
    intros (S1 & S2 & S3) Hl Hp Hst F2. pose proof (one_2 rQ BQ) as B2. unfold read_gauss.
    pose proof (gauss_read rQ B2 (srLog src) (srExp src) (srOther src) (srBytes src) (srSigma src) (srBound src) level pol (smGauss st) (srFuel src) S1 S2 S3 Hst Hl Hp
      (fun k Hk => F2 k (Nat.le_lt_trans _ _ _ Hk Hl))) as R.
    destruct (Gauss_ReadLvl _ _ _ _ _ _ _ _ _ _ _) as [[pol' g]| |]; cbn [bind yields]; [|exact I|exact R].
    destruct R as (G & e & ng & E1 & E2 & M1 & M2 & M3). split; [exact G|]. split; [reflexivity|].
    assert (LN : forall k, (k <= level)%nat -> length (nth k pol' []) = rN rQ) by (intros k Hk; rewrite M3 by exact Hk; rewrite map_length, seq_length; reflexivity).
    split; [apply (keep_rows level); assumption|]. destruct Hp as [P1 P2]. exists e. split.
    - split; [exact Hl|]. split; [lia|]. intros i Hi. split; [apply LN; exact Hi|]. intros k Hk. rewrite M3 by exact Hi. rewrite nth_map_seq by exact Hk.
      pose proof (modulus_pos rQ i BQ ltac:(lia)) as Q5. destruct (ng k && (e k =? 0)) eqn:EN.
      * apply andb_prop in EN. destruct EN as [_ EN]. apply Z.eqb_eq in EN. rewrite EN. split; [lia|]. unfold eqm. rewrite Z_mod_same_full, Z.mod_0_l by lia. reflexivity.
      * pose proof (Z.mod_pos_bound (e k) (mq (rmod rQ i)) ltac:(lia)). split; [lia|]. unfold eqm. apply Z.mod_mod. lia.
    - intros k. specialize (E1 k). lia.
  Qed.

  Lemma kind_Q src k st : samplers_ok st -> (k = Gaussian -> source_ok src /\ errors_fit_Q rQ (srBound src)) ->
    match read_kind src rQ k st with
    | Ret (rs, st') => samplers_ok st' /\ (own_generator k -> st' = st) /\ smHw st' = kind_weight (rN rQ) (smHw st) k /\
        exists s, rns_repr rQ lQ word1 rs s /\ of_kind (rN rQ) (smHw st) (srBound src) k s
    | Codec.Fail => True
    | Codec.Panic => can_panic k
    end.
  Proof.
    intros Hst HG. pose proof (max_ne rQ BQ) as ML. pose proof (zero_poly_rows rQ lQ ML) as ZR. pose proof (one_2 rQ BQ) as B2. destruct k as [| |p nb|hw nb]; cbn [read_kind].
    - pose proof (ternary_Q src lQ (zero_poly rQ) st ML ZR Hst) as H. destruct (read_ternary _ _ _ _ _) as [[rs st']| |]; cbn [yields] in H; [|exact I|contradiction].
      destruct H as (H1 & H2 & _ & H3). split; [exact H1|]. split; [intros []|]. split; [exact H2|exact H3].
    - destruct (HG eq_refl) as [HS HF]. pose proof (gauss_Q src lQ (zero_poly rQ) st HS ML ZR Hst HF) as H. destruct (read_gauss _ _ _ _ _) as [[rs st']| |]; cbn [yields] in H; [|exact I|contradiction].
      destruct H as (H1 & H2 & _ & H3). split; [exact H1|]. split; [intros []|]. split; [exact H2|exact H3].
    - destruct (sampleProba _ _ _ _ _ _ _ _) as [[rs g]| |] eqn:E; cbn [bind]; [|exact I|exact I].
      split; [exact Hst|]. split; [reflexivity|]. split; [reflexivity|].
      destruct (proba_ternary rQ B2 _ _ _ _ _ _ _ _ _ ML ZR E) as (e & E1 & E2). exists e. split; [apply (signed_repr lQ e (zero_poly rQ)); assumption|exact E1].
    - pose proof (sample_sparse_sound rQ B2 (srFuel src) nb false hw lQ (zero_poly rQ) newPrng ML ZR) as R.
      destruct (sampleSparse _ _ _ _ _ _ _ _) as [[[rs hw'] g]| |]; cbn [bind]; [|exact I|exact R].
      split; [exact Hst|]. split; [reflexivity|]. split; [reflexivity|].
      pose proof (sparse_weight rQ _ _ _ _ _ _ _ _ _ R) as (ps & e & N1 & N2 & N3 & N4 & N5 & M). exists e.
      split; [apply (signed_repr lQ e (zero_poly rQ)); assumption|exists ps; repeat split; assumption].
  Qed.

  Variable L : nat.
  Hypothesis EL : rN rQ = (2 ^ L)%nat.

  Lemma secret_Q src k st : samplers_ok st -> (k = Gaussian -> source_ok src /\ errors_fit_Q rQ (srBound src)) ->
    match DrawKindQ src rQ k st with
    | Ret (sk, st') => samplers_ok st' /\ (own_generator k -> st' = st) /\ smHw st' = kind_weight (rN rQ) (smHw st) k /\
        exists s, secret rQ L sk s /\ of_kind (rN rQ) (smHw st) (srBound src) k s
    | Codec.Fail => True
    | Codec.Panic => can_panic k
    end.
  Proof.
    intros Hst HG. pose proof (kind_Q src k st Hst HG) as H. unfold DrawKindQ. destruct (read_kind _ _ _ _) as [[rs st']| |]; cbn [bind]; [|exact I|exact H].
    destruct H as (H1 & H2 & H3 & s & H4 & H5). split; [exact H1|]. split; [exact H2|]. split; [exact H3|]. exists s. split; [|exact H5].
    unfold genSecretKeyQ. apply (one_mform rQ BQ L EL), (one_ntt rQ BQ L EL). exact H4.
  Qed.

  Lemma public_Q src sk s st : source_ok src -> errors_fit_Q rQ (srBound src) -> samplers_ok st -> secret rQ L sk s ->
    yields (DrawPublicKeyQ src rQ sk st) (fun '(pk, st') => samplers_ok st' /\ smHw st' = smHw st /\ public_key_Q rQ L pk s (srBound src)).
  Proof.
    intros HS HF Hst Hk. pose proof (max_ne rQ BQ) as ML. pose proof (zero_poly_rows rQ lQ ML) as ZR. unfold DrawPublicKeyQ.
    eapply yields_bind; [apply (gauss_Q src lQ _ _ HS ML ZR Hst HF)|]. intros [e st1] (X1 & X2 & _ & E & X3 & X4).
    eapply yields_bind; [apply (read_uniform_ok src rQ lQ _ _ BQ ML ZR X1)|]. intros [a st2] (Y1 & _ & Y2 & Y3). cbn [yields]. split; [exact Y2|]. split; [congruence|].
    destruct (words_ntt_gen rQ BQ L EL lQ canon a ML Y1) as [A HA]. exists (psub E (pmul (rN rQ) A s)), A, E. cbn [fst snd]. split; [|split; [exact HA|split]].
    - rewrite mulsub_comm. apply (one_mulsub rQ BQ L EL); [exact HA|exact Hk|]. apply (one_ntt rQ BQ L EL). exact X3.
    - intros q. apply peq_exact. intros k Hkk. unfold padd, psub. ring.
    - intros k _. apply X4.
  Qed.

  Lemma ntt_down level level' B p X : (level <= level')%nat -> rns_ntt rQ L level' B p X -> rns_ntt rQ L level B p X.
  Proof. intros H (H1 & H2 & H3). split; [lia|]. split; [lia|]. intros i Hi. apply H3. lia. Qed.

  Lemma encrypt_Q src pk sk s Be Bs pt ptNTT ct0 ct1 ctNTT pool M st : let n := rN rQ in let level := Nat.min (length pt - 1) (length ct0 - 1) in
    source_ok src -> errors_fit_Q rQ (srBound src) -> samplers_ok st -> secret rQ L sk s -> public_key_Q rQ L pk s Be -> 0 <= Be -> 0 <= Bs -> pbound n Bs s ->
    rns_dom rQ L level ptNTT pt M -> has_rows n level ct1 -> has_rows n level pool ->
    yields (DrawEncryptQ src rQ pk pt ptNTT ct0 ct1 ctNTT pool st) (fun '((c0, c1), st') => samplers_ok st' /\ length c0 = S level /\ length c1 = S level /\
      exists F, pbound n (Z.of_nat n * Be + srBound src + Z.of_nat n * (srBound src * Bs)) F /\
        forall pt' ptNTT' pool', (level < length pt')%nat -> rns_dom rQ L level ptNTT' (Decrypt rQ sk [c0; c1] ctNTT pt' ptNTT' pool') (padd M F)).
  Proof.
    intros n level HS HF Hst Hsk (b0 & b1 & e & P1 & P2 & P3 & P4) HBe HBs Hs HM Hc Hpool. assert (Hl : (level < length (rmods rQ))%nat) by (destruct ptNTT; apply HM).
    assert (HB : 0 <= srBound src) by apply HS. assert (Hll : (level <= lQ)%nat) by (unfold maxLevel; lia). unfold DrawEncryptQ. fold level.
    eapply yields_bind; [apply (read_uniform_ok src rQ level _ _ BQ Hl Hc Hst)|]. intros [ct1' st1] (_ & _ & Y2 & _).
    eapply yields_bind; [apply (ternary_Q src level _ _ Hl Hpool Y2)|]. intros [u st2] (U1 & _ & U2 & U & U3 & U4).
    eapply yields_bind; [apply (gauss_Q src level _ _ HS Hl (U2 _ Hpool) U1 HF)|]. intros [a st3] (A1 & _ & A2 & EA & A3 & A4).
    eapply yields_bind; [apply (gauss_Q src level _ _ HS Hl (A2 _ (U2 _ Hpool)) A1 HF)|]. intros [b st4] (C1 & _ & _ & EB & C3 & C4). cbn [yields].
    assert (G : forall e0 e1 E0 E1, rns_repr rQ level word1 e0 E0 -> rns_repr rQ level word1 e1 E1 -> (forall k, Z.abs (E0 k) <= srBound src) -> (forall k, Z.abs (E1 k) <= srBound src) ->
      let '(c0, c1) := pkEncryptNoP rQ pk pt ptNTT ct0 ct1' ctNTT u e0 e1 pool in length c0 = S level /\ length c1 = S level /\
      exists F, pbound n (Z.of_nat n * Be + srBound src + Z.of_nat n * (srBound src * Bs)) F /\
        forall pt' ptNTT' pool', (level < length pt')%nat -> rns_dom rQ L level ptNTT' (Decrypt rQ sk [c0; c1] ctNTT pt' ptNTT' pool') (padd M F)).
    { intros e0 e1 E0 E1 R0 R1 B0 B1.
      pose proof (pk_encrypt_nop_decrypt rQ BQ L EL sk pk pt ptNTT ct0 ct1' ctNTT u e0 e1 pool s b0 b1 e U E0 E1 M) as H. cbv zeta in H. fold level in H.
      specialize (H (ntt_down level lQ _ _ _ Hll Hsk) (ntt_down level lQ _ _ _ Hll P1) (ntt_down level lQ _ _ _ Hll P2) (fun q _ => P3 q) HM U3 R0 R1).
      destruct (pkEncryptNoP _ _ _ _ _ _ _ _ _ _ _) as [c0 c1]. destruct H as (H1 & H2 & H3). split; [exact H1|]. split; [exact H2|].
      exists (padd (padd (pmul n U e) E0) (pmul n E1 s)). split; [|exact H3].
      intros k Hk. unfold padd.
      pose proof (pmul_bound n 1 Be U e ltac:(lia) HBe (fun k _ => ternary_abs _ _ _ U4 k) P4 k Hk) as X1.
      pose proof (pmul_bound n (srBound src) Bs E1 s HB HBs (fun k _ => B1 k) Hs k Hk) as X2. specialize (B0 k). rewrite Z.mul_1_l in X1. lia. }
    destruct ctNTT; [specialize (G b a EB EA C3 A3 C4 A4)|specialize (G a b EA EB A3 C3 A4 C4)];
      destruct (pkEncryptNoP _ _ _ _ _ _ _ _ _ _ _) as [c0 c1]; (split; [exact C1|exact G]).
  Qed.
End Q.

(** ** With special moduli *)
Lemma secret_kind rQ rP : ring_pair rQ rP -> forall src k st, samplers_ok st -> (k = Gaussian -> source_ok src /\ errors_fit rQ rP (srBound src)) ->
  match DrawKind src rQ rP k st with
  | Ret (sk, st') => samplers_ok st' /\ (own_generator k -> st' = st) /\ smHw st' = kind_weight (rN rQ) (smHw st) k /\
      exists s, key_of rQ rP sk s /\ of_kind (rN rQ) (smHw st) (srBound src) k s
  | Codec.Fail => True
  | Codec.Panic => can_panic k
  end.
Proof.
  intros HP src k st Hst HG. pose proof (k_Q rQ rP HP) as BQ. pose proof (max_ne rP (k_P rQ rP HP)) as MP.
  assert (HG' : k = Gaussian -> source_ok src /\ errors_fit_Q rQ (srBound src)) by (intros E; destruct (HG E) as [H1 (_ & H2 & _)]; split; assumption).
  pose proof (kind_Q rQ BQ src k st Hst HG') as H. unfold DrawKind. destruct (read_kind _ _ _ _) as [[rs st']| |]; cbn [bind]; [|exact I|exact H].
  destruct H as (H1 & H2 & H3 & s & H4 & H5). split; [exact H1|]. split; [exact H2|]. split; [exact H3|]. exists s. split; [|exact H5].
  exists rs. split; [|reflexivity]. split; [exact H4|]. intros i Hi. pose proof (kind_bound _ _ _ _ _ H5 i) as HB.
  destruct k as [| |p nb|hw nb]; cbn [kind_size] in HB.
  2: { destruct (HG eq_refl) as [_ (F1 & _ & F3)]. split; [lia|]. intros j Hj. specialize (F3 j). unfold maxLevel in *. specialize (F3 ltac:(lia)). lia. }
  all: split; [pose proof (first_modulus rQ rP HP); lia|]; intros j Hj; pose proof (modulus_pos rP j (k_P rQ rP HP) ltac:(unfold maxLevel in *; lia)); lia.
Qed.

Lemma gaussian_fresh src rQ rP st : samplers_ok st -> reads_fresh smGen (fun src => DrawKind src rQ rP Gaussian) 1024 src st.
Proof.
  intros HO a st' H. apply ok_len in HO. unfold DrawKind in *. cbn [read_kind] in *. destruct (read_gauss src _ _ _ _) as [[s0 st0]| |] eqn:E; cbn [bind] in *; try discriminate. injection H as <- <-.
  apply (read_gauss_fresh _ _ _ _ _ _ _ HO) in E. destruct E as (A & _ & _ & B). split; [exact A|]. intros s' HA. rewrite B by exact HA. reflexivity.
Qed.

(** ** Probabilities *)
Lemma distrib_returns rQ rP : ring_pair rQ rP -> forall src p nb st, (p = half \/ p = third /\ (105 <= srFuel src)%nat) -> exists sk, DrawKind src rQ rP (Distrib p nb) st = Ret (sk, st).
Proof.
  intros HP src p nb st H. pose proof (k_Q rQ rP HP) as BQ. pose proof (one_2 rQ BQ) as B2. pose proof (max_ne rQ BQ) as ML. pose proof (zero_poly_rows rQ (maxLevel rQ) ML) as ZR.
  unfold DrawKind. cbn [read_kind]. destruct H as [-> | [-> HF]].
  - destruct (half_sound rQ B2 (srFuel src) nb false _ _ newPrng ML ZR) as (pol' & -> & _). cbn [bind]. eexists. reflexivity.
  - destruct (third_total rQ B2 nb false _ _ newPrng _ HF ML ZR) as ([rs g] & ->). cbn [bind]. eexists. reflexivity.
Qed.
Lemma distrib_one rQ rP : ring_pair rQ rP -> forall src nb st x, DrawKind src rQ rP (Distrib (f64_of_Z 1) nb) st <> Ret x.
Proof.
  intros HP src nb st x. pose proof (k_Q rQ rP HP) as BQ. pose proof (one_2 rQ BQ) as B2. pose proof (max_ne rQ BQ) as ML. pose proof (zero_poly_rows rQ (maxLevel rQ) ML) as ZR.
  unfold DrawKind. cbn [read_kind]. destruct (sampleProba _ _ _ _ _ _ _ _) as [y| |] eqn:E; cbn [bind]; try discriminate. exfalso. apply (one_never rQ B2 _ _ _ _ _ _ _ ML ZR E).
Qed.

Lemma fast_never : forall fuel sk, FastGenSecretKey fuel = Codec.Fail /\ FastGenPublicKey fuel sk = Codec.Fail.
Proof. induction fuel as [|f IH]; intros sk; [split; reflexivity|]. cbn. apply IH. Qed.
