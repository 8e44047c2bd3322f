(** The switching keys between rings of different degrees and between ring types. *)
From Verif Require Import Word ModRed Arith ModRedProofs PolySpec PolyProofs SmallPrimes Ring RingProofs NTT NTTProofs RingOps RNSSpec RowProofs OpsProofs OpsProps Repr
  AutoProps EncSpec EncNtt BasisExt Gadget GadgetSpec Frlwe RlweSpec Rlwe RlweKeys RlweEnc RlweBase FrlweSetup CI CISpec CIProofs CIProps CISwap Degree DegreeSpec DegreeProofs DegreeTop.
Local Open Scope Z_scope.

Lemma inflate_1 X k : inflate 1 X k = X k.
Proof. unfold inflate. rewrite Nat.mod_1_r, Nat.div_1_r. reflexivity. Qed.
Lemma inflate_scale gap c X k : inflate gap (pscale c X) k = pscale c (inflate gap X) k.
Proof. unfold inflate, pscale. destruct (Nat.eqb (k mod gap) 0); ring. Qed.

Lemma extend_lemma rQ L lI lO pool poolQP X : built_ring 9 rQ -> rN rQ = (2 ^ L)%nat -> (lO < length (rmods rQ))%nat -> (lO < length pool)%nat ->
  rns_ntt rQ L lI canon pool (pscale W X) ->
  (forall k, (k < rN rQ)%nat -> 2 * Z.abs (X k) < mq (rmod rQ 0) /\ forall i, (i <= lO)%nat -> Z.abs (X k) <= mq (rmod rQ i)) ->
  rns_ntt rQ L lO canon (extend_secret rQ lI lO pool poolQP) (pscale W X).
Proof.
  intros HQ EL HlO Hp HX HS. assert (HQ2 : built_ring 2 rQ) by (apply (built_le 9); [lia|exact HQ]).
  destruct (built_L rQ L HQ2 EL) as [_ H4].
  destruct (built_mod 9 rQ 0 ltac:(lia) HQ ltac:(lia)) as (Q5 & Q9 & Qo & _).
  unfold extend_secret. cbv zeta. set (pol := InvMFormLvl rQ 0 _ poolQP).
  assert (HP : rns_repr rQ 0 canon pol X).
  { unfold pol. apply (c_invmform rQ 0 HQ2 canon); [intros i Hi; replace i with O by lia; unfold canon; lia|].
    apply (t_invntt rQ L HQ2 EL); [intros i Hi; replace i with O by lia; lia|].
    destruct HX as (A1 & A2 & A3). split; [lia|]. split; [lia|]. intros i Hi. replace i with O by lia.
    apply (row_repr_weaken _ _ (mq (rmod rQ 0))); [lia|]. apply A3. lia. }
  destruct HP as (_ & _ & HP). specialize (HP O ltac:(lia)). set (row := prow pol 0). change (nth 0 pol []) with row in HP. clearbody row. clear pol.
  split; [exact HlO|]. split; [rewrite lvl_length; lia|]. intros i Hi. rewrite lvl_nth_lt by lia.
  destruct (Nat.leb_spec i lI) as [H|H]; [apply HX; exact H|].
  destruct (built_mod 9 rQ i ltac:(lia) HQ ltac:(lia)) as (P5 & P9 & _). assert (Hwf := built_wf rQ L HQ2 EL i ltac:(lia)). cbv zeta. unfold canon.
  set (m := rmod rQ i) in *. rewrite EL.
  assert (E1 : row_repr (2 ^ L) (mq m) (mq m + 1) (map (extend_word (mq (rmod rQ 0)) (mq m)) row) X).
  { rewrite EL in HP, HS. revert HP. unfold canon. intros [Hl HP]. split; [rewrite map_length; exact Hl|]. intros k Hk.
    rewrite (nth_map_any _ _ _ 0) by (rewrite Hl; exact Hk). destruct (HP k Hk) as [B E]. destruct (HS k Hk) as [S1 S2].
    apply extend_word_spec; try assumption; try lia. apply S2. exact Hi. }
  apply (ntt_row_repr L m ltac:(lia) Hwf (mq m + 1)) in E1; [|lia|lia]. unfold ntt_repr in E1.
  revert E1. apply row_map. intros k x Hk Hx Ex. rewrite (wf_bred L m Hwf), MForm_correct by lia. split; [apply Z.mod_pos_bound; lia|].
  rewrite eqm_mod, values_scale, Z.mul_comm. apply eqm_mul; [reflexivity|exact Ex].
Qed.

Lemma gadget_ext n alpha nb Qs Ps b0 b1 e s s1 s2 : (forall k, (k < n)%nat -> s1 k = s2 k) ->
  gadget_key n alpha nb Qs Ps b0 b1 e s s1 -> gadget_key n alpha nb Qs Ps b0 b1 e s s2.
Proof.
  intros H G i Hi. destruct (G i Hi) as [G1 G2]. split; [exact G1|]. intros j Hj k Hk. rewrite (G2 j Hj k Hk). unfold padd, pscale.
  destruct (Nat.eqb (j / alpha) i); [rewrite (H k Hk)|]; reflexivity.
Qed.

(** The end of GenSwitchingKey, once the secret is in the pool. *)
Lemma gen_core rQ rP L : ring_pair rQ rP -> rN rQ = (2 ^ L)%nat -> forall lI levelQ levelP skOut s X e E aQ aP (poolQP : rows * rows) pool,
  (levelQ < length (rmods rQ))%nat -> (levelP < length (rmods rP))%nat -> (levelQ < length pool)%nat ->
  rns_ntt rQ L lI canon pool (pscale W X) -> qp_ntt rQ rP L levelQ levelP canon skOut (pscale W s) ->
  ((lI < levelQ)%nat -> forall k, (k < rN rQ)%nat -> 2 * Z.abs (X k) < mq (rmod rQ 0) /\ forall i, (i <= levelQ)%nat -> Z.abs (X k) <= mq (rmod rQ i)) ->
  (forall i, (i < ceil_div (levelQ + 1) (levelP + 1))%nat -> sampled rQ rP levelQ levelP (e i) (E i) /\ words rQ levelQ canon (aQ i) /\ words rP levelP canon (aP i)) ->
  forall pool', pool' = (if Nat.ltb lI levelQ then extend_secret rQ lI levelQ pool (fst poolQP) else pool) ->
  exists key0 key1, genSwitchingKey rQ rP levelQ levelP pool' skOut e aQ aP pool' = (key0, key1) /\
    (forall i, (i < ceil_div (levelQ + 1) (levelP + 1))%nat -> nth i key1 ([], []) = (aQ i, aP i)) /\ switching_key_ok rQ rP L levelQ levelP key0 key1 E s X.
Proof.
  intros HP EL lI levelQ levelP skOut s X e E aQ aP poolQP pool HlQ HlP Hpl HX Hs Hsm Hr pool' Ep.
  assert (H : rns_ntt rQ L levelQ canon pool' (pscale W X)).
  { rewrite Ep. destruct (Nat.ltb_spec lI levelQ) as [H|H].
    - apply extend_lemma; try assumption; [exact (proj1 HP)|]. exact (Hsm H).
    - destruct HX as (A1 & A2 & A3). split; [exact HlQ|]. split; [exact Hpl|]. intros i Hi. apply A3. lia. }
  pose proof (switching_key rQ rP L HP EL levelQ levelP pool' skOut s X e E aQ aP pool' HlQ HlP H Hs Hr) as K.
  destruct (genSwitchingKey rQ rP levelQ levelP pool' skOut e aQ aP pool') as [key0 key1]. exists key0, key1. split; [reflexivity|exact K].
Qed.

Lemma pair_ne rQ rP : ring_pair rQ rP -> Nat.eqb (length (rmods rP)) 0 = false.
Proof.
  intros (_ & H & _). destruct (built_ring_wf 9 rP ltac:(lia) H) as (L & Hw & _). pose proof (wfr_ne _ _ _ Hw). destruct (rmods rP); [contradiction|reflexivity].
Qed.

(** From a ring of degree at most N, with any number of rows. *)
Lemma key_up_lemma : forall rS rQ rP l L lI, ring_pair rQ rP -> nested 9 rS rQ l L lI -> forall levelQ levelP (skIn : rows) (skOut : rows * rows) s s' e E aQ aP poolQP poolQ,
  (levelQ < length (rmods rQ))%nat -> (levelP < length (rmods rP))%nat ->
  length skIn = S lI -> rns_ntt rS l lI canon skIn (pscale W s') ->
  length (fst skOut) = S levelQ -> length (snd skOut) = S levelP -> qp_ntt rQ rP L levelQ levelP canon skOut (pscale W s) ->
  ((lI < levelQ)%nat -> forall k, (k < rN rS)%nat -> 2 * Z.abs (s' k) < mq (rmod rQ 0) /\ forall i, (i <= levelQ)%nat -> Z.abs (s' k) <= mq (rmod rQ i)) ->
  (forall i, (i < ceil_div (levelQ + 1) (levelP + 1))%nat -> sampled rQ rP levelQ levelP (e i) (E i) /\ words rQ levelQ canon (aQ i) /\ words rP levelP canon (aP i)) ->
  sized (maxLevel rQ) (rN rQ) poolQ ->
  exists key0 key1, GenSwitchingKey rQ rP skIn skOut e aQ aP poolQP poolQ = Some (key0, key1) /\
    (forall i, (i < ceil_div (levelQ + 1) (levelP + 1))%nat -> nth i key1 ([], []) = (aQ i, aP i)) /\
    switching_key_ok rQ rP L levelQ levelP key0 key1 E s (inflate (2 ^ (L - l)) s').
Proof.
  intros rS rQ rP l L lI HP HN levelQ levelP skIn skOut s s' e E aQ aP poolQP poolQ HlQ HlP Hin HsI HoQ HoP Hso Hsm Hr [Hp1 Hp2].
  pose proof HN as (HS & HL & ES & EL & Hle & HlS & HlL & Hq). destruct (pow_gap l L Hle) as [G1 _]. pose proof (pow2n_pos (L - l)) as PG.
  assert (N2 := nested_2 9 _ _ _ _ _ ltac:(lia) HN).
  unfold GenSwitchingKey. rewrite (pair_ne rQ rP HP), HoQ, HoP, Hin. cbv zeta. rewrite !Nat.sub_succ, !Nat.sub_0_r.
  assert (E1 : length (prow (fst skOut) 0) = (2 ^ L)%nat) by (destruct Hso as [(_ & _ & R) _]; apply (R O); lia).
  assert (E2 : length (prow skIn 0) = (2 ^ l)%nat) by (destruct HsI as (_ & _ & R); apply (R O); lia).
  rewrite E1, E2. assert (P : (2 ^ l <= 2 ^ L)%nat) by (apply Nat.pow_le_mono_r; lia). destruct (Nat.ltb_spec (2 ^ L) (2 ^ l)); [lia|].
  assert (Hmax : S (maxLevel rQ) = length (rmods rQ)) by (unfold maxLevel; lia).
  destruct (embed_lemma rS rQ l L lI N2 canon skIn poolQ _ Hin HsI ltac:(lia)) as (u & Eu & [Ku _] & Ru).
  { intros i Hi. apply Hp2. lia. }
  rewrite Eu. set (pool' := if Nat.ltb lI levelQ then _ else _).
  destruct (gen_core rQ rP L HP EL lI levelQ levelP skOut s (inflate (2 ^ (L - l)) s') e E aQ aP poolQP u HlQ HlP) with (pool' := pool') as (key0 & key1 & Ek & K).
  - rewrite Ku, Hp1. lia.
  - revert Ru. apply (ntt_peq rQ L EL). intros i Hi k Hk. apply eqm_eq. apply inflate_scale.
  - exact Hso.
  - intros Hlt k Hk. specialize (Hsm Hlt). unfold inflate. destruct (Nat.eqb (k mod 2 ^ (L - l)) 0).
    + apply Hsm. rewrite ES. apply Nat.div_lt_upper_bound; [lia|]. rewrite EL in Hk. lia.
    + change (Z.abs 0) with 0. destruct (built_mod 9 rQ 0 ltac:(lia) HL ltac:(lia)) as (Q5 & _). split; [lia|]. intros i Hi.
      destruct (built_mod 9 rQ i ltac:(lia) HL ltac:(lia)) as (Q5' & _). lia.
  - exact Hr.
  - reflexivity.
  - rewrite Ek. exists key0, key1. split; [reflexivity|exact K].
Qed.

(** To a ring of smaller degree. *)
Lemma key_down_lemma : forall rSQ rSP rQ rP l L levelQ levelP, ring_pair rQ rP -> nested 9 rSQ rQ l L levelQ -> nested 9 rSP rP l L levelP -> (l < L)%nat ->
  forall (skIn : rows) (skOut : rows * rows) s s' e E aQ aP poolQP poolQ,
  rns_ntt rQ L levelQ canon skIn (pscale W s') ->
  length (fst skOut) = S levelQ -> length (snd skOut) = S levelP -> qp_ntt rSQ rSP l levelQ levelP canon skOut (pscale W s) ->
  (forall i, (i < ceil_div (levelQ + 1) (levelP + 1))%nat -> sampled rQ rP levelQ levelP (e i) (E i) /\ words rQ levelQ canon (aQ i) /\ words rP levelP canon (aP i)) ->
  sized (maxLevel rQ) (rN rQ) (fst poolQP) -> sized (maxLevel rP) (rN rQ) (snd poolQP) ->
  exists key0 key1, GenSwitchingKey rQ rP skIn skOut e aQ aP poolQP poolQ = Some (key0, key1) /\
    (forall i, (i < ceil_div (levelQ + 1) (levelP + 1))%nat -> nth i key1 ([], []) = (aQ i, aP i)) /\
    switching_key_ok rQ rP L levelQ levelP key0 key1 E (inflate (2 ^ (L - l)) s) s'.
Proof.
  intros rSQ rSP rQ rP l L levelQ levelP HP HN HN' Hlt skIn skOut s s' e E aQ aP poolQP poolQ HsI HoQ HoP Hso Hr [Hp1 Hp2] [Hp1' Hp2'].
  pose proof HN as (HS & HL & ES & EL & Hle & HlS & HlL & Hq). pose proof HN' as (HS' & HL' & ES' & EL' & _ & HlS' & HlL' & Hq').
  assert (N2 := nested_2 9 _ _ _ _ _ ltac:(lia) HN). assert (N2' := nested_2 9 _ _ _ _ _ ltac:(lia) HN').
  unfold GenSwitchingKey. rewrite (pair_ne rQ rP HP), HoQ, HoP. cbv zeta. rewrite !Nat.sub_succ, !Nat.sub_0_r.
  assert (E1 : length (prow (fst skOut) 0) = (2 ^ l)%nat) by (destruct Hso as [(_ & _ & R) _]; apply (R O); lia).
  assert (E2 : length (prow skIn 0) = (2 ^ L)%nat) by (destruct HsI as (_ & _ & R); apply (R O); lia).
  rewrite E1, E2. assert (P : (2 ^ l < 2 ^ L)%nat) by (apply Nat.pow_lt_mono_r; lia). destruct (Nat.ltb_spec (2 ^ l) (2 ^ L)); [|lia].
  assert (HmQ : S (maxLevel rQ) = length (rmods rQ)) by (unfold maxLevel; lia). assert (HmP : S (maxLevel rP) = length (rmods rP)) by (unfold maxLevel; lia).
  destruct Hso as [SQ SP].
  destruct (embed_lemma rSQ rQ l L levelQ N2 canon (fst skOut) (fst poolQP) _ HoQ SQ ltac:(lia)) as (uQ & EuQ & _ & RuQ); [intros i Hi; apply Hp2; lia|].
  destruct (embed_lemma rSP rP l L levelP N2' canon (snd skOut) (snd poolQP) _ HoP SP ltac:(lia)) as (uP & EuP & _ & RuP); [intros i Hi; rewrite Hp2' by lia; congruence|].
  rewrite EuQ, EuP.
  assert (HsO : qp_ntt rQ rP L levelQ levelP canon (uQ, uP) (pscale W (inflate (2 ^ (L - l)) s))).
  { split; [revert RuQ; apply (ntt_peq rQ L EL)|revert RuP; apply (ntt_peq rP L EL')]; intros i Hi k Hk; apply eqm_eq, inflate_scale. }
  pose proof (switching_key rQ rP L HP EL levelQ levelP skIn (uQ, uP) _ s' e E aQ aP poolQ HlL HlL' HsI HsO Hr) as K.
  destruct (genSwitchingKey rQ rP levelQ levelP skIn (uQ, uP) e aQ aP poolQ) as [key0 key1]. exists key0, key1. split; [reflexivity|exact K].
Qed.

(** ** The keys between a conjugate-invariant ring and the standard ring *)
Lemma ci_secret_unfold rc rs L level p s t1 t2 out : paired 9 rc rs -> rN rs = (2 ^ L)%nat -> (level < length (rmods rs))%nat ->
  rns_repr rc level (fun q => q + 1) p s -> sized level (rN rs) out ->
  exists u, UnfoldConjugateInvariantToStandard level (MFormLvl rc level (CIForwardLvl rc level p t1) t2) out = Some u /\
    sized level (rN rs) u /\ rns_ntt rs L level canon u (pscale W (ci_poly (rN rc) s)).
Proof.
  intros Hp EL Hlev (_ & Hlp & Hs) [Ho1 Ho2].
  destruct (paired_wf 9 rc rs ltac:(lia) Hp) as (L' & Hw & Hw' & Em & _ & _ & _ & _ & H9).
  assert (EN := wfr_N _ _ _ Hw). assert (EN' := wfr_N _ _ _ Hw'). assert (HL := wfr_logN _ _ _ Hw).
  assert (Emod : forall i, rmod rs i = rmod rc i) by (intros i; unfold rmod; rewrite Em; reflexivity).
  assert (L = S L') by (rewrite EL in EN'; apply Nat.pow_inj_r in EN'; lia). subst L.
  assert (F : forall i, (i <= level)%nat -> ci_repr L' (rmod rc i) (mq (rmod rc i)) (nth i (MFormLvl rc level (CIForwardLvl rc level p t1) t2) []) (pscale W s)).
  { intros i Hi. assert (Hwf := wf_ring_mod _ _ _ i Hw ltac:(rewrite Em; lia)). assert (G := wf_ge _ _ Hwf). specialize (H9 i ltac:(rewrite Em; lia)).
    assert (R := Hs i Hi). rewrite EN in R.
    apply (ci_ntt_repr L' (rmod rc i) ltac:(lia) Hwf) in R; [|lia|lia].
    unfold MFormLvl, op1. rewrite lvl_nth_lt by lia. unfold prow at 1, CIForwardLvl. rewrite lvl_nth_lt by lia. unfold prow. rewrite EN.
    revert R. unfold ci_repr. apply row_map. intros k x Hk Hx Ex. rewrite (wf_bred _ _ Hwf), MForm_correct by lia. split; [apply Z.mod_pos_bound; lia|].
    rewrite eqm_mod. rewrite (values_peq _ _ (ci_poly (2 ^ L') (pscale W s)) (pscale W (ci_poly (2 ^ L') s))).
    - rewrite values_scale, Z.mul_comm. apply eqm_mul; [reflexivity|exact Ex].
    - intros j Hj. apply eqm_eq. unfold ci_poly, pscale. destruct (Nat.ltb j (2 ^ L')); [reflexivity|]. destruct (Nat.eqb j (2 ^ L')); ring. }
  assert (F0 : length (nth 0 (MFormLvl rc level (CIForwardLvl rc level p t1) t2) []) = (2 ^ L')%nat) by (apply (F O); lia).
  unfold UnfoldConjugateInvariantToStandard, prow. rewrite F0, (Ho2 O ltac:(lia)), EL. change (2 ^ S L')%nat with (2 * 2 ^ L')%nat.
  destruct (Nat.eqb_spec (2 * 2 ^ L') (2 * 2 ^ L')) as [_|]; [|congruence]. cbn [negb].
  eexists. split; [reflexivity|].
  assert (U : forall i, (i <= level)%nat -> ntt_repr (S L') (rmod rc i) (mq (rmod rc i))
     (nth i (lvl (S level) (fun i0 => nth i0 (MFormLvl rc level (CIForwardLvl rc level p t1) t2) [] ++
         map (fun jdx => nth (2 ^ L' - 1 - (jdx - 2 ^ L')) (nth i0 (MFormLvl rc level (CIForwardLvl rc level p t1) t2) []) 0) (seq (2 ^ L') (2 ^ L'))) out) [])
     (ci_poly (2 ^ L') (pscale W s))).
  { intros i Hi. rewrite lvl_nth_lt by lia. apply unfold_row; [lia|apply (wf_ring_mod _ _ _ i Hw); rewrite Em; lia|apply F; exact Hi]. }
  split; [split; [rewrite lvl_length, Ho1; lia|intros i Hi; apply U; exact Hi]|].
  split; [exact Hlev|]. split; [rewrite lvl_length; lia|]. intros i Hi. rewrite Emod. unfold canon. rewrite EN.
  generalize (U i Hi). apply row_repr_peq. intros k Hk. apply values_peq.
  intros j Hj. apply eqm_eq. unfold ci_poly, pscale. destruct (Nat.ltb j (2 ^ L')); [reflexivity|]. destruct (Nat.eqb j (2 ^ L')); ring.
Qed.

Lemma ring_swap_lemma : forall rcQ rcP rQ rP L levelQ levelP, ring_pair rQ rP -> paired 9 rcQ rQ -> paired 9 rcP rP -> rN rQ = (2 ^ L)%nat ->
  levelQ = maxLevel rQ -> levelP = maxLevel rP ->
  forall pQ pP t1 t2 t3 t4 sCI (skStd : rows * rows) sStd e E aQ aP e' E' aQ' aP' poolQP poolQ poolQ',
  rns_repr rcQ levelQ (fun q => q + 1) pQ sCI -> rns_repr rcP levelP (fun q => q + 1) pP sCI ->
  length (MFormLvl rcQ levelQ (CIForwardLvl rcQ levelQ pQ t1) t2) = S levelQ -> length (MFormLvl rcP levelP (CIForwardLvl rcP levelP pP t3) t4) = S levelP ->
  sized levelQ (rN rQ) (fst skStd) -> sized levelP (rN rQ) (snd skStd) -> qp_ntt rQ rP L levelQ levelP canon skStd (pscale W sStd) ->
  sized levelQ (rN rQ) (fst poolQP) -> sized levelP (rN rQ) (snd poolQP) -> sized levelQ (rN rQ) poolQ -> sized levelQ (rN rQ) poolQ' ->
  (forall i, (i < ceil_div (levelQ + 1) (levelP + 1))%nat -> sampled rQ rP levelQ levelP (e i) (E i) /\ words rQ levelQ canon (aQ i) /\ words rP levelP canon (aP i)) ->
  (forall i, (i < ceil_div (levelQ + 1) (levelP + 1))%nat -> sampled rQ rP levelQ levelP (e' i) (E' i) /\ words rQ levelQ canon (aQ' i) /\ words rP levelP canon (aP' i)) ->
  exists a0 a1 b0 b1,
    GenSwitchingKeysForRingSwap rQ rP skStd
      (MFormLvl rcQ levelQ (CIForwardLvl rcQ levelQ pQ t1) t2, MFormLvl rcP levelP (CIForwardLvl rcP levelP pP t3) t4)
      e aQ aP e' aQ' aP' poolQP poolQ poolQ' = Some ((a0, a1), (b0, b1)) /\
    switching_key_ok rQ rP L levelQ levelP a0 a1 E' (ci_poly (rN rcQ) sCI) sStd /\
    switching_key_ok rQ rP L levelQ levelP b0 b1 E sStd (ci_poly (rN rcQ) sCI).
Proof.
  intros rcQ rcP rQ rP L levelQ levelP HP HcQ HcP EL ElQ ElP pQ pP t1 t2 t3 t4 sCI skStd sStd e E aQ aP e' E' aQ' aP' poolQP poolQ poolQ'
    HpQ HpP LQ LP ZQ ZP Hstd ZpQ ZpP Zp Zp' Hr Hr'.
  pose proof HP as (BQ & BP & ENP & _). assert (ELP : rN rP = (2 ^ L)%nat) by congruence.
  assert (HlQ : (levelQ < length (rmods rQ))%nat) by (rewrite ElQ; apply (max_ne rQ BQ)).
  assert (HlP : (levelP < length (rmods rP))%nat) by (rewrite ElP; apply (max_ne rP BP)).
  assert (ENc : rN rcP = rN rcQ).
  { destruct (paired_wf 9 rcQ rQ ltac:(lia) HcQ) as (L1 & W1 & W1' & _). destruct (paired_wf 9 rcP rP ltac:(lia) HcP) as (L2 & W2 & W2' & _).
    assert (X1 := wfr_N _ _ _ W1). assert (X1' := wfr_N _ _ _ W1'). assert (X2 := wfr_N _ _ _ W2). assert (X2' := wfr_N _ _ _ W2').
    assert (S L1 = S L2) by (apply (Nat.pow_inj_r 2); [lia|congruence]). congruence. }
  destruct (ci_secret_unfold rcQ rQ L levelQ pQ sCI t1 t2 (fst poolQP) HcQ EL HlQ HpQ ZpQ) as (uQ & EuQ & SuQ & RuQ).
  destruct (ci_secret_unfold rcP rP L levelP pP sCI t3 t4 (snd poolQP) HcP ELP HlP HpP ltac:(rewrite ENP; exact ZpP)) as (uP & EuP & SuP & RuP).
  unfold GenSwitchingKeysForRingSwap. cbn [fst snd]. rewrite LQ, LP, !Nat.sub_succ, !Nat.sub_0_r, EuQ, EuP.
  assert (HN : nested 9 rQ rQ L L levelQ) by (unfold nested; repeat split; try assumption; lia).
  assert (One : forall (skIn : rows) (skOut : rows * rows) s s' e E aQ aP poolQP poolQ,
     length skIn = S levelQ -> rns_ntt rQ L levelQ canon skIn (pscale W s') ->
     length (fst skOut) = S levelQ -> length (snd skOut) = S levelP -> qp_ntt rQ rP L levelQ levelP canon skOut (pscale W s) ->
     (forall i, (i < ceil_div (levelQ + 1) (levelP + 1))%nat -> sampled rQ rP levelQ levelP (e i) (E i) /\ words rQ levelQ canon (aQ i) /\ words rP levelP canon (aP i)) ->
     sized levelQ (rN rQ) poolQ ->
     exists key0 key1, GenSwitchingKey rQ rP skIn skOut e aQ aP poolQP poolQ = Some (key0, key1) /\ switching_key_ok rQ rP L levelQ levelP key0 key1 E s s').
  { clear - HP HN EL ElQ HlQ HlP. intros skIn skOut s s' e E aQ aP poolQP poolQ H1 H2 H3 H4 H5 H6 H7.
    destruct (key_up_lemma rQ rQ rP L L levelQ HP HN levelQ levelP skIn skOut s s' e E aQ aP poolQP poolQ HlQ HlP H1 H2 H3 H4 H5 ltac:(intros X; lia) H6 ltac:(rewrite <- ElQ; exact H7)) as (k0 & k1 & Ek & _ & K).
    exists k0, k1. split; [exact Ek|]. destruct K as (K1 & K2 & b0 & b1 & K3 & K4). split; [exact K1|]. split; [exact K2|]. exists b0, b1. split; [exact K3|].
    rewrite Nat.sub_diag in K4. cbn [Nat.pow] in K4. revert K4. apply gadget_ext. intros k Hk. apply inflate_1. }
  destruct (One uQ skStd sStd (ci_poly (rN rcQ) sCI) e E aQ aP (uQ, uP) poolQ) as (b0 & b1 & Eb & Kb); try assumption; [apply SuQ|apply ZQ|apply ZP|].
  destruct (One (fst skStd) (uQ, uP) (ci_poly (rN rcQ) sCI) sStd e' E' aQ' aP' (uQ, uP) poolQ') as (a0 & a1 & Ea & Ka); try assumption; [apply ZQ|apply Hstd|apply SuQ|apply SuP|split; [exact RuQ|rewrite <- ENc; exact RuP]|].
  rewrite Eb, Ea. exists a0, a1, b0, b1. split; [reflexivity|]. split; assumption.
Qed.
