(** Relinearization and rotation keys; hoisted key switching. *)
From Verif Require Import Word ModRed Arith Fermat ModRedProofs PolySpec PolyProofs Ring RingProofs NTT NTTProofs RingOps RNSSpec RowProofs OpsProofs OpsProps NTTProps Repr BasisExt CRT BasisProofs BasisProps Automorphism AutoProps Scaling Gadget MarginProofs AccumProofs GadgetSpec GadgetProofs Frlwe FrlweSetup FrlweProps FrlweSwitch RlweSpec Rlwe RlweBase RlweKeys RlweSwitch.

Lemma PermuteNTTIndex_same r r' g : built_ring 9 r -> built_ring 9 r' -> rN r' = rN r -> PermuteNTTIndex r' g = PermuteNTTIndex r g.
Proof.
  intros H H' EN. destruct (built_nth_root 9 r ltac:(lia) H) as (L & Hw & R & _). destruct (built_nth_root 9 r' ltac:(lia) H') as (L' & Hw' & R' & _).
  assert (L' = L). { rewrite (wfr_N _ _ _ Hw), (wfr_N _ _ _ Hw') in EN. apply Nat.pow_inj_r in EN; lia. }
  subst L'. unfold PermuteNTTIndex. rewrite R, R', EN. reflexivity.
Qed.

Section Gen.
  Variables (rQ rP : Ring) (L : nat).
  Hypothesis (HP : ring_pair rQ rP) (EL : rN rQ = (2 ^ L)%nat).
  Let n := rN rQ.
  Let lQ := maxLevel rQ.
  Let lP := maxLevel rP.
  Let nb := ceil_div (lQ + 1) (lP + 1).
  Let BQ : built_ring 9 rQ := k_Q rQ rP HP.
  Let BP : built_ring 9 rP := k_P rQ rP HP.

  Lemma relin_loop sk s e E aQ aP poolQ : qp_ntt rQ rP L lQ lP canon sk (pscale W s) ->
    forall cnt i pool, rns_ntt rQ L lQ canon pool (pscale W (ppow n s (S i))) ->
    (forall j, (i <= j < i + cnt)%nat -> randomness_ok rQ rP lQ lP (e j) (E j) (aQ j) (aP j)) ->
    length (genRelinLoop rQ rP cnt i sk pool e aQ aP poolQ) = cnt /\
    forall j, (i <= j < i + cnt)%nat ->
      let '(key0, key1) := nth (j - i) (genRelinLoop rQ rP cnt i sk pool e aQ aP poolQ) ([], []) in
      switching_key_ok rQ rP L lQ lP key0 key1 (E j) s (ppow n s (S (S j))).
  Proof.
    intros Hsk. induction cnt as [|cnt IH]; intros i pool Hp Hr; cbn [genRelinLoop]; [split; [reflexivity|intros j Hj; lia]|].
    fold lQ lP. set (pool' := MulCoeffsMontgomeryLvl rQ lQ pool (fst sk) pool).
    assert (Hp' : rns_ntt rQ L lQ canon pool' (pscale W (ppow n s (S (S i))))).
    { apply (ntt_peq rQ L EL lQ canon _ (pmul n (pscale W (ppow n s (S i))) s)); [intros j Hj; cbn [ppow]; apply pscale_pmul_l|].
      apply (one_mul rQ BQ L EL); [exact Hp|apply Hsk]. }
    destruct (IH (S i) pool' Hp') as [IH1 IH2]; [intros j Hj; apply Hr; lia|].
    split; [cbn [length]; rewrite IH1; reflexivity|]. intros j Hj. destruct (Nat.eq_dec j i) as [-> | Hne].
    - replace (i - i)%nat with O by lia. cbn [nth].
      pose proof (switching_key rQ rP L HP EL lQ lP pool' sk s (ppow n s (S (S i))) (e i) (E i) (aQ i) (aP i) poolQ (max_ne rQ BQ) (max_ne rP BP) Hp' Hsk (Hr i ltac:(lia))) as K.
      destruct (genSwitchingKey rQ rP lQ lP pool' sk (e i) (aQ i) (aP i) poolQ) as [key0 key1]. apply K.
    - replace (j - i)%nat with (S (j - S i)) by lia. cbn [nth]. apply IH2. lia.
  Qed.

  Lemma relin_key sk s maxDegree e E aQ aP poolQP poolQ : qp_ntt rQ rP L lQ lP canon sk (pscale W s) ->
    (forall j, (j < maxDegree)%nat -> randomness_ok rQ rP lQ lP (e j) (E j) (aQ j) (aP j)) ->
    let rlk := GenRelinearizationKey rQ rP sk maxDegree e aQ aP poolQP poolQ in
    length rlk = maxDegree /\
    forall j, (j < maxDegree)%nat -> let '(key0, key1) := nth j rlk ([], []) in
      switching_key_ok rQ rP L lQ lP key0 key1 (E j) s (ppow n s (j + 2)).
  Proof.
    intros Hsk Hr. unfold GenRelinearizationKey. cbv zeta. fold lQ.
    assert (Hc : rns_ntt rQ L lQ canon (CopyValuesLvl lQ (fst sk) poolQP) (pscale W (ppow n s 1))).
    { apply (ntt_peq rQ L EL lQ canon _ (pscale W s)).
      - intros i Hi. apply pscale_peq. cbn [ppow]. symmetry. fold n. apply pmul_1_l.
      - destruct Hsk as [(A1 & A2 & A3) _]. split; [exact A1|]. split; [unfold CopyValuesLvl; rewrite lvl_length; lia|].
        intros i Hi. unfold CopyValuesLvl. rewrite lvl_nth_lt by lia. apply A3. exact Hi. }
    destruct (relin_loop sk s e E aQ aP poolQ Hsk maxDegree 0 _ Hc) as [R1 R2]; [intros j Hj; apply Hr; lia|].
    split; [exact R1|]. intros j Hj. specialize (R2 j ltac:(lia)). rewrite Nat.sub_0_r in R2. replace (j + 2)%nat with (S (S j)) by lia. exact R2.
  Qed.

  (** A key for the element g switches from s to s(X^g). *)
  Lemma rot_key sk s g e E aQ aP poolQP poolQ : 0 <= g -> Z.odd g = true -> qp_ntt rQ rP L lQ lP canon sk (pscale W s) ->
    randomness_ok rQ rP lQ lP e E aQ aP ->
    let '(key0, key1) := genrotKey rQ rP sk g e aQ aP poolQP poolQ in
    switching_key_ok rQ rP L lQ lP key0 key1 E (pauto n (Z.to_nat g) s) s.
  Proof.
    intros Hg Ho Hsk Hr. unfold genrotKey. fold lQ lP. set (skOut := (_, _)).
    assert (H2 : built_ring 2 rQ) by exact (one_2 rQ BQ). assert (H2' : built_ring 2 rP) by exact (one_2 rP BP).
    assert (Hout : qp_ntt rQ rP L lQ lP canon skOut (pscale W (pauto n (Z.to_nat g) s))).
    { destruct Hsk as [S1 S2]. split; unfold skOut; cbn [fst snd].
      - apply (ntt_peq rQ L EL lQ canon _ (pauto n (Z.to_nat g) (pscale W s))); [intros i Hi; apply pauto_scale|].
        apply (permute_ntt_index 2 rQ L lQ canon (fst sk) (fst poolQP) g (pscale W s)); try assumption. lia.
      - rewrite <- (PermuteNTTIndex_same rQ rP g BQ BP (k_N rQ rP HP)).
        apply (ntt_peq rP L (k_ELP rQ rP L HP EL) lP canon _ (pauto (rN rP) (Z.to_nat g) (pscale W s))); [intros i Hi; rewrite (k_N rQ rP HP); apply pauto_scale|].
        apply (permute_ntt_index 2 rP L lP canon (snd sk) (snd poolQP) g (pscale W s)); try assumption; [lia|apply (k_ELP rQ rP L HP EL)]. }
    pose proof (switching_key rQ rP L HP EL lQ lP (fst sk) skOut (pauto n (Z.to_nat g) s) s e E aQ aP poolQ (max_ne rQ BQ) (max_ne rP BP) (proj1 Hsk) Hout Hr) as K.
    destruct (genSwitchingKey rQ rP lQ lP (fst sk) skOut e aQ aP poolQ) as [key0 key1]. apply K.
  Qed.
End Gen.

(** ** Hoisted key switching *)
Definition same (level : nat) (p p' : rows) : Prop := forall i, (i <= level)%nat -> nth i p [] = nth i p' [].

Lemma lvl_ext cnt f g out : (forall i, (i < cnt)%nat -> f i = g i) -> lvl cnt f out = lvl cnt g out.
Proof. intros H. unfold lvl. f_equal. apply map_ext_in. intros i Hi. apply in_seq in Hi. apply H. lia. Qed.

Lemma acc_step_ext r level F a b a' b' acc i : same level (a i) (a' i) -> same level (b i) (b' i) ->
  acc_step r level F a b acc i = acc_step r level F a' b' acc i.
Proof.
  intros H1 H2. unfold acc_step.
  assert (E : (if Nat.eqb i 0 then MulCoeffsMontgomeryConstantLvl r level (a i) (b i) acc else MulCoeffsMontgomeryConstantAndAddNoModLvl r level (a i) (b i) acc) =
              (if Nat.eqb i 0 then MulCoeffsMontgomeryConstantLvl r level (a' i) (b' i) acc else MulCoeffsMontgomeryConstantAndAddNoModLvl r level (a' i) (b' i) acc)).
  { destruct (Nat.eqb i 0); apply lvl_ext; intros j Hj; unfold prow; rewrite (H1 j), (H2 j) by lia; reflexivity. }
  rewrite E. reflexivity.
Qed.

Lemma accumulate_ext r level F beta a b a' b' pool : (forall i, (i < beta)%nat -> same level (a i) (a' i) /\ same level (b i) (b' i)) ->
  accumulate r level F beta a b pool = accumulate r level F beta a' b' pool.
Proof.
  intros H. unfold accumulate.
  assert (E : forall l acc, (forall i, In i l -> (i < beta)%nat) -> fold_left (acc_step r level F a b) l acc = fold_left (acc_step r level F a' b') l acc).
  { induction l as [|i l IH]; intros acc Hl; [reflexivity|]. cbn [fold_left]. destruct (H i (Hl i (or_introl eq_refl))) as [H1 H2].
    rewrite (acc_step_ext r level F a b a' b' acc i H1 H2). apply IH. intros j Hj. apply Hl. right. exact Hj. }
  rewrite E; [reflexivity|]. intros i Hi. apply in_seq in Hi. lia.
Qed.

Lemma decompose_same rQ rP levelQ levelP alpha beta cN cI oQ oP oQ' oP' :
  same levelQ (fst (DecomposeSingleNTT rQ rP levelQ levelP alpha beta cN cI oQ oP)) (fst (DecomposeSingleNTT rQ rP levelQ levelP alpha beta cN cI oQ' oP')) /\
  same levelP (snd (DecomposeSingleNTT rQ rP levelQ levelP alpha beta cN cI oQ oP)) (snd (DecomposeSingleNTT rQ rP levelQ levelP alpha beta cN cI oQ' oP')).
Proof.
  unfold DecomposeSingleNTT, DecomposeAndSplit. cbv zeta. set (dl := if Nat.ltb _ _ then _ else _). destruct (Nat.eqb dl 0); cbn [fst snd].
  - split; intros i Hi; unfold NTTLazyLvl; rewrite !lvl_nth_lt by lia; unfold prow; rewrite !lvl_nth_lt by lia; reflexivity.
  - split; intros i Hi; unfold NTTLazyLvl; rewrite !lvl_nth_lt by lia; unfold prow; rewrite !lvl_nth_lt by lia; reflexivity.
Qed.

(** Hoisting gives the same ciphertext, bit for bit. *)
Lemma hoisted_same rQ rP levelQ levelP cx key0 key1 poolInv c2 pools p0 p1 pool1P pool2P :
  KeyswitchHoisted rQ rP levelQ levelP (DecomposeNTT rQ rP levelQ levelP (levelP + 1) cx true poolInv pools) key0 key1 p0 p1 pool1P pool2P =
  SwitchKeysInPlace rQ rP levelQ levelP cx true key0 key1 poolInv c2 pool1P pool2P p0 p1.
Proof.
  unfold KeyswitchHoisted, KeyswitchHoistedNoModDown, SwitchKeysInPlace, SwitchKeysInPlaceNoModDown, DecomposeNTT, both_domains.
  set (cI := InvNTTLvl rQ levelQ cx poolInv). set (nb := ceil_div (levelQ + 1) (levelP + 1)).
  assert (E : forall c0Q c0P c1Q c1P,
    keyswitch_accumulate rQ rP levelQ levelP (fun i => nth i (map (fun i => DecomposeSingleNTT rQ rP levelQ levelP (levelP + 1) i cx cI (fst (pools i)) (snd (pools i))) (seq 0 nb)) ([], [])) key0 key1 c0Q c0P c1Q c1P =
    keyswitch_accumulate rQ rP levelQ levelP (fun i => DecomposeSingleNTT rQ rP levelQ levelP (levelP + 1) i cx cI (fst c2) (snd c2)) key0 key1 c0Q c0P c1Q c1P).
  { intros c0Q c0P c1Q c1P. unfold keyswitch_accumulate. fold nb. cbv zeta. destruct (_ || _)%bool; [reflexivity|].
    assert (Hn : forall i, (i < nb)%nat -> nth i (map (fun i => DecomposeSingleNTT rQ rP levelQ levelP (levelP + 1) i cx cI (fst (pools i)) (snd (pools i))) (seq 0 nb)) ([], []) =
      DecomposeSingleNTT rQ rP levelQ levelP (levelP + 1) i cx cI (fst (pools i)) (snd (pools i)))
      by (intros i Hi; exact (nth_map_seq (fun i => DecomposeSingleNTT rQ rP levelQ levelP (levelP + 1) i cx cI (fst (pools i)) (snd (pools i))) nb i ([], []) Hi)).
    assert (AQ : forall F (key : list (rows * rows)) c,
      accumulate rQ levelQ F nb (fun i => fst (nth i key ([], []))) (fun i => fst (nth i (map (fun i => DecomposeSingleNTT rQ rP levelQ levelP (levelP + 1) i cx cI (fst (pools i)) (snd (pools i))) (seq 0 nb)) ([], []))) c =
      accumulate rQ levelQ F nb (fun i => fst (nth i key ([], []))) (fun i => fst (DecomposeSingleNTT rQ rP levelQ levelP (levelP + 1) i cx cI (fst c2) (snd c2))) c).
    { intros F key c. apply accumulate_ext. intros i Hi. split; [intros j Hj; reflexivity|]. rewrite Hn by exact Hi. apply decompose_same. }
    assert (AP : forall F (key : list (rows * rows)) c,
      accumulate rP levelP F nb (fun i => snd (nth i key ([], []))) (fun i => snd (nth i (map (fun i => DecomposeSingleNTT rQ rP levelQ levelP (levelP + 1) i cx cI (fst (pools i)) (snd (pools i))) (seq 0 nb)) ([], []))) c =
      accumulate rP levelP F nb (fun i => snd (nth i key ([], []))) (fun i => snd (DecomposeSingleNTT rQ rP levelQ levelP (levelP + 1) i cx cI (fst c2) (snd c2))) c).
    { intros F key c. apply accumulate_ext. intros i Hi. split; [intros j Hj; reflexivity|]. rewrite Hn by exact Hi. apply decompose_same. }
    rewrite !AQ, !AP. reflexivity. }
  rewrite E. destruct (keyswitch_accumulate _ _ _ _ _ _ _ _ _ _ _) as [[[x0 X0] [x1 X1]]|]; reflexivity.
Qed.
