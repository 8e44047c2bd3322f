(** The keys of rlwe. *)
From Verif Require Import Word ModRed Arith Fermat ModRedProofs PolySpec PolyProofs Ring RingProofs NTT NTTProofs RingOps RNSSpec RowProofs OpsProofs OpsProps NTTProps Repr BasisExt CRT BasisProps Automorphism AutoProps Scaling Gadget AccumProofs GadgetSpec GadgetProofs Frlwe FrlweSetup FrlweProps FrlweSwitch RlweSpec Rlwe RlweBase.

(** ** Commutativity of the Montgomery products *)
Lemma map2_comm {A C} (f : A -> A -> C) x y : (forall a b, f a b = f b a) -> map2 f x y = map2 f y x.
Proof.
  intros H. unfold map2. revert y. induction x as [|a x IH]; intros [|b y]; try reflexivity. cbn. rewrite H. f_equal. apply IH.
Qed.
Lemma map3_comm (f : Z -> Z -> Z -> Z) x y z : (forall a b c, f a b c = f b a c) -> map3 f x y z = map3 f y x z.
Proof.
  intros H. unfold map3, map2. revert y z. induction x as [|a x IH]; intros [|b y] z; try reflexivity. cbn.
  destruct z as [|c z]; [reflexivity|]. cbn. rewrite H. f_equal. apply IH.
Qed.
Lemma MRedConstant_comm x y q qi : MRedConstant x y q qi = MRedConstant y x q qi.
Proof. unfold MRedConstant, mul_hi, mul_lo. rewrite (Z.mul_comm x y). reflexivity. Qed.
Lemma MRed_comm x y q qi : MRed x y q qi = MRed y x q qi.
Proof. unfold MRed. rewrite MRedConstant_comm. reflexivity. Qed.
Lemma op2_comm r f level p1 p2 p3 : (forall m a b, f m a b = f m b a) -> op2 r f level p1 p2 p3 = op2 r f level p2 p1 p3.
Proof. intros H. unfold op2, lvl. f_equal. apply map_ext. intros i. apply map2_comm. intros a b. apply H. Qed.
Lemma op3_comm r f level p1 p2 p3 : (forall m a b c, f m a b c = f m b a c) -> op3 r f level p1 p2 p3 = op3 r f level p2 p1 p3.
Proof. intros H. unfold op3, lvl. f_equal. apply map_ext. intros i. apply map3_comm. intros a b c. apply H. Qed.
Lemma mulsub_comm r level p1 p2 p3 : MulCoeffsMontgomeryAndSubLvl r level p1 p2 p3 = MulCoeffsMontgomeryAndSubLvl r level p2 p1 p3.
Proof. apply op3_comm. intros. rewrite MRed_comm. reflexivity. Qed.
Lemma mulmont_comm r level p1 p2 p3 : MulCoeffsMontgomeryLvl r level p1 p2 p3 = MulCoeffsMontgomeryLvl r level p2 p1 p3.
Proof. apply op2_comm. intros. apply MRed_comm. Qed.

(** ** Rows of a built ring *)
Section One.
  Variable r : Ring.
  Hypothesis Hr : built_ring 9 r.

  Lemma one_2 : built_ring 2 r. Proof. apply (built_le 9); [lia|exact Hr]. Qed.
  Lemma one_mod i : (i < length (rmods r))%nat -> 5 <= mq (rmod r i) /\ 9 * mq (rmod r i) <= W.
  Proof. intros Hi. destruct (built_mod 9 r i ltac:(lia) Hr Hi) as (Q5 & Q9 & _). split; assumption. Qed.
  Lemma one_W i : (i < length (rmods r))%nat -> mq (rmod r i) * mq (rmod r i) <= mq (rmod r i) * W.
  Proof. intros Hi. destruct (one_mod i Hi). apply Z.mul_le_mono_nonneg_l; lia. Qed.

  Variable L : nat.
  Hypothesis EL : rN r = (2 ^ L)%nat.

  Lemma one_ntt level p out X : rns_repr r level (fun q => q + 1) p X -> rns_ntt r L level canon (NTTLvl r level p out) X.
  Proof.
    intros H. assert (Hl := proj1 H). revert H. apply (t_ntt r L one_2 EL). intros i Hi. destruct (one_mod i ltac:(lia)). lia.
  Qed.
  Lemma one_mform level p out X : rns_ntt r L level canon p X -> rns_ntt r L level canon (MFormLvl r level p out) (pscale W X).
  Proof.
    intros H. assert (Hl := proj1 H). revert H. apply (n_mform r L one_2 EL). intros i Hi. destruct (one_mod i ltac:(lia)). unfold canon. lia.
  Qed.
  Lemma one_lazy_mform level p out out' X : rns_repr r level (fun q => q + 1) p X ->
    rns_ntt r L level canon (MFormLvl r level (NTTLazyLvl r level p out) out') (pscale W X).
  Proof.
    intros H. assert (Hl := proj1 H).
    apply (n_mform r L one_2 EL level (fun q => 4 * q + 2 * q)); [intros i Hi; destruct (one_mod i ltac:(lia)); lia|].
    apply (t_nttlazy r L one_2 EL level (fun q => 4 * q)); [intros i Hi; destruct (one_mod i ltac:(lia)); lia|].
    revert H. apply rns_weaken. intros i Hi. destruct (one_mod i ltac:(lia)). lia.
  Qed.
  Lemma one_mulsub level p1 p2 p3 X Y Z : rns_ntt r L level canon p1 X -> rns_ntt r L level canon p2 (pscale W Y) -> rns_ntt r L level canon p3 Z ->
    rns_ntt r L level canon (MulCoeffsMontgomeryAndSubLvl r level p1 p2 p3) (psub Z (pmul (rN r) X Y)).
  Proof.
    intros H. assert (Hl := proj1 H). revert H. apply (n_mulmontsub r L one_2 EL level canon canon). intros i Hi. unfold canon. apply one_W. lia.
  Qed.
  Lemma one_mul level p1 p2 p3 X Y : rns_ntt r L level canon p1 X -> rns_ntt r L level canon p2 (pscale W Y) ->
    rns_ntt r L level canon (MulCoeffsMontgomeryLvl r level p1 p2 p3) (pmul (rN r) X Y).
  Proof.
    intros H. assert (Hl := proj1 H). revert H. apply (n_mulmont r L one_2 EL level canon canon). intros i Hi. unfold canon. apply one_W. lia.
  Qed.
  Lemma one_scalar level s p out X : rns_ntt r L level canon p X -> rns_ntt r L level canon (MulScalarBigintLvl r s level p out) (pscale s X).
  Proof.
    intros H. assert (Hl := proj1 H). apply (ntt_g _ _ _ _ _ _ EL). apply (ntt_g _ _ _ _ _ _ EL) in H.
    apply (g_peq _ _ _ _ (fun m k => s * nttD L X m k)); [intros i k Hi Hk; unfold nttD; rewrite values_scale; reflexivity|].
    revert H. unfold MulScalarBigintLvl. apply g_op1. intros i k x Hi Hk m Hx E. unfold canon in *.
    destruct (built_mod 9 r i ltac:(lia) Hr ltac:(lia)) as (Q5 & Q9 & Qo & Eb & Ei & Hinv). fold m in Q5, Q9, Qo, Eb, Hinv.
    assert (Hs := Z.mod_pos_bound s (mq m) ltac:(lia)).
    rewrite Eb. rewrite BRedAdd_correct by lia. rewrite (Z.mod_small (s mod mq m)) by exact Hs.
    rewrite MForm_correct by lia. set (y := (s mod mq m * W) mod mq m).
    assert (Hy : 0 <= y < mq m) by (apply Z.mod_pos_bound; lia).
    assert (Ey : eqm (mq m) y (s * W)).
    { unfold y. apply (eqm_trans _ _ (s mod mq m * W)); [apply eqm_mod|]. apply eqm_mul; [apply eqm_mod|reflexivity]. }
    clearbody y.
    apply (mred_word (mq m) (mqinv m) Q5 ltac:(lia) Qo Hinv x y (mq m) (mq m) (nttD L X m k) (s * W)); try assumption.
    - apply Z.mul_le_mono_nonneg_l; lia.
    - apply eqm_eq. ring.
  Qed.
End One.

Lemma prefix_length r level : (level < length (rmods r))%nat -> length (prefix r level) = S level.
Proof. intros H. unfold prefix. rewrite firstn_length, <- moduli_length. lia. Qed.
Lemma prefix_nth r level j : (level < length (rmods r))%nat -> (j <= level)%nat -> nth j (prefix r level) 0 = mq (rmod r j).
Proof. intros H Hj. unfold prefix. rewrite nth_firstn by lia. apply nth_moduli. lia. Qed.
Lemma prefix_in r level q : (level < length (rmods r))%nat -> In q (prefix r level) -> exists j, (j <= level)%nat /\ q = mq (rmod r j).
Proof. intros H Hq. apply firstn_moduli_in; assumption. Qed.
Lemma prefix_lprod r level : lprod r level = product (prefix r level).
Proof. reflexivity. Qed.

Lemma fold_left_mul l : forall a, fold_left Z.mul l a = a * fold_right Z.mul 1 l.
Proof. induction l as [|x l IH]; intros a; cbn [fold_left fold_right]; [ring|]. rewrite IH. ring. Qed.

Lemma special_product_spec r level : built_ring 2 r -> (level < length (rmods r))%nat -> special_product r level = product (prefix r level).
Proof.
  intros Hr Hl. unfold special_product, maxLevel, prefix, product. destruct (Nat.eqb_spec level (length (rmods r) - 1)) as [E|E].
  - rewrite (bigQ_prod r (moduli r) Hr eq_refl). f_equal. symmetry. apply firstn_all2. rewrite <- moduli_length. lia.
  - rewrite fold_left_mul. pose proof (moduli_length r) as ML. destruct (moduli r) as [|q l]; [cbn in ML; lia|reflexivity].
Qed.

Lemma max_ne r : built_ring 9 r -> (maxLevel r < length (rmods r))%nat.
Proof.
  intros Hr. destruct (built_ring_wf 9 r ltac:(lia) Hr) as (L' & Hw & _). pose proof (wfr_ne _ _ _ Hw). unfold maxLevel. destruct (rmods r); [contradiction|cbn; lia].
Qed.

Section Keys.
  Variables (rQ rP : Ring) (L : nat).
  Hypothesis (HP : ring_pair rQ rP) (EL : rN rQ = (2 ^ L)%nat).
  Let n := rN rQ.

  Lemma k_Q : built_ring 9 rQ. Proof. apply HP. Qed.
  Lemma k_P : built_ring 9 rP. Proof. apply HP. Qed.
  Lemma k_N : rN rP = rN rQ. Proof. apply HP. Qed.
  Lemma k_ELP : rN rP = (2 ^ L)%nat. Proof. rewrite k_N. exact EL. Qed.

  Lemma sampled_P levelQ levelP e E out : (levelP < length (rmods rP))%nat -> sampled rQ rP levelQ levelP e E ->
    rns_repr rP levelP (fun q => q + 1) (ExtendBasisSmallNormAndCenter rQ rP e levelP out) E.
  Proof.
    intros HlP [H1 H2]. apply extend_small; [apply (one_2 rQ k_Q)|apply (one_2 rP k_P)|apply k_N|exact HlP| |exact H2].
    apply (proj2 (proj2 H1)). lia.
  Qed.

  Lemma secret_key s S : sampled rQ rP (maxLevel rQ) (maxLevel rP) s S ->
    qp_ntt rQ rP L (maxLevel rQ) (maxLevel rP) canon (genSecretKey rQ rP s) (pscale W S).
  Proof.
    intros H. split; cbn [fst snd genSecretKey].
    - apply (one_mform rQ k_Q L EL), (one_ntt rQ k_Q L EL). apply H.
    - apply (one_mform rP k_P L k_ELP), (one_ntt rP k_P L k_ELP). apply (sampled_P (maxLevel rQ)); [apply max_ne, k_P|exact H].
  Qed.

  Lemma public_key sk S e E aQ aP : qp_ntt rQ rP L (maxLevel rQ) (maxLevel rP) canon sk (pscale W S) ->
    sampled rQ rP (maxLevel rQ) (maxLevel rP) e E ->
    words rQ (maxLevel rQ) canon aQ -> words rP (maxLevel rP) canon aP ->
    exists A B, let '(pk0, pk1) := GenPublicKey rQ rP sk e aQ aP in
      pk1 = (aQ, aP) /\ qp_ntt rQ rP L (maxLevel rQ) (maxLevel rP) canon pk1 A /\ qp_ntt rQ rP L (maxLevel rQ) (maxLevel rP) canon pk0 B /\
      forall q, peq n q (padd B (pmul n A S)) E.
  Proof.
    intros [S1 S2] He WQ WP.
    destruct (qp_words_ntt rQ rP L HP EL (maxLevel rQ) (maxLevel rP) (aQ, aP) (max_ne _ k_Q) (max_ne _ k_P) WQ WP) as (A & A1 & A2). cbn [fst snd] in A1, A2.
    exists A, (psub E (pmul n A S)). cbn [GenPublicKey]. split; [reflexivity|]. split; [split; assumption|]. split.
    - split; cbn [fst snd].
      + rewrite mulsub_comm. apply (one_mulsub rQ k_Q L EL); [exact A1|exact S1|]. apply (one_ntt rQ k_Q L EL). apply He.
      + rewrite mulsub_comm. unfold n. rewrite <- k_N. apply (one_mulsub rP k_P L k_ELP); [exact A2|exact S2|].
        apply (one_ntt rP k_P L k_ELP). apply (sampled_P (maxLevel rQ)); [apply max_ne, k_P|exact He].
    - intros q. apply peq_exact. intros k Hk. unfold padd, psub. ring.
  Qed.

  (** Adding the block of the gadget. *)
  Lemma add_block_spec levelQ alpha i pool b e s P G : (levelQ < length (rmods rQ))%nat -> (0 < alpha)%nat ->
    rns_ntt rQ L levelQ canon b (pscale W e) -> rns_ntt rQ L levelQ canon pool (pscale P (pscale W s)) ->
    (forall j, (j <= levelQ)%nat -> peq n (mq (rmod rQ j)) G (if Nat.eqb (j / alpha) i then pscale P s else pzero)) ->
    rns_ntt rQ L levelQ canon (add_block rQ levelQ alpha i pool b) (pscale W (padd e G)).
  Proof.
    intros Hl Ha (_ & B2 & B3) (_ & P2 & P3) HG. split; [exact Hl|]. split; [unfold add_block; rewrite lvl_length; lia|].
    intros j Hj. unfold add_block. rewrite lvl_nth_lt by lia. specialize (B3 j Hj). specialize (P3 j Hj). specialize (HG j Hj).
    destruct (one_mod rQ k_Q j ltac:(lia)) as [Q5 Q9]. unfold canon in *. set (m := rmod rQ j) in *. unfold prow.
    assert (Blk : (Nat.leb (i * alpha) j && Nat.ltb j (i * alpha + alpha))%bool = Nat.eqb (j / alpha) i).
    { apply Bool.eq_iff_eq_true. rewrite andb_true_iff, Nat.leb_le, Nat.ltb_lt, Nat.eqb_eq.
      pose proof (Nat.div_mod j alpha ltac:(lia)) as D. pose proof (Nat.mod_upper_bound j alpha ltac:(lia)) as D'.
      set (x := (j / alpha)%nat) in *. set (y := (j mod alpha)%nat) in *. clearbody x y. clear - D D' Ha. split; [intros [H1 H2]; nia|intros ->; nia]. }
    rewrite Blk. clear Blk. destruct (Nat.eqb (j / alpha) i).
    - assert (V : forall k, (k < 2 ^ L)%nat -> eqm (mq m) (values m L (pscale W e) k + values m L (pscale P (pscale W s)) k) (values m L (pscale W (padd e G)) k)).
      { intros k Hk. unfold values. rewrite <- peval_add. apply values_peq. unfold n in HG. rewrite EL in HG.
        intros x Hx. unfold pscale, padd. rewrite (HG x Hx). unfold pscale. apply eqm_eq. ring. }
      apply (row_map2 (2 ^ L) (mq m) (mq m) (mq m) (mq m) _ (nth j b []) (nth j pool []) (values m L (pscale W e)) (values m L (pscale P (pscale W s)))); [|exact B3|exact P3].
      intros k x y Hk Hx Hy E1 E2. unfold wadd. rewrite w64_small by lia.
      destruct (cred_word (x + y) (mq m) (mq m)) as [R1 R2]; try lia. split; [exact R1|]. rewrite R2. rewrite <- V by exact Hk. apply eqm_add; assumption.
    - apply (row_repr_peq _ _ _ _ (values m L (pscale W e))); [|exact B3]. intros k Hk. apply values_peq. unfold n in HG. rewrite EL in HG.
      intros x Hx. unfold pscale, padd. rewrite (HG x Hx). unfold pzero. apply eqm_eq. ring.
  Qed.

  (** C31. *)
  Lemma switching_key levelQ levelP skIn skOut s s' e E aQ aP poolQ :
    (levelQ < length (rmods rQ))%nat -> (levelP < length (rmods rP))%nat ->
    let nb := ceil_div (levelQ + 1) (levelP + 1) in
    rns_ntt rQ L levelQ canon skIn (pscale W s') -> qp_ntt rQ rP L levelQ levelP canon skOut (pscale W s) ->
    (forall i, (i < nb)%nat -> sampled rQ rP levelQ levelP (e i) (E i) /\ words rQ levelQ canon (aQ i) /\ words rP levelP canon (aP i)) ->
    let '(key0, key1) := genSwitchingKey rQ rP levelQ levelP skIn skOut e aQ aP poolQ in
    (forall i, (i < nb)%nat -> nth i key1 ([], []) = (aQ i, aP i)) /\ switching_key_ok rQ rP L levelQ levelP key0 key1 E s s'.
  Proof.
    intros HlQ HlP nb HsI [HsQ HsP] Hs. unfold genSwitchingKey. fold nb.
    set (P := product (prefix rP levelP)).
    rewrite (special_product_spec rP levelP (one_2 rP k_P) HlP). fold P. set (pool := MulScalarBigintLvl rQ P levelQ skIn poolQ).
    assert (Hpool : rns_ntt rQ L levelQ canon pool (pscale P (pscale W s'))) by (apply (one_scalar rQ k_Q L EL); exact HsI).
    assert (N1 : forall i, (i < nb)%nat -> nth i (map (fun i => (aQ i, aP i)) (seq 0 nb)) ([], []) = (aQ i, aP i)) by (intros i Hi; exact (nth_map_seq (fun i => (aQ i, aP i)) nb i ([], []) Hi)).
    split; [exact N1|]. unfold switching_key_ok. fold nb n.
    split; [rewrite map_length, seq_length; reflexivity|]. split; [rewrite map_length, seq_length; reflexivity|].
    destruct (finite_choice pzero nb (fun i b => qp_ntt rQ rP L levelQ levelP canon (aQ i, aP i) (pscale W b))) as [b1 Hb1].
    { intros i Hi. destruct (Hs i Hi) as (_ & WQ & WP). apply (qp_words_mont rQ rP L HP EL); assumption. }
    destruct (finite_choice pzero nb (fun i G => (forall j, (j <= levelQ)%nat -> peq n (mq (rmod rQ j)) G (if Nat.eqb (j / (levelP + 1)) i then pscale P s' else pzero)) /\
      (forall j, (j <= levelP)%nat -> peq n (mq (rmod rP j)) G pzero))) as [G HG].
    { intros i Hi. destruct (qp_exists rQ rP HP levelQ levelP (fun j k => (if Nat.eqb (j / (levelP + 1)) i then pscale P s' else pzero) k) (fun _ _ => 0) HlQ HlP) as [X HX].
      exists X. split; intros j Hj k Hk; apply (HX k Hk); exact Hj. }
    exists (fun i => psub (padd (E i) (G i)) (pmul n (b1 i) s)), b1. split.
    - intros i Hi. rewrite N1 by exact Hi. split; [|apply Hb1; exact Hi].
      match goal with |- context [nth i (map ?f (seq 0 nb)) _] => rewrite (nth_map_seq f nb i ([], []) Hi) end. destruct (Hs i Hi) as (He & _). destruct (Hb1 i Hi) as [X1 X2]. cbn [fst snd] in X1, X2.
      assert (EQ : forall q, peq n q (psub (pscale W (padd (E i) (G i))) (pmul n (pscale W (b1 i)) s)) (pscale W (psub (padd (E i) (G i)) (pmul n (b1 i) s)))).
      { intros q. transitivity (psub (pscale W (padd (E i) (G i))) (pscale W (pmul n (b1 i) s))); [apply psub_peq; [reflexivity|apply pscale_pmul_l]|].
        apply peq_exact. intros k Hk. unfold psub, pscale. ring. }
      unfold genSwitchingKeyDigit. split; cbn [fst snd].
      + apply (ntt_peq rQ L EL levelQ canon _ (psub (pscale W (padd (E i) (G i))) (pmul n (pscale W (b1 i)) s))); [intros j Hj; apply EQ|].
        apply (one_mulsub rQ k_Q L EL); [exact X1|exact HsQ|].
        apply (add_block_spec levelQ (levelP + 1) i pool _ (E i) s' P (G i)); [exact HlQ|lia| |exact Hpool|apply (HG i Hi)].
        apply (one_lazy_mform rQ k_Q L EL). apply He.
      + apply (ntt_peq rP L k_ELP levelP canon _ (psub (pscale W (E i)) (pmul n (pscale W (b1 i)) s))).
        { intros j Hj. rewrite k_N. fold n. transitivity (psub (pscale W (padd (E i) (G i))) (pmul n (pscale W (b1 i)) s)); [|apply EQ].
          apply psub_peq; [|reflexivity]. destruct (HG i Hi) as [_ HG0]. intros k Hk. unfold pscale, padd. rewrite (HG0 j Hj k Hk). unfold pzero. apply eqm_eq. ring. }
        unfold n. rewrite <- k_N. apply (one_mulsub rP k_P L k_ELP); [exact X2|exact HsP|].
        apply (one_lazy_mform rP k_P L k_ELP). apply (sampled_P levelQ); [exact HlP|exact He].
    - intros i Hi. destruct (HG i Hi) as [G1 G2].
      assert (EQ : forall q, peq n q (padd (psub (padd (E i) (G i)) (pmul n (b1 i) s)) (pmul n (b1 i) s)) (padd (E i) (G i))) by (intros q; apply peq_exact; intros k Hk; unfold padd, psub; ring).
      split.
      + intros q Hq. apply prefix_in in Hq; [|exact HlP]. destruct Hq as (j & Hj & ->).
        rewrite EQ. intros k Hk. unfold padd. rewrite (G2 j Hj k Hk). unfold pzero. apply eqm_eq. ring.
      + intros j Hj. rewrite prefix_length in Hj by exact HlQ. rewrite prefix_nth by lia. rewrite EQ. apply padd_peq; [reflexivity|]. apply G1. lia.
  Qed.
End Keys.
