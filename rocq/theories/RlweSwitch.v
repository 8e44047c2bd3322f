(** Key switching in rlwe. *)
From Verif Require Import Word ModRed Arith Fermat ModRedProofs PolySpec PolyProofs Ring RingProofs NTT NTTProofs RingOps RNSSpec RowProofs OpsProofs OpsProps NTTProps Repr BasisExt CRT BasisProofs BasisProps Automorphism AutoProps Scaling Gadget MarginProofs AccumProofs GadgetSpec GadgetProofs Frlwe FrlweSetup FrlweProps FrlweSwitch RlweSpec Rlwe RlweBase RlweKeys.

(** ** The accumulation is symmetric in its operands *)
Lemma fold_left_ext' {A C} (f g : A -> C -> A) l : (forall a c, f a c = g a c) -> forall a, fold_left f l a = fold_left g l a.
Proof. intros H. induction l as [|c l IH]; intros a; [reflexivity|]. cbn. rewrite H. apply IH. Qed.
Lemma accumulate_comm r level F beta a b pool : accumulate r level F beta a b pool = accumulate r level F beta b a pool.
Proof.
  unfold accumulate. rewrite (fold_left_ext' _ (acc_step r level F b a)); [reflexivity|].
  intros acc i. unfold acc_step. destruct (Nat.eqb i 0).
  - unfold MulCoeffsMontgomeryConstantLvl. rewrite (op2_comm r _ level (a i) (b i)); [reflexivity|]. intros. apply MRedConstant_comm.
  - unfold MulCoeffsMontgomeryConstantAndAddNoModLvl. rewrite (op3_comm r _ level (a i) (b i)); [reflexivity|]. intros. rewrite MRedConstant_comm. reflexivity.
Qed.

Lemma kept_trans level a b c : kept level a b -> kept level b c -> kept level a c.
Proof. intros [H1 H1'] [H2 H2']. split; [lia|]. intros i Hi. rewrite H2' by exact Hi. apply H1'. exact Hi. Qed.
Lemma reduce_kept r level p out : kept level out (ReduceLvl r level p out).
Proof. apply lvl_kept. Qed.
Lemma acc_step_kept r level F a b acc i : kept level acc (acc_step r level F a b acc i).
Proof.
  unfold acc_step. set (x := if Nat.eqb i 0 then _ else _).
  assert (H : kept level acc x) by (unfold x; destruct (Nat.eqb i 0); apply lvl_kept).
  destruct (_ =? _); [|exact H]. apply (kept_trans _ _ _ _ H). apply reduce_kept.
Qed.
Lemma accumulate_kept r level F beta a b pool : (0 < beta)%nat -> kept level pool (accumulate r level F beta a b pool).
Proof.
  intros Hb. unfold accumulate. set (acc := fold_left _ _ _).
  assert (H : kept level pool acc).
  { unfold acc. destruct beta as [|beta]; [lia|]. cbn [seq fold_left]. generalize (seq 1 beta). intros l.
    assert (G : forall l p, kept level p (fold_left (acc_step r level F a b) l p) \/ fold_left (acc_step r level F a b) l p = p).
    { clear. induction l as [|i l IH]; intros p; [right; reflexivity|]. left. cbn [fold_left].
      destruct (IH (acc_step r level F a b p i)) as [H | ->]; [|apply acc_step_kept]. eapply kept_trans; [apply acc_step_kept|exact H]. }
    destruct (G l (acc_step r level F a b pool 0)) as [H | ->]; [|apply acc_step_kept]. eapply kept_trans; [apply acc_step_kept|exact H]. }
  destruct (_ =? _); [exact H|]. apply (kept_trans _ _ _ _ H). apply reduce_kept.
Qed.

(** ** Blocks of moduli *)
Lemma fold_mul_eq l l' : l = l' -> fold_right Z.mul 1 l = fold_right Z.mul 1 l'.
Proof. intros ->. reflexivity. Qed.
Lemma block_prod_of r level alpha i : (level < length (rmods r))%nat -> (0 < alpha)%nat -> (i * alpha <= level)%nat ->
  block_prod r (i * alpha) (Nat.min level (alpha * (i + 1) - 1)) = product (block_of alpha i (prefix r level)).
Proof.
  intros Hl Ha Hi. apply fold_mul_eq. assert (E : (alpha * (i + 1) = i * alpha + alpha)%nat) by lia. rewrite E.
  apply (list_ext _ _ 0).
  - rewrite map_length, seq_length, block_length, prefix_length by exact Hl. lia.
  - intros x Hx. rewrite map_length, seq_length in Hx.
    rewrite (nth_map_any (fun i => mq (rmod r i)) _ x O 0) by (rewrite seq_length; exact Hx).
    rewrite seq_nth by exact Hx. rewrite block_nth by lia. rewrite prefix_nth by lia. reflexivity.
Qed.
Lemma block_sum_18 r lo hi : built_ring 9 r -> (hi < length (rmods r))%nat -> (S hi - lo <= 18)%nat -> block_sum r lo hi <= 2 * W.
Proof.
  intros Hr Hl H18. unfold block_sum.
  assert (H : forall n, (n <= S hi - lo)%nat -> 9 * bigsum n (fun i => mq (rmod r (lo + i))) <= Z.of_nat n * W).
  { induction n as [|n IH]; intros Hn; [cbn; lia|]. cbn [bigsum].
    destruct (built_mod 9 r (lo + n) ltac:(lia) Hr ltac:(lia)) as (_ & Q9 & _). specialize (IH ltac:(lia)). lia. }
  specialize (H (S hi - lo)%nat ltac:(lia)).
  assert (Z.of_nat (S hi - lo) * W <= 18 * W) by (apply Z.mul_le_mono_nonneg_r; [discriminate|lia]). lia.
Qed.

Section Switch.
  Variables (rQ rP : Ring) (L : nat).
  Hypothesis (HP : ring_pair rQ rP) (EL : rN rQ = (2 ^ L)%nat).
  Let n := rN rQ.
  Variables (levelQ levelP : nat).
  Hypothesis (HlQ : (levelQ < length (rmods rQ))%nat) (HlP : (levelP < length (rmods rP))%nat) (H18 : (levelP < 18)%nat).
  Let alpha := (levelP + 1)%nat.
  Let nb := ceil_div (levelQ + 1) alpha.

  Lemma digitB_ok q : 9 * q <= W -> 5 <= q -> 4 * q <= 4 * (W / 9) /\ 4 * (W / 9) + 4 * q <= W /\ 2 * q <= digitB q /\ digitB q + 2 * q + 16384 <= W.
  Proof.
    clear. intros H9 H5. unfold digitB. assert (W99 : 9 * (W / 9) <= W) by (unfold Z.le; vm_compute; discriminate).
    assert (W98 : 16384 <= W / 9) by (unfold Z.le; vm_compute; discriminate).
    assert (q <= W / 9) by (apply Z.div_le_lower_bound; lia). set (w := W / 9) in *. clearbody w. lia.
  Qed.

  Lemma q_mod i : (i <= levelQ)%nat -> 5 <= mq (rmod rQ i) /\ 9 * mq (rmod rQ i) <= W.
  Proof. intros Hi. apply (one_mod rQ (k_Q rQ rP HP)). lia. Qed.
  Lemma p_mod i : (i <= levelP)%nat -> 5 <= mq (rmod rP i) /\ 9 * mq (rmod rP i) <= W.
  Proof. intros Hi. apply (one_mod rP (k_P rQ rP HP)). lia. Qed.

  (** One digit. *)
  Lemma rlwe_digit cN cI A i oQ oP : (i < nb)%nat ->
    rns_ntt rQ L levelQ (fun q => 2 * q) cN A -> rns_repr rQ levelQ canon cI A ->
    exists d, qp_ntt rQ rP L levelQ levelP digitB (DecomposeSingleNTT rQ rP levelQ levelP alpha i cN cI oQ oP) d /\
      forall k, (k < n)%nat -> lift_of (product (block_of alpha i (prefix rQ levelQ))) (A k) (d k).
  Proof.
    intros Hi HN HI. assert (Ha : (0 < alpha)%nat) by (unfold alpha; clear; lia).
    apply ceil_div_lt in Hi; [|exact Ha].
    pose proof (k_Q rQ rP HP) as BQ. pose proof (k_P rQ rP HP) as BP. pose proof (k_N rQ rP HP) as EN.
    pose proof (decompose_digit rQ rP (one_2 rQ BQ) (one_2 rP BP) (eq_sym EN) levelQ levelP alpha i 2 canon cI oQ oP A) as D.
    cbv zeta in D. unfold DecomposeSingleNTT.
    destruct (DecomposeAndSplit (NewDecomposer rQ rP) levelQ levelP alpha i cI oQ oP) as [uQ uP].
    set (lo := (i * alpha)%nat) in *. set (hi := Nat.min levelQ (alpha * (i + 1) - 1)) in *.
    assert (Hhi : (lo <= hi <= levelQ)%nat) by (unfold lo, hi; clear - Hi Ha; nia).
    destruct D as (_ & _ & d & Hd & HdQ & HdP).
    - unfold alpha; clear; lia.
    - exact HlP.
    - unfold alpha. clear - HlP. lia.
    - unfold alpha. clear - H18. lia.
    - unfold lo. clear - Hi. lia.
    - lia.
    - apply block_sum_18; [exact BQ|clear - HlQ Hhi; lia|]. unfold lo, hi, alpha. clear - H18. nia.
    - intros x Hx. destruct (q_mod x Hx). unfold canon. lia.
    - intros x Hx. destruct (p_mod x Hx). lia.
    - exact HI.
    - exists d.
      assert (HB' : forall q, 9 * q <= W -> 5 <= q -> (if Nat.eqb lo hi then canon (mq (rmod rQ lo)) else (2 + 2) * q) <= 4 * (W / 9)).
      { intros q H9 H5. destruct (digitB_ok _ H9 H5) as [X _]. destruct (q_mod lo ltac:(clear - Hhi; lia)) as [Y5 Y9]. destruct (digitB_ok _ Y9 Y5) as [Y _]. unfold canon. destruct (Nat.eqb lo hi); lia. }
      split; [split; cbn [fst snd]|].
      + destruct HdQ as (_ & U1 & U2). destruct HN as (_ & N1 & N2). split; [exact HlQ|]. split; [rewrite lvl_length; clear - U1; lia|].
        assert (NT : rns_ntt rQ L levelQ digitB (NTTLazyLvl rQ levelQ uQ uQ) d).
        { unfold digitB. apply (t_nttlazy rQ L (one_2 rQ BQ) EL levelQ (fun _ => 4 * (W / 9))).
          - intros x Hx. destruct (q_mod x Hx) as [H5 H9]. destruct (digitB_ok _ H9 H5) as (X & Y & _). split; assumption.
          - apply (rns_weaken rQ levelQ (fun q => if Nat.eqb lo hi then canon (mq (rmod rQ lo)) else (2 + 2) * q)); [|split; [exact HlQ|split; [exact U1|exact U2]]].
            intros x Hx. destruct (q_mod x Hx) as [H5 H9]. apply HB'; assumption. }
        intros x Hx. rewrite lvl_nth_lt by (clear - Hx; lia). replace (i * (levelP + 1))%nat with lo by reflexivity.
        destruct (Nat.eqb_spec x lo) as [-> | Hne].
        * unfold prow. destruct (q_mod lo Hx) as [H5 H9]. destruct (digitB_ok _ H9 H5) as (_ & _ & Y & _).
          specialize (N2 lo Hx). destruct N2 as [N2 N3]. split; [exact N2|]. intros k Hk. destruct (N3 k Hk) as [N4 N5]. split; [clear - N4 Y; lia|].
          apply (eqm_trans _ _ _ _ N5). apply values_peq. rewrite <- EL. intros k' Hk'. symmetry. apply (proj1 (Hd k' Hk')). clear - Hhi. lia.
        * destruct NT as (_ & _ & NT). specialize (NT x Hx). unfold NTTLazyLvl in NT. rewrite lvl_nth_lt in NT by (clear - Hx; lia). exact NT.
      + unfold digitB. apply (t_nttlazy rP L (one_2 rP BP) (k_ELP rQ rP L HP EL) levelP (fun _ => 4 * (W / 9))).
        * intros x Hx. destruct (p_mod x Hx) as [H5 H9]. destruct (digitB_ok _ H9 H5) as (X & Y & _). split; assumption.
        * revert HdP. apply rns_weaken. intros x Hx. destruct (p_mod x Hx) as [H5 H9]. apply HB'; assumption.
      + intros k Hk. destruct (Hd k Hk) as [D1 D2]. rewrite <- (block_prod_of rQ levelQ alpha i HlQ Ha ltac:(unfold lo in Hhi; clear - Hhi; lia)). fold lo hi.
        split.
        * assert (PR : forall q, In q (map (fun i => mq (rmod rQ i)) (seq lo (S hi - lo))) -> exists x, (lo <= x <= hi)%nat /\ q = mq (rmod rQ x)).
          { intros q Hq. apply in_map_iff in Hq. destruct Hq as (x & <- & Hx). apply in_seq in Hx. exists x. split; [clear - Hx; lia|reflexivity]. }
          assert (X : (block_prod rQ lo hi | d k - A k)).
          { apply (crt_divide (map (fun i => mq (rmod rQ i)) (seq lo (S hi - lo)))).
            - intros q Hq. destruct (PR q Hq) as (x & Hx & ->). apply (sw_prime rQ _ BQ). rewrite <- (nth_moduli rQ x) by (clear - Hx Hhi HlQ; lia). apply nth_In. rewrite <- moduli_length. clear - Hx Hhi HlQ. lia.
            - replace (map (fun i => mq (rmod rQ i)) (seq lo (S hi - lo))) with (block_of alpha i (prefix rQ levelQ)); [apply block_nodup; unfold prefix; apply nodup_firstn; apply moduli_nodup; exact BQ|].
              symmetry. apply (list_ext _ _ 0).
              + rewrite map_length, seq_length, block_length, prefix_length by exact HlQ. unfold lo, hi. clear - Hi Ha. nia.
              + intros x Hx. rewrite map_length, seq_length in Hx.
                rewrite (nth_map_any (fun i => mq (rmod rQ i)) _ x O 0) by (rewrite seq_length; exact Hx).
                rewrite seq_nth by exact Hx. unfold lo, hi in Hx. rewrite block_nth by (clear - Hx Ha Hi; nia). rewrite prefix_nth by (clear - Hx Hi Ha HlQ; nia). reflexivity.
            - intros q Hq. destruct (PR q Hq) as (x & Hx & ->). apply eqm_divide; [|apply D1; exact Hx]. destruct (q_mod x ltac:(clear - Hx Hhi; lia)). lia. }
          destruct X as [c Hc]. apply (eqm_intro _ _ _ c). clear - Hc. lia.
        * destruct (Nat.eqb_spec lo hi) as [E|E]; [|exact D2].
          assert (EB : block_prod rQ lo hi = mq (rmod rQ lo)).
          { unfold block_prod. rewrite <- E. replace (S lo - lo)%nat with 1%nat by (clear; lia). cbn [seq map fold_right]. ring. }
          rewrite EB. unfold canon in D2. clear - D2. lia.
  Qed.

  Lemma both_domains_ok isNTT cx A pool : rns_dom rQ L levelQ isNTT cx A ->
    let '(cN, cI) := both_domains rQ levelQ cx isNTT pool in
    rns_ntt rQ L levelQ (fun q => 2 * q) cN A /\ rns_repr rQ levelQ canon cI A.
  Proof.
    pose proof (k_Q rQ rP HP) as BQ. unfold rns_dom, both_domains. destruct isNTT; intros HA.
    - assert (H2 : rns_ntt rQ L levelQ (fun q => 2 * q) cx A).
      { revert HA. apply (ntt_weaken rQ L EL). intros i Hi. destruct (q_mod i Hi). unfold canon. lia. }
      split; [exact H2|]. apply (t_invntt rQ L (one_2 rQ BQ) EL); [intros i Hi; destruct (q_mod i Hi); lia|exact H2].
    - split; [|exact HA]. apply (ntt_weaken rQ L EL _ canon); [intros i Hi; destruct (q_mod i Hi); unfold canon; lia|].
      apply (one_ntt rQ BQ L EL). revert HA. apply rns_weaken. intros i Hi. unfold canon. lia.
  Qed.

  (** The products of the digits with the key, and their division by P. *)
  Lemma key_product (dig : nat -> rows * rows) (key0 key1 : list (rows * rows)) d b0 b1 c0Q c0P c1Q c1P :
    (forall i, (i < nb)%nat -> qp_ntt rQ rP L levelQ levelP digitB (dig i) (d i)) ->
    (forall i, (i < nb)%nat -> qp_ntt rQ rP L levelQ levelP canon (nth i key0 ([], [])) (pscale W (b0 i)) /\
        qp_ntt rQ rP L levelQ levelP canon (nth i key1 ([], [])) (pscale W (b1 i))) ->
    exists x0 X0 x1 X1, keyswitch_accumulate rQ rP levelQ levelP dig key0 key1 c0Q c0P c1Q c1P = Some ((x0, X0), (x1, X1)) /\
      qp_ntt rQ rP L levelQ levelP canon (x0, X0) (psum nb (fun i => pmul n (d i) (b0 i))) /\
      qp_ntt rQ rP L levelQ levelP canon (x1, X1) (psum nb (fun i => pmul n (d i) (b1 i))) /\
      kept levelQ c0Q x0 /\ kept levelQ c1Q x1 /\ kept levelP c0P X0 /\ kept levelP c1P X1.
  Proof.
    intros Hd Hk. pose proof (k_Q rQ rP HP) as BQ. pose proof (k_P rQ rP HP) as BP.
    assert (Ha : (0 < alpha)%nat) by (unfold alpha; clear; lia).
    assert (Hnb : (0 < nb)%nat) by (apply ceil_div_pos; clear - Ha; lia).
    assert (AQ : forall (key : list (rows * rows)) b c, (forall i, (i < nb)%nat -> qp_ntt rQ rP L levelQ levelP canon (nth i key ([], [])) (pscale W (b i))) ->
      1 <= wshr (OverflowMargin (moduli rQ) levelQ) 1 /\
      rns_ntt rQ L levelQ canon (accumulate rQ levelQ (wshr (OverflowMargin (moduli rQ) levelQ) 1) nb (fun i => fst (nth i key ([], []))) (fun i => fst (dig i)) c) (psum nb (fun i => pmul n (d i) (b i)))).
    { intros key b c Hb. rewrite accumulate_comm. apply (lazy_accumulation rQ (one_2 rQ BQ) L EL levelQ digitB nb); [exact HlQ|exact Hnb| |].
      - intros i Hi. destruct (q_mod i Hi) as [H5 H9]. destruct (digitB_ok _ H9 H5) as (_ & _ & X & Y). split; [lia|exact Y].
      - intros j Hj. split; [apply (Hd j Hj)|apply (Hb j Hj)]. }
    assert (AP : forall (key : list (rows * rows)) b c, (forall i, (i < nb)%nat -> qp_ntt rQ rP L levelQ levelP canon (nth i key ([], [])) (pscale W (b i))) ->
      1 <= wshr (OverflowMargin (moduli rP) levelP) 1 /\
      rns_ntt rP L levelP canon (accumulate rP levelP (wshr (OverflowMargin (moduli rP) levelP) 1) nb (fun i => snd (nth i key ([], []))) (fun i => snd (dig i)) c) (psum nb (fun i => pmul n (d i) (b i)))).
    { intros key b c Hb. rewrite accumulate_comm. unfold n. rewrite <- (k_N rQ rP HP). apply (lazy_accumulation rP (one_2 rP BP) L (k_ELP rQ rP L HP EL) levelP digitB nb); [exact HlP|exact Hnb| |].
      - intros i Hi. destruct (p_mod i Hi) as [H5 H9]. destruct (digitB_ok _ H9 H5) as (_ & _ & X & Y). split; [lia|exact Y].
      - intros j Hj. split; [apply (Hd j Hj)|apply (Hb j Hj)]. }
    unfold keyswitch_accumulate. fold alpha nb.
    destruct (AQ key0 b0 c0Q (fun i Hi => proj1 (Hk i Hi))) as [FQ A1]. destruct (AQ key1 b1 c1Q (fun i Hi => proj2 (Hk i Hi))) as [_ A2].
    destruct (AP key0 b0 c0P (fun i Hi => proj1 (Hk i Hi))) as [FP A3]. destruct (AP key1 b1 c1P (fun i Hi => proj2 (Hk i Hi))) as [_ A4].
    set (fQ := wshr (OverflowMargin (moduli rQ) levelQ) 1) in *. set (fP := wshr (OverflowMargin (moduli rP) levelP) 1) in *.
    assert (E : ((fQ =? 0) || (fP =? 0))%bool = false) by (apply orb_false_iff; split; apply Z.eqb_neq; clear - FQ FP; lia).
    rewrite E. do 4 eexists. split; [reflexivity|]. split; [split; [exact A1|exact A3]|]. split; [split; [exact A2|exact A4]|].
    repeat split; apply accumulate_kept; exact Hnb.
  Qed.

  (** The division by P of a sum of products, in either domain. *)
  Lemma down_ntt x X y S : rns_ntt rQ L levelQ canon x S -> rns_ntt rP L levelP canon X S ->
    exists D, rns_ntt rQ L levelQ canon (ModDownQPtoQNTT (NewBasisExtender rQ rP) levelQ levelP x X y) D /\
      kept levelQ y (ModDownQPtoQNTT (NewBasisExtender rQ rP) levelQ levelP x X y) /\
      forall k, (k < n)%nat -> lift_of (product (prefix rP levelP)) (S k) (S k - product (prefix rP levelP) * D k).
  Proof.
    pose proof (k_Q rQ rP HP) as BQ. pose proof (k_P rQ rP HP) as BP. pose proof (k_N rQ rP HP) as EN.
    intros HX HX'. apply (moddown_ntt rQ rP (built_le 9 6 rQ ltac:(lia) BQ) (built_le 9 6 rP ltac:(lia) BP) (eq_sym EN) (proj2 (proj2 (proj2 HP))) L EL levelQ levelP 2).
    - clear - H18. lia.
    - lia.
    - apply lsum_18; assumption.
    - intros i Hi. destruct (q_mod i Hi). lia.
    - revert HX. apply (ntt_weaken rQ L EL). intros i Hi. destruct (q_mod i Hi). unfold canon. lia.
    - revert HX'. apply (ntt_weaken rP L (k_ELP rQ rP L HP EL)). intros i Hi. destruct (p_mod i Hi). unfold canon. lia.
  Qed.
  Lemma down_coeffs x X y S : rns_ntt rQ L levelQ canon x S -> rns_ntt rP L levelP canon X S ->
    let out := ModDownQPtoQ (NewBasisExtender rQ rP) levelQ levelP (InvNTTLazyLvl rQ levelQ x x) (InvNTTLazyLvl rP levelP X X) y in
    exists D, rns_repr rQ levelQ canon out D /\ kept levelQ y out /\
      forall k, (k < n)%nat -> lift_of (product (prefix rP levelP)) (S k) (S k - product (prefix rP levelP) * D k).
  Proof.
    pose proof (k_Q rQ rP HP) as BQ. pose proof (k_P rQ rP HP) as BP. pose proof (k_N rQ rP HP) as EN.
    intros HX HX'. apply (moddown_quotient rQ rP (one_2 rQ BQ) (one_2 rP BP) (eq_sym EN) (proj2 (proj2 (proj2 HP))) levelQ levelP 2).
    - clear - H18. lia.
    - lia.
    - apply lsum_18; assumption.
    - intros i Hi. destruct (q_mod i Hi). lia.
    - apply (t_invnttlazy rQ L (one_2 rQ BQ) EL); [intros i Hi; destruct (q_mod i Hi); lia|].
      revert HX. apply (ntt_weaken rQ L EL). intros i Hi. destruct (q_mod i Hi). unfold canon. lia.
    - apply (rns_weaken rP levelP (fun q => 2 * q)); [intros i Hi; destruct (p_mod i Hi); lia|].
      apply (t_invnttlazy rP L (one_2 rP BP) (k_ELP rQ rP L HP EL)); [intros i Hi; destruct (p_mod i Hi); lia|].
      revert HX'. apply (ntt_weaken rP L (k_ELP rQ rP L HP EL)). intros i Hi. destruct (p_mod i Hi). unfold canon. lia.
  Qed.

  Lemma restrict_ntt r l l' B p X : (l <= l')%nat -> rns_ntt r L l' B p X -> rns_ntt r L l B p X.
  Proof. clear. intros Hl (H1 & H2 & H3). split; [lia|]. split; [lia|]. intros i Hi. apply H3. lia. Qed.
  Lemma restrict_qp levelK B p X : (levelQ <= levelK)%nat -> qp_ntt rQ rP L levelK levelP B p X -> qp_ntt rQ rP L levelQ levelP B p X.
  Proof. intros Hl [H1 H2]. split; [apply (restrict_ntt rQ levelQ levelK); assumption|exact H2]. Qed.

  (** The algebra common to the two ways of switching keys. *)
  Lemma rlwe_algebra levelK A s s' d b0 b1 e D0 D1 :
    (levelQ <= levelK)%nat -> (levelK < length (rmods rQ))%nat ->
    gadget_key n alpha (ceil_div (levelK + 1) alpha) (prefix rQ levelK) (prefix rP levelP) b0 b1 e s s' ->
    (forall i k, (i < nb)%nat -> (k < n)%nat -> lift_of (product (block_of alpha i (prefix rQ levelQ))) (A k) (d i k)) ->
    let S0 := psum nb (fun i => pmul n (d i) (b0 i)) in let S1 := psum nb (fun i => pmul n (d i) (b1 i)) in
    (forall k, (k < n)%nat -> lift_of (product (prefix rP levelP)) (S0 k) (S0 k - product (prefix rP levelP) * D0 k)) ->
    (forall k, (k < n)%nat -> lift_of (product (prefix rP levelP)) (S1 k) (S1 k - product (prefix rP levelP) * D1 k)) ->
    exists rho0 rho1 E, switched n nb levelQ (prefix rQ levelQ) (prefix rP levelP) D0 D1 A s s' d e rho0 rho1 E.
  Proof.
    intros HK HK' Hgk Hd S0 S1 H0 H1. pose proof (k_Q rQ rP HP) as BQ. pose proof (k_P rQ rP HP) as BP.
    assert (Ha : (0 < alpha)%nat) by (unfold alpha; clear; lia).
    assert (pQ : forall q, In q (prefix rQ levelQ) -> prime q) by (intros q Hq; apply (sw_prime rQ _ BQ); apply firstn_in' in Hq; exact Hq).
    assert (pP : forall q, In q (prefix rP levelP) -> prime q) by (intros q Hq; apply (sw_prime rP _ BP); apply firstn_in' in Hq; exact Hq).
    assert (posQ : forall q, In q (prefix rQ levelQ) -> 0 < q) by (intros q Hq; apply pQ in Hq; apply prime_ge_2 in Hq; lia).
    apply (gadget_switch n alpha nb levelQ (prefix rQ levelQ) (prefix rP levelP) A s s' d b0 b1 e D0 D1 pzero pzero).
    - exact pP.
    - apply nodup_firstn, moduli_nodup. exact BP.
    - exact pQ.
    - intros q Hq Hq'. destruct (proj2 (proj2 (proj2 HP))) with q; [apply firstn_in' in Hq; exact Hq|apply firstn_in' in Hq'; exact Hq'].
    - exact Ha.
    - rewrite prefix_length by exact HlQ. clear; lia.
    - apply ceil_div_idx; [exact Ha|clear; lia].
    - intros j Hj k Hk. assert (Hi : (j / alpha < nb)%nat) by (apply ceil_div_idx; [exact Ha|clear - Hj; lia]).
      apply (lift_dvd (product (block_of alpha (j / alpha) (prefix rQ levelQ)))); [apply block_product_pos; exact posQ| |apply Hd; assumption].
      apply block_product_dvd; [exact Ha|]. rewrite prefix_length by exact HlQ. clear - Hj. lia.
    - intros i Hi. destruct (Hgk i) as [G1 G2].
      { assert (nb <= ceil_div (levelK + 1) alpha)%nat by (apply ceil_div_mono; [exact Ha|clear - HK; lia]). clear - H Hi. lia. }
      split; [exact G1|]. intros j Hj. rewrite prefix_length in Hj by exact HlQ. specialize (G2 j). rewrite prefix_length in G2 by exact HK'.
      rewrite prefix_nth in G2 |- * by (clear - Hj HK HlQ HK'; lia). apply G2. clear - Hj HK. lia.
    - exact H0.
    - exact H1.
  Qed.

  (** C32. *)
  Lemma rlwe_switch levelK cx isNTT A (key0 key1 : list (rows * rows)) poolInv c2 pool1P pool2P p0 p1 e s s' :
    (levelQ <= levelK)%nat -> (levelK < length (rmods rQ))%nat -> rns_dom rQ L levelQ isNTT cx A ->
    switching_key_ok rQ rP L levelK levelP key0 key1 e s s' ->
    exists c0 c1 C0 C1 d rho0 rho1 E,
      SwitchKeysInPlace rQ rP levelQ levelP cx isNTT key0 key1 poolInv c2 pool1P pool2P p0 p1 = Some (c0, c1) /\
      rns_dom rQ L levelQ isNTT c0 C0 /\ rns_dom rQ L levelQ isNTT c1 C1 /\ kept levelQ p0 c0 /\ kept levelQ p1 c1 /\
      (forall i k, (i < nb)%nat -> (k < n)%nat -> lift_of (product (block_of alpha i (prefix rQ levelQ))) (A k) (d i k)) /\
      switched n nb levelQ (prefix rQ levelQ) (prefix rP levelP) C0 C1 A s s' d e rho0 rho1 E.
  Proof.
    intros HK HK' HA (_ & _ & b0 & b1 & Hkey & Hgk). fold alpha n in Hkey, Hgk. pose proof (k_Q rQ rP HP) as BQ. pose proof (k_P rQ rP HP) as BP. pose proof (k_N rQ rP HP) as EN.
    assert (Ha : (0 < alpha)%nat) by (unfold alpha; clear; lia).
    assert (Hmono : (nb <= ceil_div (levelK + 1) alpha)%nat) by (apply ceil_div_mono; [exact Ha|clear - HK; lia]).
    pose proof (both_domains_ok isNTT cx A poolInv HA) as HB. unfold SwitchKeysInPlace, SwitchKeysInPlaceNoModDown. fold alpha.
    destruct (both_domains rQ levelQ cx isNTT poolInv) as [cN cI]. destruct HB as [HcN HcI].
    destruct (finite_choice pzero nb (fun i d => qp_ntt rQ rP L levelQ levelP digitB (DecomposeSingleNTT rQ rP levelQ levelP alpha i cN cI (fst c2) (snd c2)) d /\
      forall k, (k < n)%nat -> lift_of (product (block_of alpha i (prefix rQ levelQ))) (A k) (d k))) as [d Hd].
    { intros i Hi. apply rlwe_digit; assumption. }
    destruct (key_product (fun i => DecomposeSingleNTT rQ rP levelQ levelP alpha i cN cI (fst c2) (snd c2)) key0 key1 d b0 b1 p0 pool1P p1 pool2P) as (x0 & X0 & x1 & X1 & E1 & [R1 R1'] & [R2 R2'] & K1 & K2 & K3 & K4).
    { intros i Hi. apply (Hd i Hi). }
    { intros i Hi. destruct (Hkey i ltac:(clear - Hi Hmono; lia)) as [Y0 Y1]. split; apply (restrict_qp levelK); assumption. }
    rewrite E1. clear E1. cbn [fst snd] in R1, R1', R2, R2'.
    assert (FIN : exists c0 c1 D0 D1,
      (if isNTT then Some (ModDownQPtoQNTT (NewBasisExtender rQ rP) levelQ levelP x0 X0 x0, ModDownQPtoQNTT (NewBasisExtender rQ rP) levelQ levelP x1 X1 x1)
       else Some (ModDownQPtoQ (NewBasisExtender rQ rP) levelQ levelP (InvNTTLazyLvl rQ levelQ x0 x0) (InvNTTLazyLvl rP levelP X0 X0) (InvNTTLazyLvl rQ levelQ x0 x0),
                  ModDownQPtoQ (NewBasisExtender rQ rP) levelQ levelP (InvNTTLazyLvl rQ levelQ x1 x1) (InvNTTLazyLvl rP levelP X1 X1) (InvNTTLazyLvl rQ levelQ x1 x1))) = Some (c0, c1) /\
      rns_dom rQ L levelQ isNTT c0 D0 /\ rns_dom rQ L levelQ isNTT c1 D1 /\ kept levelQ x0 c0 /\ kept levelQ x1 c1 /\
      (forall k, (k < n)%nat -> lift_of (product (prefix rP levelP)) (psum nb (fun i => pmul n (d i) (b0 i)) k) (psum nb (fun i => pmul n (d i) (b0 i)) k - product (prefix rP levelP) * D0 k)) /\
      (forall k, (k < n)%nat -> lift_of (product (prefix rP levelP)) (psum nb (fun i => pmul n (d i) (b1 i)) k) (psum nb (fun i => pmul n (d i) (b1 i)) k - product (prefix rP levelP) * D1 k))).
    { unfold rns_dom. destruct isNTT.
      - destruct (down_ntt x0 X0 x0 _ R1 R1') as (D0 & U1 & U2 & U3). destruct (down_ntt x1 X1 x1 _ R2 R2') as (D1 & V1 & V2 & V3).
        do 2 eexists. exists D0, D1. split; [reflexivity|]. split; [exact U1|]. split; [exact V1|]. split; [exact U2|]. split; [exact V2|]. split; [exact U3|exact V3].
      - destruct (down_coeffs x0 X0 (InvNTTLazyLvl rQ levelQ x0 x0) _ R1 R1') as (D0 & U1 & U2 & U3). destruct (down_coeffs x1 X1 (InvNTTLazyLvl rQ levelQ x1 x1) _ R2 R2') as (D1 & V1 & V2 & V3).
        do 2 eexists. exists D0, D1. split; [reflexivity|]. split; [exact U1|]. split; [exact V1|].
        split; [apply (kept_trans _ _ (InvNTTLazyLvl rQ levelQ x0 x0)); [apply lvl_kept|exact U2]|]. split; [apply (kept_trans _ _ (InvNTTLazyLvl rQ levelQ x1 x1)); [apply lvl_kept|exact V2]|]. split; [exact U3|exact V3]. }
    destruct FIN as (c0 & c1 & D0 & D1 & F1 & F2 & F3 & F4 & F5 & F6 & F7).
    destruct (rlwe_algebra levelK A s s' d b0 b1 e D0 D1 HK HK' Hgk (fun i k Hi Hk => proj2 (Hd i Hi) k Hk) F6 F7) as (rho0 & rho1 & E & HE).
    exists c0, c1, D0, D1, d, rho0, rho1, E. split; [exact F1|]. split; [exact F2|]. split; [exact F3|].
    split; [exact (kept_trans _ _ _ _ K1 F4)|]. split; [exact (kept_trans _ _ _ _ K2 F5)|]. split; [|exact HE].
    intros i k Hi Hk. apply (proj2 (Hd i Hi)). exact Hk.
  Qed.
End Switch.
