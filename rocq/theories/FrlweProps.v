(** The external product, the switching of keys and the conversion of keys of frlwe. *)
From Verif Require Import Word ModRed Arith ModRedProofs PolySpec PolyProofs Ring RingProofs NTT NTTProofs RingOps RNSSpec RowProofs OpsProofs OpsProps Repr BasisExt CRT BasisProps AutoProps Gadget AccumProofs Frlwe FrlweSetup.

Lemma lprod_all r ms : moduli r = ms -> (0 < length ms)%nat -> lprod r (length ms - 1) = fold_right Z.mul 1 ms.
Proof. intros E H. unfold lprod. rewrite E. f_equal. rewrite firstn_all2; [reflexivity|lia]. Qed.

Lemma bigQ_prod r ms : built_ring 2 r -> moduli r = ms -> rbigQ r = fold_right Z.mul 1 ms.
Proof. intros H <-. destruct (built_ring_wf 2 r ltac:(lia) H) as (L & Hw & _). apply (wfr_Q _ _ _ Hw). Qed.

(** The shift by T/2 keeps a centred value away from the multiples of T. *)
Lemma centred_shift T s : 5 <= T -> 4 * Z.abs s <= T ->
  (s + T / 2) mod T = s + T / 2 /\ T <= 2 ^ 42 * ((s + T / 2) mod T) /\ T <= 2 ^ 42 * (T - (s + T / 2) mod T).
Proof.
  intros HT Hs. assert (E : (s + T / 2) mod T = s + T / 2) by (apply Z.mod_small; lia). rewrite E.
  split; [reflexivity|]. split; lia.
Qed.

Lemma prod_ge5 l : (forall q, In q l -> 5 <= q) -> (0 < length l)%nat -> 5 <= fold_right Z.mul 1 l.
Proof.
  induction l as [|a l IH]; intros H Hl; [cbn in Hl; lia|]. cbn [fold_right].
  pose proof (H a (or_introl eq_refl)) as Ha. destruct l as [|b l]; [cbn; lia|].
  specialize (IH (fun q Hq => H q (or_intror Hq)) ltac:(cbn; lia)).
  set (x := fold_right Z.mul 1 (b :: l)) in *. clearbody x. nia.
Qed.

Lemma nodup_app_disjoint {A} (l l' : list A) x : NoDup (l ++ l') -> In x l -> In x l' -> False.
Proof.
  induction l as [|a l IH]; intros H H1 H2; [exact H1|]. cbn in H. inversion H; subst. destruct H1 as [-> | H1].
  - apply H4 || apply H3. apply in_app_iff. right. exact H2.
  - apply IH; assumption.
Qed.

Section Product.
  Variables (N : Z) (Qs Ps Ts : list Z) (gamma : nat) (p : FParams) (ks : KeySwitcher).
  Hypothesis (HS : sizes_ok N Qs Ps Ts gamma) (Hp : fp_ok p N Qs Ps Ts gamma).
  Hypothesis (Hks : ks_ok Qs Ps Ts gamma p ks).
  Variable (L : nat).
  Hypothesis (EL : rN (fpQ p) = (2 ^ L)%nat).
  Let n := rN (fpQ p).
  Let alpha := length Ps.
  Let Rs := Ps ++ Qs.
  Let T := fold_right Z.mul 1 Ts.
  Let levelT := (length (rmods (fpT p)) - 1)%nat.

  Lemma pf_gamma : (0 < gamma)%nat. Proof. clear - HS. destruct HS as (_ & _ & Hg & _). lia. Qed.
  Lemma pf_alpha : (0 < alpha)%nat. Proof. apply (fk_hP _ _ _ _ _ _ Hp). Qed.
  Lemma pf_levelT : levelT = (length Ts - 1)%nat /\ (levelT < length (rmods (fpT p)))%nat /\ (levelT < 18)%nat.
  Proof.
    assert (H := fk_hT _ _ _ _ _ _ Hp). assert (H' := proj2 (proj2 (proj2 (proj2 HS)))).
    unfold levelT. rewrite moduli_length, (fk_mT _ _ _ _ _ _ Hp). clear - H H'. lia.
  Qed.
  Lemma pf_T2 : built_ring 2 (fpT p). Proof. apply (built_le 9); [lia|apply (fk_T _ _ _ _ _ _ Hp)]. Qed.
  Lemma pf_Q2 : built_ring 2 (fpQ p). Proof. apply (built_le 9); [lia|apply (fk_Q _ _ _ _ _ _ Hp)]. Qed.
  Lemma pf_P2 : built_ring 2 (fpP p). Proof. apply (built_le 9); [lia|apply (fk_P _ _ _ _ _ _ Hp)]. Qed.
  Lemma pf_ELT : rN (fpT p) = (2 ^ L)%nat. Proof. rewrite (fk_nT _ _ _ _ _ _ Hp). exact EL. Qed.
  Lemma pf_bigT : rbigQ (fpT p) = T. Proof. apply bigQ_prod; [apply pf_T2|apply (fk_mT _ _ _ _ _ _ Hp)]. Qed.
  Lemma pf_lprodT : lprod (fpT p) levelT = T.
  Proof. rewrite (proj1 pf_levelT). apply lprod_all; [apply (fk_mT _ _ _ _ _ _ Hp)|apply (fk_hT _ _ _ _ _ _ Hp)]. Qed.
  Lemma pf_T5 : 5 <= T.
  Proof.
    unfold T. apply prod_ge5; [|apply (fk_hT _ _ _ _ _ _ Hp)]. intros q Hq. rewrite <- (fk_mT _ _ _ _ _ _ Hp) in Hq.
    unfold moduli in Hq. apply in_map_iff in Hq. destruct Hq as (m & <- & Hm). apply (In_nth _ _ modp0) in Hm.
    destruct Hm as (i & Hi & <-). destruct (built_mod 2 (fpT p) i ltac:(lia) pf_T2 Hi) as (Q5 & _). exact Q5.
  Qed.
  Lemma pf_T9 i : (i <= levelT)%nat -> 5 <= mq (rmod (fpT p) i) /\ 9 * mq (rmod (fpT p) i) <= W.
  Proof.
    intros Hi. destruct pf_levelT as (_ & Hl & _).
    destruct (built_mod 9 (fpT p) i ltac:(lia) (fk_T _ _ _ _ _ _ Hp) ltac:(clear - Hi Hl; lia)) as (Q5 & Q9 & _). split; assumption.
  Qed.

  (** One block: from the accumulated T-polynomial to the residues modulo the moduli of the block. *)
  Lemma to_block_spec j levelRi acc poolR S :
    (j * gamma < length Rs)%nat -> (levelRi < gamma)%nat -> (levelRi < length Rs - j * gamma)%nat ->
    rns_ntt (fpT p) L levelT canon acc S -> (forall k, (k < n)%nat -> 4 * Z.abs (S k) <= T) ->
    rns_repr (nth j (ksRingRi ks) ring0) levelRi canon (to_block ks levelT levelRi j acc poolR) (fun k => S k + T / 2).
  Proof.
    intros Hj Hl1 Hl2 Hacc HSb. destruct (kk_Ri _ _ _ _ _ _ Hks j Hj) as (B9 & Em & En).
    destruct pf_levelT as (E1 & H1 & H18).
    assert (HlR : (levelRi < length (rmods (nth j (ksRingRi ks) ring0)))%nat).
    { rewrite moduli_length, Em, block_length. fold Rs. clear - Hl1 Hl2. lia. }
    assert (B2 : built_ring 2 (nth j (ksRingRi ks) ring0)) by (apply (built_le 9); [lia|exact B9]).
    assert (MR : forall i, (i <= levelRi)%nat -> 9 * mq (rmod (nth j (ksRingRi ks) ring0) i) <= W /\ 5 <= mq (rmod (nth j (ksRingRi ks) ring0) i)).
    { intros i Hi. destruct (built_mod 9 _ i ltac:(lia) B9 ltac:(clear - Hi HlR; lia)) as (Q5 & Q9 & _). split; assumption. }
    unfold to_block. rewrite (kk_p _ _ _ _ _ _ Hks).
    assert (X1 : rns_repr (fpT p) levelT (fun q => 2 * q) (InvNTTLazyLvl (fpT p) levelT acc acc) S).
    { apply (t_invnttlazy (fpT p) L pf_T2 pf_ELT).
      - intros i Hi. destruct (pf_T9 i Hi). lia.
      - revert Hacc. apply (ntt_weaken (fpT p) L pf_ELT). intros i Hi. destruct (pf_T9 i Hi). unfold canon. lia. }
    assert (X2 : rns_repr (fpT p) levelT (fun q => 2 * q) (AddLvl (fpT p) levelT (InvNTTLazyLvl (fpT p) levelT acc acc) (ksHalfT ks) (InvNTTLazyLvl (fpT p) levelT acc acc)) (fun k => S k + T / 2)).
    { pose proof (kk_halfT _ _ _ _ _ _ Hks) as Hh. rewrite pf_bigT in Hh. rewrite <- E1 in Hh.
      revert X1 Hh. apply (c_add (fpT p) levelT pf_T2 (fun q => 2 * q) canon (fun q => 2 * q) _ _ _ S (fun _ => T / 2)).
      intros i Hi. destruct (pf_T9 i Hi). unfold canon. lia. }
    rewrite (kk_TRi _ _ _ _ _ _ Hks j Hj).
    set (x := AddLvl _ _ _ _ _) in *.
    destruct (modup_exact (fpT p) (nth j (ksRingRi ks) ring0) pf_T2 B2) with (levelQ := levelT) (levelP := levelRi) (t := 2) (polQ := x) (polP := poolR) (X := fun k => S k + T / 2) as [X3 _].
    - rewrite En. apply (fk_nT _ _ _ _ _ _ Hp).
    - exact HlR.
    - clear - H18. lia.
    - lia.
    - apply lsum_18; [apply (fk_T _ _ _ _ _ _ Hp)|exact H1|exact H18].
    - intros i Hi. destruct (MR i Hi). lia.
    - revert X2. apply rns_weaken. intros i Hi. destruct (pf_T9 i Hi). lia.
    - rewrite pf_lprodT. intros k Hk. rewrite (fk_nT _ _ _ _ _ _ Hp) in Hk. apply (centred_shift T (S k) pf_T5 (HSb k Hk)).
    - apply (rns_repr_ext _ _ _ _ (fun k => (S k + T / 2) mod T)).
      { intros k Hk. rewrite En in Hk. apply (centred_shift T (S k) pf_T5 (HSb k Hk)). }
      rewrite pf_lprodT in X3. revert X3. apply (c_reduce _ levelRi B2 (fun q => (2 + 2) * q)).
      intros i Hi. destruct (MR i Hi). lia.
  Qed.

  (** C36. *)
  Lemma key_conversion conv lR coeffsQ coeffsP polyTs b :
    (forall i, (i * gamma < length Rs)%nat -> is_block n gamma i Rs (nth i lR ring0)) ->
    (forall i, (i * gamma < length Rs)%nat -> nth i conv be0 = NewBasisExtender (nth i lR ring0) (fpT p)) ->
    rns_repr (fpQ p) (length Qs - 1) canon coeffsQ b -> rns_repr (fpP p) (length Ps - 1) canon coeffsP b ->
    forall j, (j * gamma < length Rs)%nat ->
    exists beta, rns_ntt (fpT p) L levelT canon (nth j (polyQPToPolyTs conv p coeffsQ coeffsP polyTs) []) (pscale W beta) /\
      forall k, (k < n)%nat -> lift_of (fold_right Z.mul 1 (block_of gamma j Rs)) (b k) (beta k).
  Proof.
    intros HlR Hconv (A1 & A2 & A3) (B1 & B2 & B3) j Hj. destruct pf_levelT as (E1 & H1 & H18). pose proof pf_gamma as Hg. pose proof pf_alpha as Ha.
    unfold polyQPToPolyTs. cbv zeta. rewrite (fp_alpha _ _ _ _ _ _ Hp), (fk_gamma _ _ _ _ _ _ Hp).
    replace (fMaxLevel p + length Ps + 1)%nat with (length Rs) by (symmetry; apply (fp_total _ _ _ _ _ _ Hp)). fold alpha levelT.
    match goal with |- context [nth j (map ?f (seq 0 ?m)) []] => rewrite (nth_map_seq f m j [] (proj2 (ceil_div_lt _ _ _ Hg) Hj)) end.
    set (levelRi := (Nat.min gamma (length Rs - j * gamma) - 1)%nat). set (src := map _ _).
    rewrite (Hconv j Hj). destruct (HlR j Hj) as (R9 & Em & En).
    assert (Hgam := proj1 (proj2 (proj2 HS))).
    assert (HlRi : (levelRi < length (rmods (nth j lR ring0)))%nat).
    { rewrite moduli_length, Em, block_length. unfold levelRi. clear - Hj Hg. lia. }
    assert (R2 : built_ring 2 (nth j lR ring0)) by (apply (built_le 9); [lia|exact R9]).
    destruct (modup_lift (nth j lR ring0) (fpT p) R2 pf_T2) with (levelQ := levelRi) (levelP := levelT) (t := 2) (polQ := src) (polP := nth j polyTs []) (X := b) as [(d & D1 & D2 & _) _].
    - rewrite En. symmetry. apply (fk_nT _ _ _ _ _ _ Hp).
    - exact H1.
    - unfold levelRi. clear - Hgam. lia.
    - lia.
    - apply lsum_18; [assumption|assumption|]. unfold levelRi. clear - Hgam. lia.
    - intros i Hi. destruct (pf_T9 i Hi) as [H0 H0']. clear - H0 H0'. lia.
    - split; [exact HlRi|]. split; [unfold src; rewrite map_length, seq_length; clear; lia|]. intros i Hi.
      assert (Hi2 : (j * gamma + i < length Rs)%nat) by (unfold levelRi in Hi; clear - Hi Hg Hj; lia).
      unfold src. rewrite (nth_map_seq _ (Datatypes.S levelRi) i [] ltac:(clear - Hi; lia)). cbv zeta. unfold prow. rewrite En.
      assert (Ex : mq (rmod (nth j lR ring0) i) = nth (j * gamma + i) Rs 0).
      { destruct (rmod_nth _ _ i Em) as [_ ->].
        - rewrite <- Em, <- moduli_length. clear - Hi HlRi. lia.
        - apply block_nth. unfold levelRi in Hi. clear - Hi Hg. lia. }
      rewrite Ex. destruct (built_mod 9 _ i ltac:(lia) R9 ltac:(clear - Hi HlRi; lia)) as (Q5 & Q9 & _). rewrite Ex in Q5, Q9.
      set (idx := (j * gamma + i)%nat) in *.
      destruct (Nat.ltb_spec idx alpha) as [Hx|Hx].
      + destruct (B3 idx ltac:(fold alpha; clear - Hx; lia)) as [B4 B5]. rewrite (fk_nP _ _ _ _ _ _ Hp) in B4, B5.
        destruct (rmod_nth _ _ idx (fk_mP _ _ _ _ _ _ Hp) Hx) as [_ EP]. rewrite EP in B5. unfold canon in B5.
        assert (ER : nth idx Rs 0 = nth idx Ps 0) by (unfold Rs; rewrite app_nth1 by exact Hx; reflexivity).
        rewrite ER in *. split; [exact B4|]. intros k Hk. destruct (B5 k Hk) as [B Eq]. split; [clear - B Q5 Q9; lia|exact Eq].
      + assert (Hx2 : (idx - alpha < length Qs)%nat) by (unfold Rs in Hi2; rewrite app_length in Hi2; fold alpha in Hi2; clear - Hx Hi2; lia).
        destruct (A3 (idx - alpha)%nat ltac:(clear - Hx2; lia)) as [A4 A5].
        destruct (rmod_nth _ _ (idx - alpha)%nat (fk_mQ _ _ _ _ _ _ Hp) Hx2) as [_ EQ]. rewrite EQ in A5. unfold canon in A5.
        assert (ER : nth idx Rs 0 = nth (idx - alpha) Qs 0) by (unfold Rs; rewrite app_nth2 by exact Hx; reflexivity).
        rewrite ER in *. split; [exact A4|]. intros k Hk. destruct (A5 k Hk) as [B Eq]. split; [clear - B Q5 Q9; lia|exact Eq].
    - exists d. split.
      + apply (n_mform (fpT p) L pf_T2 pf_ELT levelT canon); [intros i Hi; destruct (pf_T9 i Hi); unfold canon; lia|].
        apply (t_ntt (fpT p) L pf_T2 pf_ELT levelT canon); [intros i Hi; destruct (pf_T9 i Hi); unfold canon; lia|].
        revert D2. apply c_reduce; [exact pf_T2|]. intros i Hi. destruct (pf_T9 i Hi). lia.
      + intros k Hk. specialize (D1 k ltac:(rewrite En; exact Hk)). unfold lprod in D1. rewrite Em in D1.
        rewrite firstn_all2 in D1 by (rewrite block_length; unfold levelRi; clear; lia). exact D1.
  Qed.

  Variable (levelQ : nat).
  Hypothesis (HlQ : (levelQ < length Qs)%nat).

  (** C34. *)
  Lemma external_product aPolyTs bg poolT poolR poolQ poolP c (Bx : Z -> Z) (d b : nat -> poly) (beta : nat -> nat -> poly) :
    let nb := ceil_div (levelQ + 1) alpha in
    (forall i, (i <= levelT)%nat -> 0 <= Bx (mq (rmod (fpT p) i)) /\ Bx (mq (rmod (fpT p) i)) + 2 * mq (rmod (fpT p) i) + 16384 <= W) ->
    (forall i, (i < nb)%nat -> rns_ntt (fpT p) L levelT Bx (nth i aPolyTs []) (d i)) ->
    (forall i j, (i < nb)%nat -> (j * gamma < alpha + levelQ + 1)%nat ->
       rns_ntt (fpT p) L levelT canon (nth j (nth i bg []) []) (pscale W (beta i j))) ->
    (forall i idx, (i < nb)%nat -> (idx < alpha + levelQ + 1)%nat -> peq n (nth idx Rs 0) (beta i (idx / gamma)%nat) (b i)) ->
    (forall j k, (j * gamma < alpha + levelQ + 1)%nat -> (k < n)%nat ->
       4 * Z.abs (psum nb (fun i => pmul n (d i) (beta i j)) k) <= T) ->
    exists c' D, externalProduct ks levelQ aPolyTs bg poolT poolR poolQ poolP c = Some c' /\
      kept levelQ c c' /\ rns_repr (fpQ p) levelQ canon c' D /\
      let S := psum nb (fun i => pmul n (d i) (b i)) in
      let P := fold_right Z.mul 1 Ps in
      forall k, (k < n)%nat -> lift_of P (S k) (S k - P * D k) /\ quotient_of P (S k) (D k).
  Proof.
    intros nb HBx Hd Hb Hbeta Hsize.
    destruct pf_levelT as (E1 & H1 & H18). pose proof pf_gamma as Hg. pose proof pf_alpha as Ha.
    assert (Hnb : (0 < nb)%nat) by (apply ceil_div_pos; [exact Ha|lia]).
    assert (Halen : (alpha + levelQ + 1 <= length Rs)%nat) by (unfold Rs; rewrite app_length; fold alpha; clear - HlQ; lia).
    unfold externalProduct. rewrite (kk_p _ _ _ _ _ _ Hks). rewrite (fp_alpha _ _ _ _ _ _ Hp), (fk_gamma _ _ _ _ _ _ Hp).
    fold alpha levelT nb.
    assert (HF := proj1 (margin_spec (fpT p) levelT pf_T2 H1)). unfold TiOverflowMargin.
    set (F := wshr (OverflowMargin (moduli (fpT p)) levelT) 1) in *.
    destruct (Z.eqb_spec F 0) as [E0|_]; [exfalso; clear - HF E0; lia|].
    set (S := psum nb (fun i => pmul n (d i) (b i))).
    set (Sj := fun j => psum nb (fun i => pmul n (d i) (beta i j))).
    set (blk := fun j => to_block ks levelT (Nat.min gamma (levelQ + alpha + 1 - j * gamma) - 1) j
                  (accumulate (fpT p) levelT F nb (fun i => nth i aPolyTs []) (fun i => nth j (nth i bg []) []) (nth j poolT [])) poolR).
    (* one block *)
    assert (BLK : forall j, (j * gamma < alpha + levelQ + 1)%nat ->
      rns_repr (nth j (ksRingRi ks) ring0) (Nat.min gamma (levelQ + alpha + 1 - j * gamma) - 1) canon (blk j) (fun k => Sj j k + T / 2)).
    { intros j Hj. apply to_block_spec.
      - clear - Hj Halen. lia.
      - clear - Hg Hj. lia.
      - clear - Hg Hj Halen. lia.
      - destruct (lazy_accumulation (fpT p) pf_T2 L pf_ELT levelT Bx nb (fun i => nth i aPolyTs []) (fun i => nth j (nth i bg []) []) d (fun i => beta i j) (nth j poolT [])) as [_ A].
        + exact H1.
        + exact Hnb.
        + exact HBx.
        + intros i Hi. split; [apply Hd; exact Hi|apply Hb; assumption].
        + rewrite (fk_nT _ _ _ _ _ _ Hp) in A. exact A.
      - intros k Hk. apply Hsize; assumption. }
    (* the row of modulus idx *)
    assert (ROW : forall idx, (idx < alpha + levelQ + 1)%nat ->
      row_repr n (nth idx Rs 0) (nth idx Rs 0) (prow (nth (idx / gamma) (map blk (seq 0 (ceil_div (levelQ + alpha + 1) gamma))) []) (idx mod gamma)) (fun k => S k + T / 2)).
    { intros idx Hidx. set (j := (idx / gamma)%nat).
      assert (Hdm := Nat.div_mod idx gamma ltac:(clear - Hg; lia)). fold j in Hdm.
      assert (Hm := Nat.mod_upper_bound idx gamma ltac:(clear - Hg; lia)).
      set (x := (idx mod gamma)%nat) in *.
      assert (Hj : (j * gamma < alpha + levelQ + 1)%nat) by (clear - Hdm Hidx; lia).
      assert (Hjc : (j < ceil_div (levelQ + alpha + 1) gamma)%nat) by (apply ceil_div_lt; [exact Hg|clear - Hj; lia]).
      rewrite (nth_map_seq blk _ j [] Hjc). unfold prow.
      destruct (BLK j Hj) as (L1 & L2 & L3).
      specialize (L3 x ltac:(clear - Hm Hdm Hidx Hg; lia)).
      destruct (kk_Ri _ _ _ _ _ _ Hks j ltac:(fold Rs; clear - Hj Halen; lia)) as (_ & Em & En). fold Rs in Em.
      assert (Ex : mq (rmod (nth j (ksRingRi ks) ring0) x) = nth idx Rs 0).
      { destruct (rmod_nth _ _ x Em) as [_ ->].
        - rewrite block_length. clear - Hm Hdm Hidx Halen Hg. lia.
        - rewrite block_nth by exact Hm. f_equal. clear - Hdm. lia. }
      unfold canon in L3. rewrite Ex, En in L3. fold n in L3.
      revert L3. apply row_repr_peq. intros k Hk. apply eqm_add; [|reflexivity].
      unfold Sj, S. revert k Hk. change (peq n (nth idx Rs 0) (psum nb (fun i => pmul n (d i) (beta i j))) (psum nb (fun i => pmul n (d i) (b i)))).
      apply psum_peq. intros i Hi. apply pmul_peq; [reflexivity|]. apply (Hbeta i idx Hi Hidx). }
    assert (MQ : forall i, (i <= levelQ)%nat -> mq (rmod (fpQ p) i) = nth (alpha + i) Rs 0 /\ 5 <= mq (rmod (fpQ p) i) /\ 9 * mq (rmod (fpQ p) i) <= W).
    { intros i Hi. destruct (rmod_nth _ _ i (fk_mQ _ _ _ _ _ _ Hp) ltac:(clear - Hi HlQ; lia)) as [Hl E].
      destruct (built_mod 9 (fpQ p) i ltac:(lia) (fk_Q _ _ _ _ _ _ Hp) Hl) as (Q5 & Q9 & _). split; [|split; assumption].
      rewrite E. unfold Rs. rewrite app_nth2 by (fold alpha; lia). f_equal. fold alpha. lia. }
    assert (MP : forall i, (i < alpha)%nat -> mq (rmod (fpP p) i) = nth i Rs 0 /\ 5 <= mq (rmod (fpP p) i) /\ 9 * mq (rmod (fpP p) i) <= W).
    { intros i Hi. destruct (rmod_nth _ _ i (fk_mP _ _ _ _ _ _ Hp) Hi) as [Hl E].
      destruct (built_mod 9 (fpP p) i ltac:(lia) (fk_P _ _ _ _ _ _ Hp) Hl) as (Q5 & Q9 & _). split; [|split; assumption].
      rewrite E. unfold Rs. rewrite app_nth1 by exact Hi. reflexivity. }
    set (blocks := map _ _) in ROW. set (blocks' := map _ _). assert (EB : blocks' = blocks) by reflexivity. clearbody blocks'. subst blocks'.
    clearbody blocks.
    set (row := fun idx => prow (nth (idx / gamma) blocks []) (idx mod gamma)) in *.
    change (fun i => row i) with row.
    assert (LQ : (levelQ < length (rmods (fpQ p)))%nat) by (rewrite moduli_length, (fk_mQ _ _ _ _ _ _ Hp); exact HlQ).
    assert (LP : (alpha - 1 < length (rmods (fpP p)))%nat) by (rewrite moduli_length, (fk_mP _ _ _ _ _ _ Hp); fold alpha; clear - Ha; lia).
    assert (XQ : rns_repr (fpQ p) levelQ canon (lvl (Datatypes.S levelQ) (fun i => row (alpha + i)%nat) poolQ) (padd S (fun _ => T / 2))).
    { apply rns_g. apply g_lvl; [exact LQ|]. intros i Hi. destruct (MQ i Hi) as (E & _). unfold canon. rewrite E. apply ROW. clear - Hi. lia. }
    assert (XP : rns_repr (fpP p) (alpha - 1) canon (lvl (Datatypes.S (alpha - 1)) row poolP) (padd S (fun _ => T / 2))).
    { apply rns_g. apply g_lvl; [exact LP|]. intros i Hi. destruct (MP i ltac:(clear - Hi Ha; lia)) as (E & _). unfold canon.
      rewrite E, (fk_nP _ _ _ _ _ _ Hp). apply ROW. clear - Hi Ha. lia. }
    set (q0 := lvl _ _ poolQ) in *. set (p0 := lvl _ _ poolP) in *. clearbody q0 p0.
    assert (HQ' := kk_halfQ _ _ _ _ _ _ Hks). assert (HP' := kk_halfP _ _ _ _ _ _ Hks). rewrite pf_bigT in HQ', HP'.
    assert (HQ'' : rns_repr (fpQ p) levelQ canon (ksHalfQ ks) (fun _ => T / 2)).
    { revert HQ'. apply (g_level _ _ _ _ _ (coefD (fun _ => T / 2))). clear - HlQ. lia. }
    assert (YQ : rns_repr (fpQ p) levelQ (fun q => 2 * q) (SubLvl (fpQ p) levelQ q0 (ksHalfQ ks) q0) S).
    { assert (Z1 : rns_repr (fpQ p) levelQ (fun q => 2 * q) (SubLvl (fpQ p) levelQ q0 (ksHalfQ ks) q0) (psub (padd S (fun _ => T / 2)) (fun _ => T / 2))).
      { revert XQ HQ''. apply c_sub; [apply pf_Q2|]. intros i Hi. destruct (MQ i Hi) as (_ & ? & ?). unfold canon. lia. }
      revert Z1. apply rns_repr_ext. intros k Hk. unfold psub, padd. ring. }
    assert (YP : rns_repr (fpP p) (alpha - 1) (fun _ => W) (SubLvl (fpP p) (alpha - 1) p0 (ksHalfP ks) p0) S).
    { assert (Z1 : rns_repr (fpP p) (alpha - 1) (fun q => 2 * q) (SubLvl (fpP p) (alpha - 1) p0 (ksHalfP ks) p0) (psub (padd S (fun _ => T / 2)) (fun _ => T / 2))).
      { revert XP HP'. apply c_sub; [apply pf_P2|]. intros i Hi. destruct (MP i ltac:(clear - Hi Ha; lia)) as (_ & ? & ?). unfold canon. lia. }
      apply (rns_weaken (fpP p) _ (fun q => 2 * q)); [intros i Hi; destruct (MP i ltac:(clear - Hi Ha; lia)) as (_ & ? & ?); lia|].
      revert Z1. apply rns_repr_ext. intros k Hk. unfold psub, padd. ring. }
    rewrite (kk_convQP _ _ _ _ _ _ Hks).
    destruct (moddown_quotient (fpQ p) (fpP p) pf_Q2 pf_P2 (eq_sym (fk_nP _ _ _ _ _ _ Hp))) with (levelQ := levelQ) (levelP := (alpha - 1)%nat) (t := 2)
      (p1Q := SubLvl (fpQ p) levelQ q0 (ksHalfQ ks) q0) (p1P := SubLvl (fpP p) (alpha - 1) p0 (ksHalfP ks) p0) (p2Q := c) (A := S) as (D & R1 & R2 & R3).
    - intros q Hq1 Hq2. rewrite (fk_mQ _ _ _ _ _ _ Hp) in Hq1. rewrite (fk_mP _ _ _ _ _ _ Hp) in Hq2.
      apply (nodup_app_disjoint _ _ q (fk_nodup _ _ _ _ _ _ Hp)); assumption.
    - assert (H' := proj1 (proj2 (proj2 (proj2 HS)))). fold alpha in H'. clear - H'. lia.
    - lia.
    - apply lsum_18; [apply (fk_P _ _ _ _ _ _ Hp)|exact LP|]. assert (H' := proj1 (proj2 (proj2 (proj2 HS)))). fold alpha in H'. clear - H' Ha. lia.
    - intros i Hi. destruct (MQ i Hi) as (_ & ? & ?). lia.
    - exact YQ.
    - exact YP.
    - eexists. exists D. split; [reflexivity|]. split; [exact R2|]. split; [exact R1|].
      set (P := fold_right Z.mul 1 Ps). intros k Hk. specialize (R3 k Hk). unfold alpha in R3. rewrite (lprod_all _ Ps (fk_mP _ _ _ _ _ _ Hp) Ha) in R3. fold P in R3.
      split; [exact R3|]. apply lift_quotient; [|exact R3].
      unfold P. rewrite <- (lprod_all _ Ps (fk_mP _ _ _ _ _ _ Hp) Ha). apply (lsum_nonneg (fpP p) pf_P2). exact LP.
  Qed.

  (** The digits of a polynomial. *)
  Definition digitB (t : Z) : Z := 4 * (W / 9) + 2 * t.

  Lemma digit_spec j a A poolT : (j * alpha < levelQ + 1)%nat -> rns_repr (fpQ p) levelQ canon a A ->
    exists d, rns_ntt (fpT p) L levelT digitB (digitT ks levelQ j a poolT) d /\
      forall k, (k < n)%nat -> lift_of (fold_right Z.mul 1 (block_of alpha j (firstn (levelQ + 1) Qs))) (A k) (d k).
  Proof.
    intros Hj HA. destruct pf_levelT as (E1 & H1 & H18). pose proof pf_alpha as Ha.
    assert (W9 : 0 < W / 9) by reflexivity. assert (W99 : 9 * (W / 9) <= W) by (unfold Z.le; vm_compute; discriminate).
    assert (H9 : forall x, 9 * x <= W -> x <= W / 9) by (intros x Hx; apply Z.div_le_lower_bound; lia).
    assert (NTT : forall x d, rns_repr (fpT p) levelT (fun _ => 4 * (W / 9)) x d -> rns_ntt (fpT p) L levelT digitB (NTTLazyLvl (fpT p) levelT x x) d).
    { intros x d Hx. unfold digitB. apply (t_nttlazy (fpT p) L pf_T2 pf_ELT levelT (fun _ => 4 * (W / 9))); [|exact Hx].
      intros i Hi. destruct (pf_T9 i Hi) as [_ H]. specialize (H9 _ H). clear - H9 H W9 W99. lia. }
    assert (MQ : forall i, (i <= levelQ)%nat -> mq (rmod (fpQ p) i) = nth i Qs 0 /\ 5 <= mq (rmod (fpQ p) i) /\ 9 * mq (rmod (fpQ p) i) <= W).
    { intros i Hi. destruct (rmod_nth _ _ i (fk_mQ _ _ _ _ _ _ Hp) ltac:(clear - Hi HlQ; lia)) as [Hl E].
      destruct (built_mod 9 (fpQ p) i ltac:(lia) (fk_Q _ _ _ _ _ _ Hp) Hl) as (Q5 & Q9 & _). split; [exact E|split; assumption]. }
    destruct HA as (A1 & A2 & A3).
    unfold digitT. rewrite (kk_p _ _ _ _ _ _ Hks), (fp_alpha _ _ _ _ _ _ Hp). fold alpha levelT.
    set (levelQj := (Nat.min alpha (levelQ + 1 - j * alpha) - 1)%nat).
    assert (EP : fold_right Z.mul 1 (block_of alpha j (firstn (levelQ + 1) Qs)) = fold_right Z.mul 1 (firstn (Datatypes.S levelQj) (block_of alpha j Qs))).
    { f_equal. unfold block_of. rewrite firstn_firstn. rewrite skipn_firstn_comm, firstn_firstn. f_equal. unfold levelQj. clear - Ha Hj. lia. }
    destruct (Nat.eqb_spec alpha 1) as [Ea|Ea].
    - exists (co (nth j a [])). assert (Hj' : (j <= levelQ)%nat) by (clear - Hj Ea; lia).
      destruct (A3 j Hj') as [A4 A5]. destruct (MQ j Hj') as (EQ & Q5 & Q9). unfold canon in A5. split.
      + apply NTT. apply rns_g. apply g_lvl; [exact H1|]. intros i Hi. rewrite (fk_nT _ _ _ _ _ _ Hp). split; [exact A4|].
        intros k Hk. destruct (A5 k Hk) as [B _]. specialize (H9 _ Q9). split; [clear - B H9 W9; unfold prow; lia|reflexivity].
      + intros k Hk. destruct (A5 k Hk) as [B Eq]. rewrite EP.
        assert (EB : firstn (Datatypes.S levelQj) (block_of alpha j Qs) = [nth j Qs 0]).
        { apply (list_ext _ _ 0); [rewrite firstn_length, block_length; cbn [length]; unfold levelQj; clear - Hj HlQ Ea; lia|].
          intros i Hi. rewrite firstn_length, block_length in Hi. assert (i = O) by (clear - Hi Ea; lia). subst i.
          rewrite nth_firstn by (clear; lia). rewrite block_nth by (clear - Ea; lia). cbn [nth]. f_equal. clear - Ea. lia. }
        rewrite EB. cbn [fold_right]. rewrite Z.mul_1_r, <- EQ. unfold co. split; [exact Eq|]. clear - B. lia.
    - assert (HjR : (j * alpha < length Qs)%nat) by (clear - Hj HlQ; lia).
      destruct (kk_Qj _ _ _ _ _ _ Hks j HjR) as (B9 & Em & En). rewrite (kk_QjT _ _ _ _ _ _ Hks j HjR).
      assert (HlR : (levelQj < length (rmods (nth j (ksRingQj ks) ring0)))%nat).
      { rewrite moduli_length, Em, block_length. unfold levelQj. fold alpha. clear - Hj HlQ Ha. lia. }
      assert (B2 : built_ring 2 (nth j (ksRingQj ks) ring0)) by (apply (built_le 9); [lia|exact B9]).
      assert (H18' := proj1 (proj2 (proj2 (proj2 HS)))). fold alpha in H18'.
      assert (Hl18 : (levelQj < 18)%nat) by (unfold levelQj; clear - H18' Ha; lia).
      set (src := map (fun i => prow a (j * alpha + i)) (seq 0 (Datatypes.S levelQj))).
      destruct (modup_lift (nth j (ksRingQj ks) ring0) (fpT p) B2 pf_T2) with (levelQ := levelQj) (levelP := levelT) (t := 2) (polQ := src) (polP := poolT) (X := A) as [(d & D1 & D2 & _) _].
      + rewrite En. symmetry. apply (fk_nT _ _ _ _ _ _ Hp).
      + exact H1.
      + clear - Hl18. lia.
      + lia.
      + apply lsum_18; assumption.
      + intros i Hi. destruct (pf_T9 i Hi) as [H0 H0']. clear - H0 H0'. lia.
      + split; [exact HlR|]. split; [unfold src; rewrite map_length, seq_length; clear; lia|]. intros i Hi.
        assert (Hi2 : (j * alpha + i <= levelQ)%nat) by (unfold levelQj in Hi; clear - Hi Ha Hj; lia).
        unfold src. rewrite (nth_map_seq (fun i => prow a (j * alpha + i)) (Datatypes.S levelQj) i [] ltac:(clear - Hi; lia)). unfold prow. rewrite En.
        destruct (A3 _ Hi2) as [A4 A5]. destruct (MQ _ Hi2) as (EQ & Q5 & Q9). unfold canon in A5.
        assert (Ex : mq (rmod (nth j (ksRingQj ks) ring0) i) = mq (rmod (fpQ p) (j * alpha + i))).
        { destruct (rmod_nth _ _ i Em) as [_ ->].
          - rewrite <- Em, <- moduli_length. clear - Hi HlR. lia.
          - rewrite EQ. apply block_nth. fold alpha. unfold levelQj in Hi. clear - Hi Ha. lia. }
        split; [exact A4|]. intros k Hk. rewrite Ex. destruct (A5 k Hk) as [B Eq]. split; [clear - B Q5 Q9; lia|exact Eq].
      + exists d. split.
        * apply NTT. revert D2. apply rns_weaken. intros i Hi. destruct (pf_T9 i Hi) as [_ H]. specialize (H9 _ H). clear - H9. lia.
        * intros k Hk. rewrite EP. specialize (D1 k ltac:(rewrite En; exact Hk)). unfold lprod in D1. rewrite Em in D1. exact D1.
  Qed.
End Product.
