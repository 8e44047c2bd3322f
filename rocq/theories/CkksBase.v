(** Decryption of ciphertexts in the NTT domain. *)
From Verif Require Import Word ModRed Arith Fermat ModRedProofs PolySpec PolyProofs Ring RingProofs NTT NTTProofs RingOps RNSSpec RowProofs OpsProofs OpsProps NTTProps Repr BasisExt CRT BasisProofs BasisProps Automorphism AutoProps Scaling Gadget GadgetSpec GadgetProofs Frlwe FrlweSetup FrlweProps FrlweSwitch RlweSpec Rlwe RlweBase RlweKeys RlweSwitch RlweEnc RlweTop Ckks CkksSpec.

Ltac qb BQ := let i := fresh "i" in let Hi := fresh "Hi" in intros i Hi; destruct (one_mod _ BQ i ltac:(lia)); unfold canon; lia.

Section Dec.
  Variables (rQ : Ring).
  Hypothesis (BQ : built_ring 9 rQ).
  Variables (L : nat).
  Hypothesis (EL : rN rQ = (2 ^ L)%nat).
  Let n := rN rQ.
  Let B2 : built_ring 2 rQ := one_2 rQ BQ.

  Section Loop.
    Variables (level : nat) (B : Z -> Z) (ct : list rows) (sk : rows) (C : nat -> poly) (s : poly).
    Hypothesis (Hl : (level < length (rmods rQ))%nat).
    Hypothesis (HB : forall i, (i <= level)%nat -> mq (rmod rQ i) <= B (mq (rmod rQ i)) /\ B (mq (rmod rQ i)) + mq (rmod rQ i) <= W).
    Hypothesis (Hct : forall j, (j < length ct)%nat -> rns_ntt rQ L level B (nth j ct []) (C j)).
    Hypothesis (Hsk : rns_ntt rQ L level canon sk (pscale W s)).

    Lemma dec_loop m : forall pt pool i, (i <= length ct - 1)%nat -> (m = length ct - i)%nat -> (0 < m)%nat ->
      rns_ntt rQ L level B pt (tail_sum n C s i m) -> length pt = S level ->
      let pt' := fst (fold_left (decrypt_step rQ level ct true sk) (rev (seq 1 i)) (pt, pool)) in
      rns_ntt rQ L level B pt' (tail_sum n C s 0 (length ct)) /\ length pt' = S level.
    Proof.
      intros pt pool i. revert m pt pool. induction i as [|i IH]; intros m pt pool Hi Hm Hm0 Hpt Hlen.
      - cbn [seq rev fold_left fst]. replace (length ct) with m by lia. split; assumption.
      - replace (rev (seq 1 (S i))) with (S i :: rev (seq 1 i)) by (rewrite (seq_S i 1), rev_app_distr; reflexivity).
        cbn [fold_left].
        set (x := MulCoeffsMontgomeryLvl rQ level pt sk pt).
        assert (Hx : rns_ntt rQ L level canon x (pmul n (tail_sum n C s (S i) m) s)).
        { apply (n_mulmont rQ L B2 EL level B canon); [|exact Hpt|exact Hsk]. intros j Hj. destruct (one_mod rQ BQ j ltac:(lia)). specialize (HB j Hj). unfold canon.
          rewrite Z.mul_comm. apply Z.mul_le_mono_nonneg_l; lia. }
        assert (Lx : length x = S level) by (unfold x, MulCoeffsMontgomeryLvl, op2; rewrite lvl_length; lia).
        pose proof (Hct i ltac:(lia)) as Hci.
        set (y := AddLvl rQ level x (nth i ct []) x).
        assert (Hy : rns_ntt rQ L level B y (tail_sum n C s i (S m))).
        { apply (ntt_peq rQ L EL level B _ (padd (pmul n (tail_sum n C s (S i) m) s) (C i))); [intros j Hj; symmetry; apply tail_sum_step|].
          unfold y. apply (n_add rQ L B2 EL level canon B); [|exact Hx|exact Hci]. intros j Hj. destruct (one_mod rQ BQ j ltac:(lia)). specialize (HB j Hj). unfold canon. lia. }
        assert (Ly : length y = S level) by (unfold y, AddLvl, op2; rewrite lvl_length; lia).
        set (z := if Z.land (Z.of_nat (S i)) 7 =? 7 then ReduceLvl rQ level y y else y).
        assert (Hz : rns_ntt rQ L level B z (tail_sum n C s i (S m))).
        { unfold z. destruct (_ =? _); [|exact Hy]. apply (ntt_weaken rQ L EL level canon); [intros j Hj; apply (HB j Hj)|].
          apply (n_reduce rQ L B2 EL level B); [|exact Hy]. intros j Hj. destruct (one_mod rQ BQ j ltac:(lia)). specialize (HB j Hj). lia. }
        assert (Lz : length z = S level) by (unfold z; destruct (_ =? _); [unfold ReduceLvl, op1; rewrite lvl_length; lia|exact Ly]).
        assert (E : exists pool', decrypt_step rQ level ct true sk (pt, pool) (S i) = (z, pool')).
        { unfold decrypt_step. replace (S i - 1)%nat with i by lia. unfold z, y. eexists; reflexivity. }
        destruct E as [pool' E]. rewrite E.
        apply (IH (S m) z pool'); [lia|lia|lia|exact Hz|exact Lz].
    Qed.

    Lemma dec_correct pt ptNTT pool : (0 < length ct)%nat -> level = Nat.min (length (nth 0 ct []) - 1) (length pt - 1) ->
      (forall q, B q = q) \/ ((length ct - 1) mod 8 <> 7)%nat ->
      rns_dom rQ L level ptNTT (Decrypt rQ sk ct true pt ptNTT pool) (psum (length ct) (fun i => pmul n (C i) (ppow n s i))).
    Proof.
      intros Hc Elv Hd. unfold Decrypt. rewrite <- Elv.
      set (d := (length ct - 1)%nat) in *. set (pt1 := CopyValuesLvl _ _ _).
      assert (H1 : rns_ntt rQ L level B pt1 (tail_sum n C s d 1)).
      { apply (ntt_peq rQ L EL level B _ (C d)).
        - intros j Hj k Hk. unfold tail_sum, psum. cbn [bigsum]. rewrite (Nat.add_0_r d). cbn [ppow]. rewrite (pmul_1_r n _ (C d) k Hk). apply eqm_eq. ring.
        - pose proof (Hct d ltac:(unfold d; lia)) as Hci. unfold pt1.
          destruct Hci as (A1 & A2 & A3). split; [exact A1|]. split; [unfold CopyValuesLvl; rewrite lvl_length; lia|].
          intros i Hi. unfold CopyValuesLvl. rewrite lvl_nth_lt by lia. apply A3. exact Hi. }
      assert (L1 : length pt1 = S level) by (unfold pt1, CopyValuesLvl; rewrite lvl_length, firstn_length; lia).
      destruct (dec_loop 1 pt1 pool d ltac:(unfold d; lia) ltac:(unfold d; lia) ltac:(lia) H1 L1) as [H2 L2].
      destruct (fold_left (decrypt_step rQ level ct true sk) (rev (seq 1 d)) (pt1, pool)) as [pt2 pool2]. cbn [fst] in H2, L2.
      change (tail_sum n C s 0 (length ct)) with (psum (length ct) (fun i => pmul n (C i) (ppow n s i))) in H2.
      set (V := psum (length ct) (fun i => pmul n (C i) (ppow n s i))) in *.
      assert (Hred : rns_ntt rQ L level canon (ReduceLvl rQ level pt2 pt2) V).
      { apply (n_reduce rQ L B2 EL level B); [|exact H2]. intros j Hj. destruct (one_mod rQ BQ j ltac:(lia)). specialize (HB j Hj). lia. }
      assert (H4 : rns_ntt rQ L level canon (if Z.land (Z.of_nat d) 7 =? 7 then pt2 else ReduceLvl rQ level pt2 pt2) V).
      { destruct (Z.eqb_spec (Z.land (Z.of_nat d) 7) 7) as [E7|E7]; [|exact Hred].
        destruct Hd as [Hd|Hd]; [revert H2; apply (ntt_weaken rQ L EL); intros i Hi; rewrite Hd; unfold canon; lia|].
        exfalso. apply Hd. change 7 with (2 ^ 3 - 1) in E7 at 1. rewrite land_mask in E7 by lia. change (2 ^ 3) with (Z.of_nat 8) in E7.
        rewrite <- Nat2Z.inj_mod in E7. lia. }
      unfold rns_dom. destruct ptNTT; [exact H4|].
      apply (t_invntt rQ L B2 EL); [qb BQ|]. apply (ntt_weaken rQ L EL level canon); [qb BQ|exact H4].
    Qed.
  End Loop.

  Lemma secret_level sk s level : (level < length (rmods rQ))%nat -> secret rQ L sk s -> rns_ntt rQ L level canon sk (pscale W s).
  Proof. intros Hl (H1 & H2 & H3). unfold maxLevel in *. split; [exact Hl|]. split; [lia|]. intros i Hi. apply H3. lia. Qed.

  (** c_0 + c_1 s + ... *)
  Definition dval (s : poly) (C : nat -> poly) (m : nat) : poly := psum m (fun i => pmul n (C i) (ppow n s i)).

  (** A ciphertext with the polynomials it represents. *)
  Definition ct_repr (level : nat) (B : Z -> Z) (c : Ct) (C : nat -> poly) : Prop :=
    (level < length (rmods rQ))%nat /\ (0 < length (ctV c) <= 7)%nat /\ ctNTT c = true /\
    forall j, (j < length (ctV c))%nat -> length (comp c j) = S level /\ rns_ntt rQ L level B (comp c j) (C j).

  Lemma ct_repr_level level B c C : ct_repr level B c C -> ctLevel c = level.
  Proof. intros (_ & H2 & _ & H4). unfold ctLevel. destruct (H4 0%nat (proj1 H2)) as [-> _]. lia. Qed.
  Lemma ct_ok_level level B c : ct_ok rQ level B c -> ctLevel c = level.
  Proof. intros (_ & H2 & _ & H4). unfold ctLevel. destruct (H4 0%nat (proj1 H2)) as [-> _]. lia. Qed.

  Lemma decrypts_iff level B c C sk s M : ct_repr level B c C -> fits rQ B -> secret rQ L sk s ->
    (decrypts rQ L sk c M <-> forall i, (i <= level)%nat -> peq n (mq (rmod rQ i)) (dval s C (length (ctV c))) M).
  Proof.
    intros HC HB Hs. pose proof (ct_repr_level _ _ _ _ HC) as El. destruct HC as (H1 & H2 & H3 & H4).
    assert (D : forall pt ptNTT pool, (level < length pt)%nat -> rns_dom rQ L level ptNTT (Decrypt rQ sk (ctV c) (ctNTT c) pt ptNTT pool) (dval s C (length (ctV c)))).
    { intros pt ptNTT pool Hp. rewrite H3. apply (dec_correct level B (ctV c) sk C s H1).
      - intros i Hi. apply HB. lia.
      - intros j Hj. apply (H4 j Hj).
      - apply secret_level; assumption.
      - exact (proj1 H2).
      - unfold ctLevel, comp in El. lia.
      - right. rewrite Nat.mod_small; lia. }
    unfold decrypts. rewrite El. split.
    - intros H i Hi. specialize (H (repeat [] (S level)) false [] ltac:(rewrite repeat_length; lia)).
      specialize (D (repeat [] (S level)) false [] ltac:(rewrite repeat_length; lia)).
      destruct H as (_ & _ & H). destruct D as (_ & _ & D). destruct (H i Hi) as [_ H']. destruct (D i Hi) as [_ D'].
      intros k Hk. destruct (H' k Hk) as [_ X]. destruct (D' k Hk) as [_ Y]. rewrite <- X, <- Y. reflexivity.
    - intros H pt ptNTT pool Hp. apply (dom_peq rQ L level ptNTT _ (dval s C (length (ctV c)))); [exact EL|exact H|]. apply D. exact Hp.
  Qed.

  Lemma ct_repr_ok level B c C : ct_repr level B c C -> ct_ok rQ level B c.
  Proof.
    intros (H1 & H2 & H3 & H4). split; [exact H1|]. split; [exact H2|]. split; [exact H3|]. intros j Hj. destruct (H4 j Hj) as (A & _ & A2 & A3).
    split; [exact A|]. split; [exact A2|]. intros i Hi. destruct (A3 i Hi) as [A4 A5]. rewrite EL. split; [exact A4|]. intros k Hk. apply (A5 k Hk).
  Qed.

  Lemma words_ntt_gen level B p : (level < length (rmods rQ))%nat -> words rQ level B p -> exists X, rns_ntt rQ L level B p X.
  Proof.
    intros Hl [Hp Hw].
    set (p' := map (fun i => map (fun x => x mod mq (rmod rQ i)) (nth i p [])) (seq 0 (S level))).
    assert (Hp' : forall i, (i <= level)%nat -> nth i p' [] = map (fun x => x mod mq (rmod rQ i)) (nth i p [])) by (intros i Hi; unfold p'; apply (nth_map_seq (fun i => map (fun x => x mod mq (rmod rQ i)) (nth i p [])) (S level) i []); lia).
    destruct (words_ntt rQ L level p' BQ EL Hl) as [X HX].
    - split; [unfold p'; rewrite map_length, seq_length; lia|]. intros i Hi. destruct (Hw i Hi) as [W1 W2]. unfold coeff. rewrite Hp' by exact Hi.
      rewrite map_length. split; [exact W1|]. intros k Hk. rewrite (nth_map_any _ _ _ 0) by (rewrite W1; exact Hk).
      destruct (one_mod rQ BQ i ltac:(lia)). unfold canon. apply Z.mod_pos_bound. lia.
    - exists X. split; [exact Hl|]. split; [exact Hp|]. intros i Hi. destruct HX as (_ & _ & HX). destruct (HX i Hi) as [_ X2]. destruct (Hw i Hi) as [W1 W2].
      split; [rewrite W1; exact EL|]. intros k Hk. split; [apply W2; rewrite EL; exact Hk|]. destruct (X2 k Hk) as [_ X3]. rewrite Hp' in X3 by exact Hi.
      rewrite (nth_map_any _ _ _ 0) in X3 by (rewrite W1, EL; exact Hk). rewrite <- X3. rewrite eqm_mod. reflexivity.
  Qed.

  Lemma ct_ok_repr level B c : ct_ok rQ level B c -> exists C, ct_repr level B c C.
  Proof.
    intros (H1 & H2 & H3 & H4).
    destruct (finite_choice pzero (length (ctV c)) (fun j X => rns_ntt rQ L level B (comp c j) X)) as [C HC].
    - intros j Hj. apply words_ntt_gen; [exact H1|]. apply (H4 j Hj).
    - exists C. split; [exact H1|]. split; [exact H2|]. split; [exact H3|]. intros j Hj. split; [apply (H4 j Hj)|apply HC; exact Hj].
  Qed.

  Lemma ct_repr_peq level B c C sk s M M' : ct_repr level B c C -> fits rQ B -> secret rQ L sk s ->
    decrypts rQ L sk c M -> (forall i, (i <= level)%nat -> peq n (mq (rmod rQ i)) M M') -> decrypts rQ L sk c M'.
  Proof.
    intros HC HB Hs HD HM. apply (decrypts_iff level B c C sk s M' HC HB Hs). intros i Hi. rewrite <- (HM i Hi). revert i Hi. apply (decrypts_iff level B c C sk s M HC HB Hs). exact HD.
  Qed.
End Dec.
