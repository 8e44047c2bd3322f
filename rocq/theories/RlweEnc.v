(** Encryption and decryption in rlwe. *)
From Verif Require Import Word ModRed Arith Fermat ModRedProofs PolySpec PolyProofs Ring RingProofs NTT NTTProofs RingOps RNSSpec RowProofs OpsProofs OpsProps NTTProps Repr BasisExt CRT BasisProofs BasisProps Automorphism AutoProps Scaling Gadget MarginProofs AccumProofs GadgetSpec GadgetProofs Frlwe FrlweSetup FrlweProps FrlweSwitch RlweSpec Rlwe RlweBase RlweKeys RlweSwitch.

(** ** Decryption *)
Section Horner.
  Variables (n : nat) (q : Z).
  Add Ring polyring : (poly_ring n q) (setoid (peq_equiv n q) (poly_ring_ext n q)).

  (** c_j + c_(j+1) s + ... + c_(j+m-1) s^(m-1) *)
  Definition tail_sum (C : nat -> poly) (s : poly) (j m : nat) : poly := psum m (fun t => pmul n (C (j + t)%nat) (ppow n s t)).

  Lemma tail_sum_step C s j m : peq n q (tail_sum C s j (S m)) (padd (pmul n (tail_sum C s (S j) m) s) (C j)).
  Proof.
    induction m as [|m IH].
    - intros k Hk. unfold tail_sum, psum, padd. cbn [bigsum]. rewrite (Nat.add_0_r j). cbn [ppow].
      rewrite (pmul_1_r n q (C j) k Hk). assert (Z0 : peq n q (pmul n (fun _ => 0) s) pzero) by (change (fun _ : nat => 0) with pzero; ring).
      rewrite (Z0 k Hk). unfold pzero. apply eqm_eq. ring.
    - transitivity (padd (tail_sum C s j (S m)) (pmul n (C (j + S m)%nat) (ppow n s (S m)))); [apply peq_exact; intros k Hk; reflexivity|].
      rewrite IH.
      transitivity (padd (pmul n (padd (tail_sum C s (S j) m) (pmul n (C (S j + m)%nat) (ppow n s m))) s) (C j)); [|reflexivity].
      cbn [ppow]. replace (j + S m)%nat with (S j + m)%nat by lia. ring.
  Qed.
End Horner.

Section Dec.
  Variables (rQ : Ring).
  Hypothesis (BQ : built_ring 9 rQ).
  Variables (L : nat).
  Hypothesis (EL : rN rQ = (2 ^ L)%nat).
  Let n := rN rQ.
  Let B2 : built_ring 2 rQ := one_2 rQ BQ.

  Ltac qb Hl := let i := fresh "i" in let Hi := fresh "Hi" in intros i Hi; destruct (one_mod rQ BQ i ltac:(lia)); unfold canon; lia.

    Lemma lazy_ct level p out X : (level < length (rmods rQ))%nat -> rns_repr rQ level canon p X -> rns_ntt rQ L level (fun q => 6 * q) (NTTLazyLvl rQ level p out) X.
    Proof.
      intros Hl H. apply (ntt_weaken rQ L EL level (fun q => 4 * q + 2 * q)); [qb Hl|].
      apply (t_nttlazy rQ L B2 EL level (fun q => 4 * q)); [qb Hl|]. revert H. apply rns_weaken. qb Hl.
    Qed.

  Section Loop.
    Variables (level : nat) (ct : list rows) (ctNTT : bool) (sk : rows) (C : nat -> poly) (s : poly).
    Hypothesis (Hl : (level < length (rmods rQ))%nat).
    Hypothesis (Hct : forall j, (j < length ct)%nat -> rns_dom rQ L level ctNTT (nth j ct []) (C j)).
    Hypothesis (Hsk : rns_ntt rQ L level canon sk (pscale W s)).

    (** Words below q for ciphertexts in the NTT domain, below 6q otherwise. *)
    Let B (q : Z) : Z := if ctNTT then q else 6 * q.

    Lemma decrypt_loop m : forall pt pool i, (i <= length ct - 1)%nat -> (m = length ct - i)%nat -> (0 < m)%nat ->
      rns_ntt rQ L level B pt (tail_sum n C s i m) -> length pt = S level ->
      let pt' := fst (fold_left (decrypt_step rQ level ct ctNTT sk) (rev (seq 1 i)) (pt, pool)) in
      rns_ntt rQ L level B pt' (tail_sum n C s 0 (length ct)) /\ length pt' = S level.
    Proof.
      intros pt pool i. revert m pt pool. induction i as [|i IH]; intros m pt pool Hi Hm Hm0 Hpt Hlen.
      - cbn [seq rev fold_left fst]. replace (length ct) with m by lia. split; assumption.
      - replace (rev (seq 1 (S i))) with (S i :: rev (seq 1 i)) by (rewrite (seq_S i 1), rev_app_distr; reflexivity).
        cbn [fold_left].
        set (x := MulCoeffsMontgomeryLvl rQ level pt sk pt).
        assert (Hx : rns_ntt rQ L level canon x (pmul n (tail_sum n C s (S i) m) s)).
        { apply (n_mulmont rQ L B2 EL level B canon); [|exact Hpt|exact Hsk]. intros j Hj. destruct (one_mod rQ BQ j ltac:(lia)). unfold B, canon.
          rewrite Z.mul_comm. apply Z.mul_le_mono_nonneg_l; [lia|]. destruct ctNTT; lia. }
        assert (Lx : length x = S level) by (unfold x, MulCoeffsMontgomeryLvl, op2; rewrite lvl_length; lia).
        pose proof (Hct i ltac:(lia)) as Hci.
        set (y := if ctNTT then AddLvl rQ level x (nth i ct []) x else AddLvl rQ level x (NTTLazyLvl rQ level (nth i ct []) pool) x).
        assert (Hy : rns_ntt rQ L level B y (tail_sum n C s i (S m))).
        { apply (ntt_peq rQ L EL level B _ (padd (pmul n (tail_sum n C s (S i) m) s) (C i))); [intros j Hj; symmetry; apply tail_sum_step|].
          unfold y, B, rns_dom in *. destruct ctNTT.
          - apply (n_add rQ L B2 EL level canon canon); [qb Hl|exact Hx|exact Hci].
          - apply (n_add rQ L B2 EL level canon (fun q => 6 * q)); [qb Hl|exact Hx|apply lazy_ct; [exact Hl|exact Hci]]. }
        assert (Ly : length y = S level) by (unfold y; destruct ctNTT; unfold AddLvl, op2; rewrite lvl_length; lia).
        set (z := if Z.land (Z.of_nat (S i)) 7 =? 7 then ReduceLvl rQ level y y else y).
        assert (Hz : rns_ntt rQ L level B z (tail_sum n C s i (S m))).
        { unfold z. destruct (_ =? _); [|exact Hy]. apply (ntt_weaken rQ L EL level canon); [unfold B; destruct ctNTT; qb Hl|].
          apply (n_reduce rQ L B2 EL level B); [unfold B; destruct ctNTT; qb Hl|exact Hy]. }
        assert (Lz : length z = S level) by (unfold z; destruct (_ =? _); [unfold ReduceLvl, op1; rewrite lvl_length; lia|exact Ly]).
        assert (E : exists pool', decrypt_step rQ level ct ctNTT sk (pt, pool) (S i) = (z, pool')).
        { unfold decrypt_step. replace (S i - 1)%nat with i by lia. unfold z, y. destruct ctNTT; eexists; reflexivity. }
        destruct E as [pool' E]. rewrite E.
        apply (IH (S m) z pool'); [lia|lia|lia|exact Hz|exact Lz].
    Qed.

    (** C29. *)
    Lemma decrypt_correct pt ptNTT pool : (0 < length ct)%nat -> level = Nat.min (length (nth 0 ct []) - 1) (length pt - 1) ->
      let out := Decrypt rQ sk ct ctNTT pt ptNTT pool in
      let V := psum (length ct) (fun i => pmul n (C i) (ppow n s i)) in
      length out = S level /\
      (ctNTT = true \/ (length ct - 1) mod 8 <> 7 -> rns_dom rQ L level ptNTT out V)%nat /\
      (ptNTT = true -> rns_ntt rQ L level (fun q => 6 * q) out V).
    Proof.
      intros Hc Elv. cbv zeta. unfold Decrypt. rewrite <- Elv.
      set (d := (length ct - 1)%nat). set (pt1 := if ctNTT then _ else _).
      assert (H1 : rns_ntt rQ L level B pt1 (tail_sum n C s d 1)).
      { apply (ntt_peq rQ L EL level B _ (C d)).
        - intros j Hj k Hk. unfold tail_sum, psum. cbn [bigsum]. rewrite (Nat.add_0_r d). cbn [ppow]. rewrite (pmul_1_r n _ (C d) k Hk). apply eqm_eq. ring.
        - pose proof (Hct d ltac:(unfold d; lia)) as Hci. unfold pt1, B, rns_dom in *. destruct ctNTT; [|apply lazy_ct; [exact Hl|exact Hci]].
          destruct Hci as (A1 & A2 & A3). split; [exact A1|]. split; [unfold CopyValuesLvl; rewrite lvl_length; lia|].
          intros i Hi. unfold CopyValuesLvl. rewrite lvl_nth_lt by lia. apply A3. exact Hi. }
      assert (L1 : length pt1 = S level).
      { unfold pt1. destruct ctNTT; unfold CopyValuesLvl, NTTLazyLvl; rewrite lvl_length, firstn_length; lia. }
      destruct (decrypt_loop 1 pt1 pool d ltac:(unfold d; lia) ltac:(unfold d; lia) ltac:(lia) H1 L1) as [H2 L2].
      destruct (fold_left (decrypt_step rQ level ct ctNTT sk) (rev (seq 1 d)) (pt1, pool)) as [pt2 pool2]. cbn [fst] in H2, L2.
      change (tail_sum n C s 0 (length ct)) with (psum (length ct) (fun i => pmul n (C i) (ppow n s i))) in H2.
      set (V := psum (length ct) (fun i => pmul n (C i) (ppow n s i))) in *.
      set (pt3 := if Z.land (Z.of_nat d) 7 =? 7 then pt2 else ReduceLvl rQ level pt2 pt2).
      assert (L3 : length pt3 = S level) by (unfold pt3; destruct (_ =? _); [exact L2|unfold ReduceLvl, op1; rewrite lvl_length; lia]).
      assert (Hred : rns_ntt rQ L level canon (ReduceLvl rQ level pt2 pt2) V) by (apply (n_reduce rQ L B2 EL level B); [unfold B; destruct ctNTT; qb Hl|exact H2]).
      assert (H3 : rns_ntt rQ L level (fun q => 6 * q) pt3 V).
      { unfold pt3. destruct (_ =? _); [apply (ntt_weaken rQ L EL level B); [unfold B; destruct ctNTT; qb Hl|exact H2]|].
        apply (ntt_weaken rQ L EL level canon); [qb Hl|exact Hred]. }
      assert (H4 : (ctNTT = true \/ d mod 8 <> 7)%nat -> rns_ntt rQ L level canon pt3 V).
      { intros Hd. unfold pt3. destruct (Z.eqb_spec (Z.land (Z.of_nat d) 7) 7) as [E7|E7]; [|exact Hred].
        destruct Hd as [-> | Hd]; [exact H2|]. exfalso. apply Hd. change 7 with (2 ^ 3 - 1) in E7 at 1. rewrite land_mask in E7 by lia. change (2 ^ 3) with (Z.of_nat 8) in E7.
        rewrite <- Nat2Z.inj_mod in E7. lia. }
      split; [destruct ptNTT; [exact L3|unfold InvNTTLvl; rewrite lvl_length; lia]|]. split.
      - intros Hd. specialize (H4 Hd). unfold rns_dom. destruct ptNTT; [exact H4|].
        apply (t_invntt rQ L B2 EL); [qb Hl|]. apply (ntt_weaken rQ L EL level canon); [qb Hl|exact H4].
      - intros ->. exact H3.
    Qed.
  End Loop.
End Dec.

(** ** Encryption *)
Lemma firstn_ntt r L level B p X : rns_ntt r L level B p X -> rns_ntt r L level B (firstn (S level) p) X.
Proof. intros (H1 & H2 & H3). split; [exact H1|]. split; [rewrite firstn_length; lia|]. intros i Hi. rewrite nth_firstn by lia. apply H3. exact Hi. Qed.
Lemma firstn_repr r level B p X : rns_repr r level B p X -> rns_repr r level B (firstn (S level) p) X.
Proof. intros (H1 & H2 & H3). split; [exact H1|]. split; [rewrite firstn_length; lia|]. intros i Hi. rewrite nth_firstn by lia. apply H3. exact Hi. Qed.
Lemma firstn_dom r L level b p X : rns_dom r L level b p X -> rns_dom r L level b (firstn (S level) p) X.
Proof. unfold rns_dom. destruct b; [apply firstn_ntt|apply firstn_repr]. Qed.
Lemma dom_peq r L level b p X Y : rN r = (2 ^ L)%nat -> (forall i, (i <= level)%nat -> peq (rN r) (mq (rmod r i)) X Y) -> rns_dom r L level b p X -> rns_dom r L level b p Y.
Proof. intros EL H. unfold rns_dom. destruct b; [apply (ntt_peq r L EL); exact H|apply (rns_peq r); exact H]. Qed.
Lemma dom_level r L level b p X : rns_dom r L level b p X -> (level < length (rmods r))%nat /\ (level < length p)%nat.
Proof. unfold rns_dom. destruct b; intros (H1 & H2 & _); split; assumption. Qed.
Lemma dom_restrict r L level level' b p X : (level' <= level)%nat -> rns_dom r L level b p X -> rns_dom r L level' b p X.
Proof. unfold rns_dom. intros Hl. destruct b; intros (H1 & H2 & H3); (split; [lia|]; split; [lia|]; intros i Hi; apply H3; lia). Qed.

Section Enc.
  Variables (rQ : Ring).
  Hypothesis (BQ : built_ring 9 rQ).
  Variables (L : nat).
  Hypothesis (EL : rN rQ = (2 ^ L)%nat).
  Let n := rN rQ.
  Let B2 : built_ring 2 rQ := one_2 rQ BQ.
  Variables (level : nat).

  Ltac qb := let i := fresh "i" in let Hi := fresh "Hi" in intros i Hi; destruct (one_mod rQ BQ i ltac:(lia)); unfold canon; lia.

  Lemma e_ntt p out X : rns_repr rQ level (fun q => q + 1) p X -> rns_ntt rQ L level canon (NTTLvl rQ level p out) X.
  Proof. apply (one_ntt rQ BQ L EL). Qed.
  Lemma e_nttc p out X : rns_repr rQ level canon p X -> rns_ntt rQ L level canon (NTTLvl rQ level p out) X.
  Proof. intros H. assert (Hl := proj1 H). apply e_ntt. revert H. apply rns_weaken. qb. Qed.
  Lemma e_intt p out X : rns_ntt rQ L level (fun q => q + 1) p X -> rns_repr rQ level canon (InvNTTLvl rQ level p out) X.
  Proof.
    intros H. assert (Hl := proj1 H). apply (t_invntt rQ L B2 EL); [qb|]. revert H. apply (ntt_weaken rQ L EL). qb.
  Qed.
  Lemma e_inttc p out X : rns_ntt rQ L level canon p X -> rns_repr rQ level canon (InvNTTLvl rQ level p out) X.
  Proof. intros H. assert (Hl := proj1 H). apply e_intt. revert H. apply (ntt_weaken rQ L EL). qb. Qed.

  (** Additions in which one operand may be q itself. *)
  Lemma e_addn p1 p2 out X Y : rns_ntt rQ L level canon p1 X -> rns_ntt rQ L level canon p2 Y -> rns_ntt rQ L level canon (AddLvl rQ level p1 p2 out) (padd X Y).
  Proof. intros H. assert (Hl := proj1 H). revert H. apply (n_add rQ L B2 EL). qb. Qed.
  Lemma e_addn' p1 p2 out X Y : rns_ntt rQ L level (fun q => q + 1) p1 X -> rns_ntt rQ L level canon p2 Y -> rns_ntt rQ L level canon (AddLvl rQ level p1 p2 out) (padd X Y).
  Proof.
    intros H H'. assert (Hl := proj1 H). apply (ntt_g _ _ _ _ _ _ EL). apply (ntt_g _ _ _ _ _ _ EL) in H, H'.
    apply (g_peq _ _ _ _ (fun m k => nttD L X m k + nttD L Y m k)); [intros i k Hi Hk; unfold nttD; rewrite values_add; reflexivity|].
    revert H H'. apply g_op2. intros i k x y Hi Hk m Hx Hy E1 E2. destruct (one_mod rQ BQ i ltac:(lia)) as [Q5 Q9]. fold m in Q5, Q9. unfold canon in *.
    unfold wadd. rewrite w64_small by lia. destruct (cred_word (x + y) (mq m) (mq m)) as [R1 R2]; try lia. split; [exact R1|]. rewrite R2. apply eqm_add; assumption.
  Qed.
  Lemma e_addc p1 p2 out X Y : rns_repr rQ level canon p1 X -> rns_repr rQ level canon p2 Y -> rns_repr rQ level canon (AddLvl rQ level p1 p2 out) (padd X Y).
  Proof. intros H. assert (Hl := proj1 H). revert H. apply (c_add rQ level B2). qb. Qed.
  Lemma e_addc' p1 p2 out X Y : rns_repr rQ level (fun q => q + 1) p1 X -> rns_repr rQ level canon p2 Y -> rns_repr rQ level canon (AddLvl rQ level p1 p2 out) (padd X Y).
  Proof.
    intros H H'. assert (Hl := proj1 H). apply (proj2 (rns_g _ _ _ _ _)). apply (proj1 (rns_g _ _ _ _ _)) in H. apply (proj1 (rns_g _ _ _ _ _)) in H'.
    apply (g_peq _ _ _ _ (fun m k => coefD X m k + coefD Y m k)); [intros i k Hi Hk; reflexivity|].
    revert H H'. apply g_op2. intros i k x y Hi Hk m Hx Hy E1 E2. destruct (one_mod rQ BQ i ltac:(lia)) as [Q5 Q9]. fold m in Q5, Q9. unfold canon in *.
    unfold wadd. rewrite w64_small by lia. destruct (cred_word (x + y) (mq m) (mq m)) as [R1 R2]; try lia. split; [exact R1|]. rewrite R2. apply eqm_add; assumption.
  Qed.
  Lemma add_comm_lvl p1 p2 out : AddLvl rQ level p1 p2 out = AddLvl rQ level p2 p1 out.
  Proof. apply op2_comm. intros m a b. unfold wadd. rewrite Z.add_comm. reflexivity. Qed.
  Lemma e_addc'' p1 p2 out X Y : rns_repr rQ level canon p1 X -> rns_repr rQ level (fun q => q + 1) p2 Y -> rns_repr rQ level canon (AddLvl rQ level p1 p2 out) (padd X Y).
  Proof.
    intros H H'. rewrite add_comm_lvl. apply (rns_peq rQ level canon _ (padd Y X)); [intros i Hi; apply peq_exact; intros k Hk; unfold padd; ring|]. apply e_addc'; assumption.
  Qed.

  (** Adding the message. *)
  Lemma add_message_ok pt ptNTT ctNTT c0 c1 pool M X0 X1 :
    rns_dom rQ L level ptNTT pt M -> rns_repr rQ level canon c0 X0 -> rns_repr rQ level canon c1 X1 ->
    let '(d0, d1) := add_message rQ level pt ptNTT ctNTT c0 c1 pool in
    rns_dom rQ L level ctNTT d0 (padd X0 M) /\ rns_dom rQ L level ctNTT d1 X1 /\ length d0 = S level /\ length d1 = S level.
  Proof.
    intros HM H0 H1. unfold add_message.
    assert (LEN : forall f (p : rows), length (firstn (S level) (lvl (S level) f p)) = S level) by (intros f p; rewrite firstn_length, lvl_length; lia).
    assert (L1 : length (firstn (S level) c1) = S level) by (destruct H1 as (_ & H1 & _); rewrite firstn_length; lia).
    destruct ctNTT.
    - split; [|split; [apply firstn_dom; apply e_nttc; exact H1|split; [destruct ptNTT; apply LEN|apply LEN]]].
      apply firstn_dom. unfold rns_dom in *. destruct ptNTT.
      + apply e_addn; [apply e_nttc; exact H0|exact HM].
      + apply e_nttc. apply e_addc; assumption.
    - split; [|split; [apply firstn_dom; exact H1|split; [destruct ptNTT; apply LEN|exact L1]]].
      apply firstn_dom. unfold rns_dom in *. apply e_addc; [exact H0|]. destruct ptNTT; [apply e_inttc; exact HM|exact HM].
  Qed.

  (** Without special moduli: c0 + c1 s = m + u e + e0 + e1 s. *)
  Lemma pk_encrypt_nop pk pt ptNTT ct0 ct1 ctNTT u e0 e1 pool B0 B1 U E0 E1 M :
    level = Nat.min (length pt - 1) (length ct0 - 1) ->
    rns_ntt rQ L level canon (fst pk) B0 -> rns_ntt rQ L level canon (snd pk) B1 ->
    rns_dom rQ L level ptNTT pt M ->
    rns_repr rQ level (fun q => q + 1) u U -> rns_repr rQ level (fun q => q + 1) e0 E0 -> rns_repr rQ level (fun q => q + 1) e1 E1 ->
    let '(d0, d1) := pkEncryptNoP rQ pk pt ptNTT ct0 ct1 ctNTT u e0 e1 pool in
    rns_dom rQ L level ctNTT d0 (padd (padd (pmul n U B0) E0) M) /\ rns_dom rQ L level ctNTT d1 (padd (pmul n U B1) E1) /\ length d0 = S level /\ length d1 = S level.
  Proof.
    intros Elv HB0 HB1 HM HU HE0 HE1. assert (Hl := proj1 HB0). unfold pkEncryptNoP. rewrite <- Elv. cbv zeta.
    set (uu := MFormLvl rQ level _ _).
    assert (Hu : rns_ntt rQ L level canon uu (pscale W U)) by (apply (one_mform rQ BQ L EL), e_ntt; exact HU).
    assert (MUL : forall p X out, rns_ntt rQ L level canon p X -> rns_ntt rQ L level canon (MulCoeffsMontgomeryLvl rQ level uu p out) (pmul n U X)).
    { intros p X out Hp. apply (n_mulmont' rQ L B2 EL level canon canon); [intros i Hi; unfold canon; apply (one_W rQ BQ); lia|exact Hu|exact Hp]. }
    assert (LEN : forall f (p : rows), length (firstn (S level) (lvl (S level) f p)) = S level) by (intros f p; rewrite firstn_length, lvl_length; lia).
    destruct ctNTT.
    - split; [|split; [apply firstn_dom; apply e_addn; [apply MUL; exact HB1|apply e_ntt; exact HE1]|split; [destruct ptNTT; apply LEN|apply LEN]]].
      apply firstn_dom. unfold rns_dom in *. destruct ptNTT.
      + apply e_addn; [|exact HM]. apply e_addn; [apply MUL; exact HB0|apply e_ntt; exact HE0].
      + apply (ntt_peq rQ L EL level canon _ (padd (pmul n U B0) (padd E0 M))); [intros i Hi; apply peq_exact; intros k Hk; unfold padd; ring|].
        apply e_addn; [apply MUL; exact HB0|]. apply e_nttc. apply e_addc'; assumption.
    - split; [|split; [apply firstn_dom; apply e_addc''; [apply e_inttc; apply MUL; exact HB1|exact HE1]|split; [destruct ptNTT; apply LEN|apply LEN]]].
      apply firstn_dom. unfold rns_dom in *. apply e_addc; [apply e_addc''; [apply e_inttc; apply MUL; exact HB0|exact HE0]|].
      destruct ptNTT; [apply e_inttc; exact HM|exact HM].
  Qed.

  (** With the secret key: c1 = a, c0 = m + e - a s. *)
  Lemma e_neg p out X : rns_ntt rQ L level canon p X -> rns_ntt rQ L level (fun q => q + 1) (NegLvl rQ level p out) (popp X).
  Proof.
    intros H. apply (ntt_g _ _ _ _ _ _ EL). apply (ntt_g _ _ _ _ _ _ EL) in H.
    apply (g_peq _ _ _ _ (fun m k => - nttD L X m k)); [|revert H; apply g_neg; exact B2].
    intros i k Hi Hk. unfold nttD, values. rewrite peval_opp. reflexivity.
  Qed.

  Lemma sk_encrypt sk pt ptNTT ct0 ct1 ctNTT e A E M s :
    level = Nat.min (length pt - 1) (length ct0 - 1) ->
    rns_ntt rQ L level canon sk (pscale W s) -> rns_ntt rQ L level canon ct1 A ->
    rns_dom rQ L level ptNTT pt M -> rns_repr rQ level (fun q => q + 1) e E ->
    let '(d0, d1) := skEncrypt rQ sk pt ptNTT ct0 ct1 ctNTT e in
    rns_dom rQ L level ctNTT d0 (psub (padd E M) (pmul n A s)) /\ rns_dom rQ L level ctNTT d1 A /\ length d0 = S level /\ length d1 = S level.
  Proof.
    intros Elv Hs HA HM HE. assert (Hl := proj1 Hs). unfold skEncrypt. rewrite <- Elv. cbv zeta.
    set (c0 := NegLvl rQ level _ _).
    assert (Hc : rns_ntt rQ L level (fun q => q + 1) c0 (popp (pmul n A s))) by (apply e_neg; apply (one_mul rQ BQ L EL); assumption).
    assert (LEN : forall f (p : rows), length (firstn (S level) (lvl (S level) f p)) = S level) by (intros f p; rewrite firstn_length, lvl_length; lia).
    assert (LA : length (firstn (S level) ct1) = S level) by (destruct HA as (_ & HA & _); rewrite firstn_length; lia).
    assert (PE : forall X, (forall k, X k = padd E M k - pmul n A s k) -> forall i, (i <= level)%nat -> peq (rN rQ) (mq (rmod rQ i)) X (psub (padd E M) (pmul n A s))).
    { intros X HX i Hi. apply peq_exact. intros k Hk. rewrite HX. reflexivity. }
    destruct ctNTT.
    - split; [|split; [apply firstn_dom; exact HA|split; [destruct ptNTT; apply LEN|exact LA]]].
      apply firstn_dom. unfold rns_dom in *. destruct ptNTT.
      + apply (ntt_peq rQ L EL level canon _ (padd (padd (popp (pmul n A s)) E) M)); [apply PE; intros k; unfold padd, popp; ring|].
        apply e_addn; [|exact HM]. apply e_addn'; [exact Hc|apply e_ntt; exact HE].
      + apply (ntt_peq rQ L EL level canon _ (padd (popp (pmul n A s)) (padd E M))); [apply PE; intros k; unfold padd, popp; ring|].
        apply e_addn'; [exact Hc|]. apply e_nttc. apply e_addc'; assumption.
    - split; [|split; [apply firstn_dom; apply e_inttc; exact HA|split; [destruct ptNTT; apply LEN|apply LEN]]].
      apply firstn_dom. unfold rns_dom in *.
      apply (rns_peq rQ level canon _ (padd (padd (popp (pmul n A s)) M) E)); [apply PE; intros k; unfold padd, popp; ring|].
      apply e_addc''; [|exact HE]. destruct ptNTT.
      + apply e_inttc. apply e_addn'; assumption.
      + apply e_addc; [apply e_intt; exact Hc|exact HM].
  Qed.
End Enc.

(** With special moduli. *)
Section EncP.
  Variables (rQ rP : Ring) (L : nat).
  Hypothesis (HP : ring_pair rQ rP) (EL : rN rQ = (2 ^ L)%nat).
  Let n := rN rQ.
  Let p0 := mq (rmod rP 0).

  Lemma half_ok level uQ uP pk e ct poolP U Bk E :
    rns_ntt rQ L level canon uQ (pscale W U) -> rns_ntt rP L 0 canon uP (pscale W U) ->
    rns_ntt rQ L level canon (fst pk) Bk -> rns_ntt rP L 0 canon (snd pk) Bk ->
    sampled rQ rP level 0 e E ->
    exists D, rns_repr rQ level canon (encrypt_half rQ rP level uQ uP pk e ct poolP) D /\
      forall k, (k < n)%nat -> lift_of p0 (padd (pmul n U Bk) E k) (padd (pmul n U Bk) E k - p0 * D k).
  Proof.
    intros HuQ HuP HbQ HbP He. pose proof (k_Q rQ rP HP) as BQ. pose proof (k_P rQ rP HP) as BP. pose proof (k_N rQ rP HP) as EN.
    pose proof (k_ELP rQ rP L HP EL) as ELP. assert (HlQ := proj1 HuQ). assert (HlP := proj1 HuP).
    unfold encrypt_half. set (A := padd (pmul n U Bk) E). cbv zeta.
    set (xQ := AddLvl rQ level _ _ _). set (xP := AddLvl rP 0 _ _ _).
    assert (HxQ : rns_repr rQ level canon xQ A).
    { unfold xQ. apply (e_addc'' rQ BQ L EL level); [|apply He]. apply (e_inttc rQ BQ L EL).
      apply (n_mulmont' rQ L (one_2 rQ BQ) EL level canon canon); [intros i Hi; unfold canon; apply (one_W rQ BQ); lia|exact HuQ|exact HbQ]. }
    assert (HxP : rns_repr rP 0 canon xP A).
    { unfold xP, A, n. rewrite <- EN. apply (e_addc'' rP BP L ELP 0); [|apply (sampled_P rQ rP L HP EL level); [exact HlP|exact He]]. apply (e_inttc rP BP L ELP).
      apply (n_mulmont' rP L (one_2 rP BP) ELP 0 canon canon); [intros i Hi; unfold canon; apply (one_W rP BP); lia|exact HuP|exact HbP]. }
    assert (EP : lprod rP 0 = p0).
    { unfold lprod, p0. rewrite <- (nth_moduli rP 0) by lia. pose proof (moduli_length rP) as ML. destruct (moduli rP) as [|q l]; [cbn in ML; lia|]. cbn [firstn fold_right nth]. ring. }
    destruct (moddown_quotient rQ rP (one_2 rQ BQ) (one_2 rP BP) (eq_sym EN) (proj2 (proj2 (proj2 HP))) level 0 2 xQ xP xQ A) as (D & D1 & _ & D2).
    - lia.
    - lia.
    - apply lsum_18; [exact BP|exact HlP|lia].
    - intros i Hi. destruct (one_mod rQ BQ i ltac:(lia)). lia.
    - revert HxQ. apply rns_weaken. intros i Hi. destruct (one_mod rQ BQ i ltac:(lia)). unfold canon. lia.
    - revert HxP. apply rns_weaken. intros i Hi. destruct (one_mod rP BP i ltac:(lia)). unfold canon. lia.
    - exists D. split; [exact D1|]. intros k Hk. rewrite EP in D2. apply D2. exact Hk.
  Qed.

  Section Alg.
    Variable (q : Z).
    Add Ring polyring : (poly_ring n q) (setoid (peq_equiv n q) (poly_ring_ext n q)).
    Lemma enc_algebra U b0 b1 e E0 E1 s D0 D1 r0 r1 :
      (forall k, (k < n)%nat -> r0 k = padd (pmul n U b0) E0 k - p0 * D0 k) -> (forall k, (k < n)%nat -> r1 k = padd (pmul n U b1) E1 k - p0 * D1 k) ->
      peq n q (padd b0 (pmul n b1 s)) e ->
      peq n q (pscale p0 (padd D0 (pmul n D1 s))) (psub (psub (padd (padd (pmul n U e) E0) (pmul n E1 s)) r0) (pmul n r1 s)).
    Proof.
      intros H0 H1 He.
      assert (X0 : peq n q r0 (psub (padd (pmul n U b0) E0) (pscale p0 D0))) by (apply peq_exact; intros k Hk; apply H0; exact Hk).
      assert (X1 : peq n q r1 (psub (padd (pmul n U b1) E1) (pscale p0 D1))) by (apply peq_exact; intros k Hk; apply H1; exact Hk).
      rewrite X0, X1, <- He. rewrite pscale_add, <- (pscale_pmul_l n q p0 D1 s). ring.
    Qed.
  End Alg.

  Lemma pk_encrypt level pk pt ptNTT ct0 ct1 ctNTT u e0 e1 pool poolP0 poolP1 b0 b1 U e E0 E1 M s :
    level = Nat.min (length pt - 1) (length ct0 - 1) ->
    qp_ntt rQ rP L level 0 canon (fst pk) b0 -> qp_ntt rQ rP L level 0 canon (snd pk) b1 ->
    (forall q, In q (prefix rQ level ++ [p0]) -> peq n q (padd b0 (pmul n b1 s)) e) ->
    rns_dom rQ L level ptNTT pt M ->
    sampled rQ rP level 0 u U -> sampled rQ rP level 0 e0 E0 -> sampled rQ rP level 0 e1 E1 ->
    let '(d0, d1) := pkEncrypt rQ rP pk pt ptNTT ct0 ct1 ctNTT u e0 e1 pool poolP0 poolP1 in
    length d0 = S level /\ length d1 = S level /\
    exists C0 C1 rho0 rho1 F, rns_dom rQ L level ctNTT d0 C0 /\ rns_dom rQ L level ctNTT d1 C1 /\
      (forall q, In q (prefix rQ level) -> peq n q (padd C0 (pmul n C1 s)) (padd M F)) /\ fresh_noise n p0 U e E0 E1 s rho0 rho1 F.
  Proof.
    intros Elv [HB0 HB0'] [HB1 HB1'] Hpk HM HU HE0 HE1. pose proof (k_Q rQ rP HP) as BQ. pose proof (k_P rQ rP HP) as BP.
    assert (HlQ := proj1 HB0). assert (HlP := proj1 HB0'). pose proof (k_ELP rQ rP L HP EL) as ELP.
    unfold pkEncrypt. rewrite <- Elv. cbv zeta. set (uQ := MFormLvl rQ level _ _). set (uP := MFormLvl rP 0 _ _).
    assert (HuQ : rns_ntt rQ L level canon uQ (pscale W U)) by (apply (one_mform rQ BQ L EL), (one_ntt rQ BQ L EL); apply HU).
    assert (HuP : rns_ntt rP L 0 canon uP (pscale W U)) by (apply (one_mform rP BP L ELP), (one_ntt rP BP L ELP); apply (sampled_P rQ rP L HP EL level); [exact HlP|exact HU]).
    destruct (half_ok level uQ uP (fst pk) e0 ct0 poolP0 U b0 E0 HuQ HuP HB0 HB0' HE0) as (D0 & X1 & X2).
    destruct (half_ok level uQ uP (snd pk) e1 ct1 poolP1 U b1 E1 HuQ HuP HB1 HB1' HE1) as (D1 & Y1 & Y2).
    pose proof (add_message_ok rQ BQ L EL level pt ptNTT ctNTT _ _ pool M D0 D1 HM X1 Y1) as AM.
    destruct (add_message rQ level pt ptNTT ctNTT _ _ pool) as [d0 d1]. destruct AM as (A1 & A2 & A3 & A4).
    split; [exact A3|]. split; [exact A4|].
    set (rho0 := fun k => padd (pmul n U b0) E0 k - p0 * D0 k). set (rho1 := fun k => padd (pmul n U b1) E1 k - p0 * D1 k).
    set (X := psub (psub (padd (padd (pmul n U e) E0) (pmul n E1 s)) rho0) (pmul n rho1 s)).
    assert (P5 : 5 <= p0) by (destruct (one_mod rP BP 0 HlP); assumption).
    assert (ALG : forall q, peq n q (padd b0 (pmul n b1 s)) e -> peq n q (pscale p0 (padd D0 (pmul n D1 s))) X) by (intros q; apply enc_algebra; reflexivity).
    assert (HX : forall k, (k < n)%nat -> (p0 | X k)).
    { intros k Hk. assert (IN : In p0 (prefix rQ level ++ [p0])) by (apply in_or_app; right; left; reflexivity). specialize (ALG p0 (Hpk p0 IN) k Hk).
      apply eqm_sym in ALG. apply (eqm_divide p0) in ALG; [|lia]. unfold pscale in ALG. destruct ALG as [c Hc]. exists (c + padd D0 (pmul n D1 s) k). clear - Hc. lia. }
    assert (DX : forall k, (k < n)%nat -> p0 * (X k / p0) = X k) by (intros k Hk; destruct (HX k Hk) as [c Hc]; rewrite Hc, Z.div_mul by lia; ring).
    exists (padd D0 M), D1, rho0, rho1, (fun k => X k / p0). split; [exact A1|]. split; [exact A2|]. split.
    - intros q Hq. assert (Hq' := Hq). apply prefix_in in Hq'; [|exact HlQ]. destruct Hq' as (j & Hj & Ej).
      assert (Pq : prime q) by (apply (sw_prime rQ _ BQ); apply (firstn_in _ _ _ Hq)).
      assert (C : peq n q (padd D0 (pmul n D1 s)) (fun k => X k / p0)).
      { apply (pscale_cancel n q p0); [apply prime_ge_2 in Pq; lia| |].
        - apply Zgcd_1_rel_prime. apply rel_prime_sym. apply prime_rel_prime; [exact Pq|]. intros Hd.
          assert (Pp : prime p0) by (apply (sw_prime rP _ BP); unfold p0; rewrite <- (nth_moduli rP 0) by exact HlP; apply nth_In; rewrite <- moduli_length; exact HlP).
          apply prime_div_prime in Hd; [|exact Pq|exact Pp]. apply (proj2 (proj2 (proj2 HP)) q); [apply (firstn_in _ _ _ Hq)|].
          rewrite Hd. unfold p0. rewrite <- (nth_moduli rP 0) by exact HlP. apply nth_In. rewrite <- moduli_length. exact HlP.
        - intros k Hk. rewrite (ALG q (Hpk q (in_or_app _ _ _ (or_introl Hq))) k Hk). unfold pscale. rewrite DX by exact Hk. reflexivity. }
      intros k Hk. specialize (C k Hk). unfold padd in *. rewrite <- C. apply eqm_eq. ring.
    - intros k Hk. split; [rewrite DX by exact Hk; reflexivity|].
      destruct (X2 k Hk) as (_ & L1 & L2). destruct (Y2 k Hk) as (_ & L3 & L4). unfold rho0, rho1. repeat split; assumption.
  Qed.
End EncP.
