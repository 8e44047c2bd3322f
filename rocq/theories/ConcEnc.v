(** Encryption with a secret key in memory: the call computes what [Rlwe.skEncrypt] does, and accesses nothing but its operands and its buffer. *)
From Verif Require Import Word ModRed Ring NTT RingOps Scaling Rlwe Conc ConcSpec ConcProofs ConcDec ConcTop.
Open Scope nat_scope.

(** Rows up to [level]. *)
Definition agree (level : nat) (p q : rows) : Prop := forall i, i <= level -> prow p i = prow q i.
Lemma agree_refl l p : agree l p p.
Proof. intros i _. reflexivity. Qed.
Lemma agree_firstn l p q : agree l p q -> l < length p -> l < length q -> firstn (S l) p = firstn (S l) q.
Proof.
  intros H Hp Hq. apply (nth_ext _ _ [] []); [rewrite !firstn_length; lia|]. rewrite firstn_length. intros i Hi.
  assert (E : forall x : rows, nth i (firstn (S l) x) [] = if i <? S l then prow x i else []).
  { intros x. destruct (Nat.ltb_spec i (S l)) as [Hx|Hx]; [|lia]. unfold prow. clear -Hx. revert x l Hx. induction i as [|i IH]; intros x l Hx; destruct x; try reflexivity.
    cbn. destruct l; [lia|]. cbn [firstn]. exact (IH x l ltac:(lia)). }
  rewrite !E. destruct (Nat.ltb_spec i (S l)) as [Hx|Hx]; [apply H; lia|reflexivity].
Qed.
Section Agree.
  Variables (r : Ring) (l : nat).
  Lemma agree_lvl k f g o o' : l < k -> (forall i, i <= l -> f i = g i) -> agree l (lvl k f o) (lvl (S l) g o').
  Proof. intros Hk H i Hi. rewrite !prow_lvl by lia. apply H, Hi. Qed.
  Lemma agree_op1 f p p' o o' : agree l p p' -> agree l (op1 r f l p o) (op1 r f l p' o').
  Proof. intros H. apply agree_lvl; [lia|]. intros i Hi. rewrite H by exact Hi. reflexivity. Qed.
  Lemma agree_op2 k f p p' q q' o o' : l <= k -> agree l p p' -> agree l q q' -> agree l (op2 r f k p q o) (op2 r f l p' q' o').
  Proof. intros Hk H1 H2. apply agree_lvl; [lia|]. intros i Hi. rewrite H1, H2 by exact Hi. reflexivity. Qed.
  Lemma agree_ntt p p' o o' : agree l p p' -> agree l (NTTLvl r l p o) (NTTLvl r l p' o').
  Proof. intros H. apply agree_lvl; [lia|]. intros i Hi. rewrite H by exact Hi. reflexivity. Qed.
  Lemma agree_invntt p p' o o' : agree l p p' -> agree l (InvNTTLvl r l p o) (InvNTTLvl r l p' o').
  Proof. intros H. apply agree_lvl; [lia|]. intros i Hi. rewrite H by exact Hi. reflexivity. Qed.
  Lemma agree_read v o : agree l (lvl (S l) (prow v) o) v.
  Proof. intros i Hi. rewrite prow_lvl by lia. reflexivity. Qed.
End Agree.
Lemma lvl_long n f o : n <= length (lvl n f o).
Proof. unfold lvl. rewrite app_length, map_length, seq_length. lia. Qed.

Section Enc.
  Variables (d : decryptor) (j : ejob).
  Let r := d_ring d.
  Let L := k_level j.
  Let P0 := k_ct0 j.
  Let P1 := k_ct1 j.
  Let B := d_pool d.
  Definition k_out (j : ejob) : list nat := k_ct0 j ++ k_ct1 j.
  Definition k_nobuf (j : ejob) : bool := negb (k_ctNTT j).
  Definition k_fits (d : decryptor) (j : ejob) : Prop := ejob_fits (SkEncryptor (d_ring d) (d_pool d) (d_sk d)) j.
  Definition k_code (d : decryptor) (j : ejob) : list step :=
    c_Encrypt (SkEncryptor (d_ring d) (d_pool d) (d_sk d)) (k_pt j) (k_ptNTT j) (k_ct0 j) (k_ct1 j) (k_ctNTT j) (k_a j) (k_err j).
  Let own := g_own k_out k_nobuf d j.
  Hypothesis (OK : g_ok k_out k_pt k_nobuf k_fits d j).

  Definition good (l : list step) : Prop := (forall a, In a (writes l) -> In a own) /\ (forall a, In a (reads l) -> In a (k_pt j ++ d_sk d ++ own)).
  Lemma good_app x y : good x -> good y -> good (x ++ y).
  Proof. intros [A1 A2] [B1 B2]. split; intros a; rewrite ?writes_app, ?reads_app; intros H; apply in_app_or in H; destruct H as [H|H]; auto. Qed.
  Lemma good_loop lv dst srcs f : lv < length dst -> (forall a, In a dst -> In a own) -> Forall (fun s => lv < length s /\ forall a, In a s -> In a (k_pt j ++ d_sk d ++ own)) srcs ->
    good (loop lv dst srcs f).
  Proof.
    intros H1 H2 H3. split; intros a H.
    - rewrite loop_writes in H by exact H1. apply H2. rewrite <- (firstn_skipn (S lv)). apply in_or_app. left. exact H.
    - apply loop_reads in H; [|eapply Forall_impl; [|exact H3]; cbn; tauto]. apply in_concat in H. destruct H as (s & Hs & H). rewrite Forall_forall in H3. apply (H3 s Hs), H.
  Qed.

  Lemma fits_level : L < length (k_pt j) /\ L < length P0 /\ L < length P1 /\ L < length (d_sk d) /\ L < length B /\ length (k_a j) = S L.
  Proof.
    destruct OK as [(H1 & H2 & _ & H3 & H4 & H5 & H6) _]. change (L < length (k_ct1 j)) in H3. change (length (k_a j) = S L) in H4. change (L < length (d_sk d)) in H5. change (L < length (d_pool d)) in H6.
    assert (L <= length (k_pt j) - 1 /\ L <= length (k_ct0 j) - 1) by (unfold L, k_level; lia). unfold P0, P1, B. repeat split; try lia; assumption.
  Qed.
  Lemma nd : NoDup P0 /\ NoDup P1 /\ disjoint P0 P1.
  Proof. destruct OK as [(_ & _ & H & _) _]. apply NoDup_app_iff' in H. exact H. Qed.
  Lemma own0 a : In a P0 -> In a own.
  Proof. intros H. apply in_or_app. left. apply in_or_app. left. exact H. Qed.
  Lemma own1 a : In a P1 -> In a own.
  Proof. intros H. apply in_or_app. left. apply in_or_app. right. exact H. Qed.
  Lemma ownB a : k_ctNTT j = true -> In a B -> In a own.
  Proof. intros Hb H. apply in_or_app. right. unfold k_nobuf. rewrite Hb. exact H. Qed.
  Lemma rown a : In a own -> In a (k_pt j ++ d_sk d ++ own).
  Proof. intros H. rewrite !in_app_iff. tauto. Qed.
  Lemma rpt a : In a (k_pt j) -> In a (k_pt j ++ d_sk d ++ own).
  Proof. intros H. rewrite !in_app_iff. tauto. Qed.
  Lemma rsk a : In a (d_sk d) -> In a (k_pt j ++ d_sk d ++ own).
  Proof. intros H. rewrite !in_app_iff. tauto. Qed.

  Lemma kept_e l m : good l -> content (run l m) (k_pt j) = content m (k_pt j) /\ content (run l m) (d_sk d) = content m (d_sk d).
  Proof.
    intros [H _]. destruct OK as [_ [D _]]. split; apply content_same; intros a Ha; apply run_frame; intros C; apply H in C; apply (D a); try exact C; rewrite in_app_iff; tauto.
  Qed.
  Ltac g := unfold c_ReadLvl, c_MulCoeffsMontgomeryLvl, c_NegLvl, c_AddLvl, c_op1, c_op2, c_NTTLvl, c_InvNTTLvl, c_ReadAndAddLvl; apply good_loop;
    [try lia; apply fits_level|intros ? ?; auto using own0, own1, ownB|
     repeat (apply Forall_cons; [split; [try lia; apply fits_level|intros ? ?; auto using rpt, rsk, rown, own0, own1, ownB]|]); apply Forall_nil].
  Lemma code_good : good (k_code d j).
  Proof.
    pose proof fits_level as (F1 & F2 & F3 & F4 & F5 & F6).
    unfold k_code, c_Encrypt. cbn [e_ring e_pool e_sk]. change (Nat.min (length (k_pt j) - 1) (length (k_ct0 j) - 1)) with L. fold r P0 P1 B.
    apply good_app; [g|]. apply good_app; [g|]. apply good_app; [g|]. destruct (k_ctNTT j) eqn:Hb.
    - apply good_app; [g|]. destruct (k_ptNTT j); repeat (apply good_app; [g|]); g.
    - apply good_app; [destruct (k_ptNTT j); (apply good_app; g)|]. apply good_app; g.
  Qed.

  Lemma src_self lv dst : lv < length dst -> source_ok lv dst dst.
  Proof. split; auto. Qed.
  Lemma src_own s dst : L < length s -> (forall a, In a s -> In a (k_pt j ++ d_sk d)) -> (forall a, In a dst -> In a own) -> source_ok L dst s.
  Proof. intros H1 H2 H3. split; [exact H1|right]. intros a Ha C. destruct OK as [_ [D _]]. exact (D a (H2 a Ha) (H3 a C)). Qed.
  Lemma d01 : disjoint P0 P1. Proof. apply nd. Qed.
  Lemma d10 : disjoint P1 P0. Proof. intros a H1 H2. exact (d01 a H2 H1). Qed.
  Lemma dB : k_ctNTT j = true -> NoDup B /\ disjoint B P0 /\ disjoint B P1 /\ disjoint P0 B /\ disjoint P1 B.
  Proof.
    intros Hb. destruct OK as [_ [_ H]]. unfold k_nobuf in H. rewrite Hb in H. destruct (H eq_refl) as [H1 H2]. unfold k_out in H2. fold P0 P1 B in H1, H2.
    assert (X0 : disjoint B P0) by (intros a Ha C; apply (H2 a Ha); apply in_or_app; tauto).
    assert (X1 : disjoint B P1) by (intros a Ha C; apply (H2 a Ha); apply in_or_app; tauto).
    split; [exact H1|]. split; [exact X0|]. split; [exact X1|]. split; intros a Ha C; [exact (X0 a C Ha)|exact (X1 a C Ha)].
  Qed.

  Lemma encrypt_mem m : eresult (run (k_code d j) m) j = encrypted r m (d_sk d) j.
  Proof.
    pose proof fits_level as (F1 & F2 & F3 & F4 & F5 & F6). destruct nd as (N0 & N1 & _).
    assert (Spt : forall dst, (forall a, In a dst -> In a own) -> source_ok L dst (k_pt j)) by (intros dst H; apply src_own; [exact F1|intros a Ha; rewrite in_app_iff; tauto|exact H]).
    assert (Ssk : forall dst, (forall a, In a dst -> In a own) -> source_ok L dst (d_sk d)) by (intros dst H; apply src_own; [exact F4|intros a Ha; rewrite in_app_iff; tauto|exact H]).
    unfold eresult, encrypted. fold L P0 P1. rewrite !content_firstn.
    unfold k_code, c_Encrypt. cbn [e_ring e_pool e_sk]. change (Nat.min (length (k_pt j) - 1) (length (k_ct0 j) - 1)) with L. fold r P0 P1 B. rewrite !run_app.
    unfold skEncrypt. rewrite !content_length. fold P0. change (Nat.min (length (k_pt j) - 1) (length P0 - 1)) with L.
    set (m1 := run (c_ReadLvl L (k_a j) P1) m).
    assert (A1 : agree L (content m1 P1) (k_a j)) by (unfold m1; rewrite read_mem by assumption; apply agree_read).
    assert (A1' : content m1 P0 = content m P0) by (apply loop_other; [exact F3|exact d01]).
    destruct (kept_e (c_ReadLvl L (k_a j) P1) m ltac:(g)) as [Kp1 Ks1]. fold m1 in Kp1, Ks1.
    set (m2 := run (c_MulCoeffsMontgomeryLvl r L P1 (d_sk d) P0) m1).
    assert (A2 : content m2 P0 = MulCoeffsMontgomeryLvl r L (content m1 P1) (content m (d_sk d)) (content m P0)).
    { unfold m2, c_MulCoeffsMontgomeryLvl. rewrite op2_mem; [rewrite Ks1, A1'; reflexivity|exact N0|exact F2|apply other_ok; [exact F3|exact d10]|apply Ssk, own0]. }
    assert (A2' : content m2 P1 = content m1 P1) by (apply loop_other; [exact F2|exact d10]).
    destruct (kept_e (c_MulCoeffsMontgomeryLvl r L P1 (d_sk d) P0) m1 ltac:(g)) as [Kp2 _]. fold m2 in Kp2. rewrite Kp1 in Kp2.
    set (m3 := run (c_NegLvl r L P0 P0) m2).
    set (X := MulCoeffsMontgomeryLvl r L (k_a j) (content m (d_sk d)) (content m P0)).
    assert (A3 : agree L (content m3 P0) (NegLvl r L X X)).
    { unfold m3, c_NegLvl. rewrite op1_mem; [|exact N0|exact F2|apply src_self, F2]. apply agree_op1. rewrite A2. apply agree_op2; [lia|exact A1|apply agree_refl]. }
    assert (A3' : content m3 P1 = content m1 P1) by (rewrite <- A2'; apply loop_other; [exact F2|exact d10]).
    destruct (kept_e (c_NegLvl r L P0 P0) m2 ltac:(g)) as [Kp3 _]. fold m3 in Kp3. rewrite Kp2 in Kp3.
    set (Y := NegLvl r L X X) in *. clearbody m3. clear A2 A2' Kp2 A1' Kp1 Ks1 m2.
    assert (LA : L < length (k_a j)) by lia.
    destruct (k_ctNTT j) eqn:Hb.
    - destruct (dB Hb) as (NB & B0 & B1 & B0' & B1'). rewrite !run_app.
      set (m4 := run (c_ReadLvl L (k_err j) B) m3).
      assert (A4 : agree L (content m4 B) (k_err j)) by (unfold m4; rewrite read_mem by assumption; apply agree_read).
      assert (A4' : content m4 P0 = content m3 P0) by (apply loop_other; assumption).
      assert (A4'' : content m4 P1 = content m3 P1) by (apply loop_other; assumption).
      destruct (kept_e (c_ReadLvl L (k_err j) B) m3 ltac:(g)) as [Kp4 _]. fold m4 in Kp4. rewrite Kp3 in Kp4.
      destruct (k_ptNTT j).
      + rewrite !run_app. set (m5 := run (c_NTTLvl r L B B) m4).
        assert (A5 : agree L (content m5 B) (NTTLvl r L (k_err j) (k_err j))) by (unfold m5; rewrite ntt_mem by (assumption || apply src_self, F5); apply agree_ntt, A4).
        assert (A5' : content m5 P0 = content m4 P0) by (apply loop_other; assumption).
        assert (A5'' : content m5 P1 = content m4 P1) by (apply loop_other; assumption).
        destruct (kept_e (c_NTTLvl r L B B) m4 ltac:(g)) as [Kp5 _]. fold m5 in Kp5. rewrite Kp4 in Kp5.
        set (m6 := run (c_AddLvl r L P0 B P0) m5). set (E := NTTLvl r L (k_err j) (k_err j)) in *.
        assert (A6 : agree L (content m6 P0) (AddLvl r L Y E Y)).
        { unfold m6, c_AddLvl. rewrite op2_mem; [|exact N0|exact F2|apply src_self, F2|apply other_ok; assumption]. apply agree_op2; [lia|rewrite A5', A4'; exact A3|exact A5]. }
        assert (A6'' : content m6 P1 = content m5 P1) by (apply loop_other; [exact F2|exact d10]).
        destruct (kept_e (c_AddLvl r L P0 B P0) m5 ltac:(g)) as [Kp6 _]. fold m6 in Kp6. rewrite Kp5 in Kp6.
        f_equal.
        * apply agree_firstn; [|rewrite content_length; exact F2|apply lvl_long]. unfold c_AddLvl. rewrite op2_mem; [|exact N0|exact F2|apply src_self, F2|apply Spt, own0].
          apply agree_op2; [lia|exact A6|rewrite Kp6; apply agree_refl].
        * apply agree_firstn; [|rewrite content_length; exact F3|exact LA].
          unfold c_AddLvl, c_op2, c_InvNTTLvl; rewrite (loop_other L P0) by (exact F2 || exact d10). rewrite A6'', A5'', A4'', A3'. exact A1.
      + rewrite !run_app. set (m5 := run (c_AddLvl r L B (k_pt j) B) m4).
        assert (A5 : agree L (content m5 B) (AddLvl r L (k_err j) (content m (k_pt j)) (k_err j))).
        { unfold m5, c_AddLvl. rewrite op2_mem; [|exact NB|exact F5|apply src_self, F5|apply Spt; intros a; apply ownB, Hb]. apply agree_op2; [lia|exact A4|rewrite Kp4; apply agree_refl]. }
        assert (A5' : content m5 P0 = content m4 P0) by (apply loop_other; assumption).
        assert (A5'' : content m5 P1 = content m4 P1) by (apply loop_other; assumption).
        set (E := AddLvl r L (k_err j) (content m (k_pt j)) (k_err j)) in *.
        set (m6 := run (c_NTTLvl r L B B) m5).
        assert (A6 : agree L (content m6 B) (NTTLvl r L E E)) by (unfold m6; rewrite ntt_mem by (assumption || apply src_self, F5); apply agree_ntt, A5).
        assert (A6' : content m6 P0 = content m5 P0) by (apply loop_other; assumption).
        assert (A6'' : content m6 P1 = content m5 P1) by (apply loop_other; assumption).
        f_equal.
        * apply agree_firstn; [|rewrite content_length; exact F2|apply lvl_long]. unfold c_AddLvl. rewrite op2_mem; [|exact N0|exact F2|apply src_self, F2|apply other_ok; assumption].
          apply agree_op2; [lia|rewrite A6', A5', A4'; exact A3|exact A6].
        * apply agree_firstn; [|rewrite content_length; exact F3|exact LA].
          unfold c_AddLvl, c_op2, c_InvNTTLvl; rewrite (loop_other L P0) by (exact F2 || exact d10). rewrite A6'', A5'', A4'', A3'. exact A1.
    - rewrite !run_app.
      set (m4 := run (if k_ptNTT j then _ else _) m3).
      set (Z0 := if k_ptNTT j then InvNTTLvl r L _ _ else _).
      assert (A4 : agree L (content m4 P0) Z0 /\ content m4 P1 = content m3 P1).
      { unfold m4, Z0. destruct (k_ptNTT j); rewrite run_app.
        - set (m5 := run (c_AddLvl r L P0 (k_pt j) P0) m3). assert (A5 : agree L (content m5 P0) (AddLvl r L Y (content m (k_pt j)) Y)).
          { unfold m5, c_AddLvl. rewrite op2_mem; [|exact N0|exact F2|apply src_self, F2|apply Spt, own0]. apply agree_op2; [lia|exact A3|rewrite Kp3; apply agree_refl]. }
          split; [rewrite invntt_mem by (assumption || apply src_self, F2); apply agree_invntt, A5|].
          unfold c_AddLvl, c_op2, c_InvNTTLvl; rewrite (loop_other L P0) by (exact F2 || exact d10). unfold m5. apply loop_other; [exact F2|exact d10].
        - set (m5 := run (c_InvNTTLvl r L P0 P0) m3). assert (A5 : agree L (content m5 P0) (InvNTTLvl r L Y Y)) by (unfold m5; rewrite invntt_mem by (assumption || apply src_self, F2); apply agree_invntt, A3).
          destruct (kept_e (c_InvNTTLvl r L P0 P0) m3 ltac:(g)) as [Kp5 _]. fold m5 in Kp5. rewrite Kp3 in Kp5.
          split; [|unfold c_AddLvl, c_op2, c_InvNTTLvl; rewrite (loop_other L P0) by (exact F2 || exact d10); unfold m5; apply loop_other; [exact F2|exact d10]].
          unfold c_AddLvl. rewrite op2_mem; [|exact N0|exact F2|apply src_self, F2|apply Spt, own0]. apply agree_op2; [lia|exact A5|rewrite Kp5; apply agree_refl]. }
      clearbody m4 Z0. destruct A4 as [A4 A4'].
      set (m5 := run (c_ReadAndAddLvl r (length P0 - 1) (k_err j) P0) m4).
      assert (A5 : agree L (content m5 P0) (AddLvl r L Z0 (k_err j) Z0)).
      { unfold m5. rewrite readadd_mem by (assumption || lia). apply agree_op2; [lia|exact A4|apply agree_refl]. }
      assert (A5' : content m5 P1 = content m4 P1) by (apply loop_other; [lia|exact d10]).
      f_equal.
      + apply agree_firstn; [|rewrite content_length; exact F2|apply lvl_long]. unfold c_InvNTTLvl; rewrite (loop_other L P1) by (exact F3 || exact d01). exact A5.
      + apply agree_firstn; [|rewrite content_length; exact F3|apply lvl_long]. rewrite invntt_mem by (assumption || apply src_self, F3). apply agree_invntt. rewrite A5', A4', A3'. exact A1.
  Qed.
End Enc.
