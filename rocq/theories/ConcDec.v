(** Decryption in memory: the call computes what [Rlwe.Decrypt] does, and accesses nothing but its operands and its buffer. *)
From Verif Require Import Word ModRed Ring NTT RingOps Scaling Rlwe Conc ConcSpec ConcProofs.
Open Scope nat_scope.

Lemma NoDup_firstn {A} (l : list A) k : NoDup l -> NoDup (firstn k l).
Proof.
  revert l. induction k as [|k IH]; intros l H; [constructor|]. destruct l as [|x l]; [constructor|]. apply NoDup_cons_iff in H. destruct H as [H1 H2].
  cbn. constructor; [|exact (IH l H2)]. intros C. apply H1. rewrite <- (firstn_skipn k l). apply in_or_app. left. exact C.
Qed.

Section Ops.
  Variables (r : Ring) (level : nat) (dst : list nat) (m : mem).
  Hypothesis (ND : NoDup dst) (Hd : level < length dst).
  Lemma op1_mem f p : source_ok level dst p -> content (run (c_op1 r f level p dst) m) dst = op1 r f level (content m p) (content m dst).
  Proof. intros H. unfold c_op1. rewrite loop_lvl by auto. reflexivity. Qed.
  Lemma op2_mem f p q : source_ok level dst p -> source_ok level dst q -> content (run (c_op2 r f level p q dst) m) dst = op2 r f level (content m p) (content m q) (content m dst).
  Proof. intros H1 H2. unfold c_op2. rewrite loop_lvl by auto. reflexivity. Qed.
  Lemma ntt_mem p : source_ok level dst p -> content (run (c_NTTLvl r level p dst) m) dst = NTTLvl r level (content m p) (content m dst).
  Proof. intros H. unfold c_NTTLvl. rewrite loop_lvl by auto. reflexivity. Qed.
  Lemma nttlazy_mem p : source_ok level dst p -> content (run (c_NTTLazyLvl r level p dst) m) dst = NTTLazyLvl r level (content m p) (content m dst).
  Proof. intros H. unfold c_NTTLazyLvl. rewrite loop_lvl by auto. reflexivity. Qed.
  Lemma invntt_mem p : source_ok level dst p -> content (run (c_InvNTTLvl r level p dst) m) dst = InvNTTLvl r level (content m p) (content m dst).
  Proof. intros H. unfold c_InvNTTLvl. rewrite loop_lvl by auto. reflexivity. Qed.
  Lemma copy_mem p : source_ok level dst p -> content (run (c_CopyValuesLvl level p dst) m) dst = CopyValuesLvl level (content m p) (content m dst).
  Proof. intros H. unfold c_CopyValuesLvl. rewrite loop_lvl by auto. reflexivity. Qed.
  Lemma read_mem v : content (run (c_ReadLvl level v dst) m) dst = lvl (S level) (prow v) (content m dst).
  Proof. unfold c_ReadLvl. rewrite loop_lvl by auto. reflexivity. Qed.
  Lemma readadd_mem v : content (run (c_ReadAndAddLvl r level v dst) m) dst = AddLvl r level (content m dst) v (content m dst).
  Proof. unfold c_ReadAndAddLvl. rewrite loop_lvl; [reflexivity|exact ND|exact Hd|]. repeat constructor; auto. Qed.
End Ops.

Lemma self_ok level dst : level < length dst -> source_ok level dst dst.
Proof. split; auto. Qed.
Lemma other_ok level dst s : level < length s -> disjoint s dst -> source_ok level dst s.
Proof. split; auto. Qed.

(** What decryption computes does not depend on the buffer. *)
Lemma prow_lvl n f out i : i < n -> prow (lvl n f out) i = f i.
Proof.
  intros H. unfold prow, lvl. rewrite app_nth1 by (rewrite map_length, seq_length; exact H).
  rewrite (nth_indep _ [] (f 0)) by (rewrite map_length, seq_length; exact H). rewrite map_nth, seq_nth by exact H. reflexivity.
Qed.
Lemma lvl_ext n f g out : (forall i, i < n -> f i = g i) -> lvl n f out = lvl n g out.
Proof. intros H. unfold lvl. f_equal. apply map_ext_in. intros i Hi. apply in_seq in Hi. apply H. lia. Qed.
Lemma op2_ext r f level p q q' out : (forall i, i <= level -> prow q i = prow q' i) -> op2 r f level p q out = op2 r f level p q' out.
Proof. intros H. unfold op2. apply lvl_ext. intros i Hi. rewrite H by lia. reflexivity. Qed.

Definition dstep (r : Ring) (level : nat) (ct : list rows) (ctNTT : bool) (sk : rows) (pt : rows) (i : nat) : rows :=
  fst (decrypt_step r level ct ctNTT sk (pt, []) i).
Lemma dstep_pool r level ct b sk pt pool i : fst (decrypt_step r level ct b sk (pt, pool) i) = dstep r level ct b sk pt i.
Proof.
  unfold dstep, decrypt_step. destruct b; [reflexivity|].
  assert (E : forall X, AddLvl r level X (NTTLazyLvl r level (nth (i - 1) ct []) pool) X = AddLvl r level X (NTTLazyLvl r level (nth (i - 1) ct []) []) X).
  { intros X. apply op2_ext. intros k Hk. unfold NTTLazyLvl. rewrite !prow_lvl by lia. reflexivity. }
  cbn [fst]. rewrite E. reflexivity.
Qed.
Lemma dsteps_pool r level ct b sk js : forall pt pool, fst (fold_left (decrypt_step r level ct b sk) js (pt, pool)) = fold_left (dstep r level ct b sk) js pt.
Proof.
  induction js as [|j js IH]; intros pt pool; [reflexivity|]. cbn [fold_left]. rewrite <- (dstep_pool r level ct b sk pt pool j).
  destruct (decrypt_step r level ct b sk (pt, pool) j) as [pt' pool']. apply IH.
Qed.
Lemma decrypt_pool r sk ct b pt bp pool pool' : Decrypt r sk ct b pt bp pool = Decrypt r sk ct b pt bp pool'.
Proof.
  unfold Decrypt. set (lv := Nat.min _ _). set (P := if b then CopyValuesLvl _ _ _ else _).
  pose proof (dsteps_pool r lv ct b sk (rev (seq 1 (length ct - 1))) P pool) as E1.
  pose proof (dsteps_pool r lv ct b sk (rev (seq 1 (length ct - 1))) P pool') as E2.
  destruct (fold_left _ _ (P, pool)) as [a1 b1]. destruct (fold_left _ _ (P, pool')) as [a2 b2]. cbn [fst] in E1, E2. rewrite E1, E2. reflexivity.
Qed.

(** ** The call in memory *)
Section Dec.
  Variables (d : decryptor) (j : job).
  Let r := d_ring d.
  Let level := j_level j.
  Let P := firstn (S level) (j_pt j).
  Let ct := j_ct j.
  Let b := j_ctNTT j.
  (** The rows that the call owns. *)
  Definition own : list nat := j_pt j ++ (if b then [] else d_pool d).
  Definition call_ok : Prop :=
    job_fits d j /\ disjoint (inputs j ++ d_sk d) own /\ (b = false -> NoDup (d_pool d) /\ disjoint (d_pool d) (j_pt j)).
  Hypothesis (OK : call_ok).

  Lemma P_nodup : NoDup P.
  Proof. destruct OK as [(_ & _ & H & _) _]. exact (NoDup_firstn _ _ H). Qed.
  Lemma level_pt : level < length (j_pt j).
  Proof. destruct OK as [(H1 & H2 & _) _]. unfold level, j_level, dec_level. lia. Qed.
  Lemma P_length : length P = S level.
  Proof. unfold P. rewrite firstn_length. pose proof level_pt. lia. Qed.
  Lemma in_P a : In a P -> In a (j_pt j).
  Proof. unfold P. intros H. rewrite <- (firstn_skipn (S level)). apply in_or_app. left. exact H. Qed.
  Lemma level_P : level < length P.
  Proof. rewrite P_length. lia. Qed.
  Lemma sk_ok : source_ok level P (d_sk d).
  Proof.
    destruct OK as [(_ & _ & _ & _ & H & _) [D _]]. apply other_ok; [exact H|]. intros a Ha C. apply (D a); [apply in_or_app; right; exact Ha|].
    apply in_or_app. left. apply in_P, C.
  Qed.
  Lemma ct_ok i : i < length ct -> source_ok level P (nth i ct []).
  Proof.
    intros Hi. destruct OK as [(_ & _ & _ & H & _) [D _]]. pose proof (nth_In ct [] Hi) as Hin. apply other_ok; [exact (H _ Hin)|].
    intros a Ha C. apply (D a); [apply in_or_app; left; apply in_concat; eexists; split; [exact Hin|exact Ha]|].
    apply in_or_app. left. apply in_P, C.
  Qed.

  (** Rows read and not written. *)
  Definition kept (m m' : mem) : Prop := (forall i, i < length ct -> content m' (nth i ct []) = content m (nth i ct [])) /\ content m' (d_sk d) = content m (d_sk d).
  Lemma kept_frame (l : list step) m : (forall a, In a (writes l) -> In a own) -> kept m (run l m).
  Proof.
    intros H. destruct OK as [_ [D _]]. split; [intros i Hi|]; apply content_same; intros a Ha; apply run_frame; intros C; apply H in C.
    - apply (D a); [|exact C]. apply in_or_app. left. apply in_concat. exists (nth i ct []). split; [apply nth_In, Hi|exact Ha].
    - apply (D a); [|exact C]. apply in_or_app. right. exact Ha.
  Qed.
  Lemma kept_trans m1 m2 m3 : kept m1 m2 -> kept m2 m3 -> kept m1 m3.
  Proof. intros [A1 A2] [B1 B2]. split; [intros i Hi; rewrite B1, A1 by exact Hi; reflexivity|rewrite B2, A2; reflexivity]. Qed.

  Lemma write_P f srcs a : In a (writes (loop level P srcs f)) -> In a own.
  Proof. rewrite loop_writes by exact level_P. intros H. apply in_or_app. left. apply in_P. rewrite <- (firstn_skipn (S level) P). apply in_or_app. left. exact H. Qed.
  Lemma write_pool f srcs a : b = false -> In a (writes (loop level (d_pool d) srcs f)) -> In a own.
  Proof.
    intros Hb. destruct OK as [(_ & _ & _ & _ & _ & H) _]. rewrite loop_writes by exact H. intros C. unfold own. rewrite Hb. apply in_or_app. right.
    rewrite <- (firstn_skipn (S level)). apply in_or_app. left. exact C.
  Qed.

  Lemma nth_contents m i : nth i (map (content m) ct) [] = content m (nth i ct []).
  Proof. change (@nil (list Z)) with (content m []) at 1. apply map_nth. Qed.

  Lemma step_writes i a : In a (writes (c_decrypt_step d level ct b P i)) -> In a own.
  Proof.
    unfold c_decrypt_step. rewrite !writes_app. intros H. apply in_app_or in H. destruct H as [H|H]; [exact (write_P _ _ _ H)|].
    apply in_app_or in H. destruct H as [H|H].
    - destruct b eqn:Hb; [exact (write_P _ _ _ H)|]. rewrite writes_app in H. apply in_app_or in H. destruct H as [H|H]; [exact (write_pool _ _ _ Hb H)|exact (write_P _ _ _ H)].
    - destruct (_ =? _)%Z in H; [exact (write_P _ _ _ H)|contradiction].
  Qed.

  Lemma step_mem m i : i - 1 < length ct -> content (run (c_decrypt_step d level ct b P i) m) P = dstep r level (map (content m) ct) b (content m (d_sk d)) (content m P) i.
  Proof.
    intros Hi. unfold c_decrypt_step, dstep, decrypt_step. rewrite !run_app.
    set (m1 := run (c_MulCoeffsMontgomeryLvl _ _ _ _ _) m).
    assert (E1 : content m1 P = MulCoeffsMontgomeryLvl r level (content m P) (content m (d_sk d)) (content m P)).
    { apply op2_mem; [exact P_nodup|exact level_P|apply self_ok, level_P|exact sk_ok]. }
    assert (K1 : kept m m1) by (apply kept_frame; intros a Ha; exact (write_P _ _ _ Ha)).
    set (m2 := run (if b then _ else _) m1).
    assert (E2 : content m2 P = AddLvl r level (content m1 P) (if b then content m (nth (i - 1) ct []) else NTTLazyLvl r level (content m (nth (i - 1) ct [])) []) (content m1 P)).
    { subst m2. destruct b eqn:Hb.
      - unfold c_AddLvl. rewrite op2_mem; [|exact P_nodup|exact level_P|apply self_ok, level_P|exact (ct_ok _ Hi)].
        rewrite (proj1 K1 _ Hi). reflexivity.
      - rewrite run_app. set (m2 := run (c_NTTLazyLvl _ _ _ _) m1). pose proof OK as OK2. destruct OK2 as [(_ & _ & _ & H & _ & Hp) [D HP]].
        destruct (HP Hb) as [NP DP]. pose proof (nth_In ct [] Hi) as Hin.
        assert (EP : content m2 (d_pool d) = NTTLazyLvl r level (content m1 (nth (i - 1) ct [])) (content m1 (d_pool d))).
        { apply nttlazy_mem; [exact NP|exact Hp|]. apply other_ok; [exact (H _ Hin)|]. intros a Ha C. apply (D a).
          - apply in_or_app. left. apply in_concat. eexists. split; [exact Hin|exact Ha].
          - unfold own. rewrite Hb. apply in_or_app. right. exact C. }
        assert (EP2 : content m2 P = content m1 P).
        { apply loop_other; [exact Hp|]. intros a Ha C. apply (DP a C). apply in_P, Ha. }
        unfold c_AddLvl. rewrite op2_mem; [|exact P_nodup|exact level_P|apply self_ok, level_P|].
        + rewrite EP2, EP, (proj1 K1 _ Hi). apply op2_ext. intros k Hk. unfold NTTLazyLvl. rewrite !prow_lvl by lia. reflexivity.
        + apply other_ok; [exact Hp|]. intros a Ha C. apply (DP a Ha). apply in_P, C. }
    rewrite nth_contents. transitivity (if (Z.land (Z.of_nat i) 7 =? 7)%Z then ReduceLvl r level (content m2 P) (content m2 P) else content m2 P).
    - destruct (_ =? _)%Z; [|reflexivity]. unfold c_ReduceLvl. apply op1_mem; [exact P_nodup|exact level_P|apply self_ok, level_P].
    - rewrite E2, E1. destruct b; reflexivity.
  Qed.

  Lemma steps_mem m is : Forall (fun i => i - 1 < length ct) is ->
    content (run (concat (map (c_decrypt_step d level ct b P) is)) m) P = fold_left (dstep r level (map (content m) ct) b (content m (d_sk d))) is (content m P).
  Proof.
    revert m. induction is as [|i is IH]; intros m H; [reflexivity|]. apply Forall_cons_iff in H. destruct H as [Hi H]. cbn [map concat fold_left]. rewrite run_app, IH by exact H.
    rewrite step_mem by exact Hi. set (m1 := run _ m). assert (K : kept m m1) by (apply kept_frame; intros a Ha; exact (step_writes _ _ Ha)).
    rewrite (proj2 K). replace (map (content m1) ct) with (map (content m) ct); [reflexivity|].
    apply (nth_ext _ _ [] []); [rewrite !map_length; reflexivity|]. rewrite map_length. intros k Hk. rewrite !nth_contents. symmetry. apply K, Hk.
  Qed.

  Lemma first_mem m : let m1 := run (if b then c_CopyValuesLvl level (nth (length ct - 1) ct []) P else c_NTTLazyLvl r level (nth (length ct - 1) ct []) P) m in
    content m1 P = (if b then CopyValuesLvl level (content m (nth (length ct - 1) ct [])) (content m P) else NTTLazyLvl r level (content m (nth (length ct - 1) ct [])) (content m P)).
  Proof.
    assert (Hc : length ct - 1 < length ct) by (destruct OK as [(H & _) _]; fold ct in H; lia).
    destruct b; [apply copy_mem|apply nttlazy_mem]; (exact P_nodup || exact level_P || exact (ct_ok _ Hc)).
  Qed.
  Lemma map_ct m m1 : kept m m1 -> map (content m1) ct = map (content m) ct.
  Proof.
    intros K. apply (nth_ext _ _ [] []); [rewrite !map_length; reflexivity|]. rewrite map_length. intros k Hk. rewrite !nth_contents. apply K, Hk.
  Qed.

  Lemma decrypt_mem m : content (run (c_Decrypt d ct b (j_pt j) (j_ptNTT j)) m) P = decrypted r m (d_sk d) j.
  Proof.
    unfold c_Decrypt, decrypted. fold ct b. change (dec_level ct (j_pt j)) with level. fold P. rewrite !run_app.
    set (m1 := run (if b then _ else _) m).
    assert (E1 : content m1 P = if b then CopyValuesLvl level (content m (nth (length ct - 1) ct [])) (content m P) else NTTLazyLvl r level (content m (nth (length ct - 1) ct [])) (content m P)) by exact (first_mem m).
    assert (K1 : kept m m1) by (apply kept_frame; intros a Ha; destruct b; exact (write_P _ _ _ Ha)).
    set (is := rev (seq 1 (length ct - 1))).
    assert (Hi : Forall (fun i => i - 1 < length ct) is).
    { apply Forall_forall. intros i Hi. apply in_rev, in_seq in Hi. lia. }
    set (m2 := run (concat _) m1).
    assert (E2 : content m2 P = fold_left (dstep r level (map (content m) ct) b (content m (d_sk d))) is (content m1 P)).
    { subst m2. rewrite steps_mem by exact Hi. rewrite (proj2 K1). rewrite (map_ct _ _ K1). reflexivity. }
    set (m3 := run _ m2).
    assert (E3 : content m3 P = if (Z.land (Z.of_nat (length ct - 1)) 7 =? 7)%Z then content m2 P else ReduceLvl r level (content m2 P) (content m2 P)).
    { subst m3. destruct (_ =? _)%Z; [reflexivity|]. apply op1_mem; [exact P_nodup|exact level_P|apply self_ok, level_P]. }
    replace (content (run (if j_ptNTT j then [] else c_InvNTTLvl (d_ring d) level P P) m3) P) with (if j_ptNTT j then content m3 P else InvNTTLvl r level (content m3 P) (content m3 P)).
    2:{ destruct (j_ptNTT j); [reflexivity|]. symmetry. apply invntt_mem; [exact P_nodup|exact level_P|apply self_ok, level_P]. }
    unfold Decrypt. rewrite map_length, !nth_contents, !content_length. change (Nat.min _ _) with level. rewrite <- content_firstn. fold P.
    rewrite E3, E2, E1. fold is. set (X := if b then _ else _).
    pose proof (dsteps_pool r level (map (content m) ct) b (content m (d_sk d)) is X []) as F. rewrite <- F. clear F.
    match goal with |- context [fst ?t] => set (T := t) end.
    match goal with |- _ = match ?u with pair _ _ => _ end => change u with T end. destruct T. reflexivity.
  Qed.

  (** What the call accesses. *)
  Lemma decrypt_writes a : In a (writes (c_Decrypt d ct b (j_pt j) (j_ptNTT j))) -> In a own.
  Proof.
    unfold c_Decrypt. change (dec_level ct (j_pt j)) with level. fold P. rewrite !writes_app. intros H.
    apply in_app_or in H. destruct H as [H|H]; [destruct b; exact (write_P _ _ _ H)|].
    apply in_app_or in H. destruct H as [H|H].
    - unfold writes in H. rewrite concat_map, map_map in H. apply in_concat in H. destruct H as (x & H1 & H2). apply in_map_iff in H1. destruct H1 as (i & <- & _). exact (step_writes _ _ H2).
    - apply in_app_or in H. destruct H as [H|H]; [destruct (_ =? _)%Z in H; [contradiction|exact (write_P _ _ _ H)]|destruct (j_ptNTT j); [contradiction|exact (write_P _ _ _ H)]].
  Qed.
  Lemma loop_reads' dst srcs f a : Forall (fun s => level < length s) srcs -> (forall s, In s srcs -> forall a, In a s -> In a (inputs j ++ d_sk d ++ own)) ->
    In a (reads (loop level dst srcs f)) -> In a (inputs j ++ d_sk d ++ own).
  Proof. intros H1 H2 H. apply loop_reads in H; [|exact H1]. apply in_concat in H. destruct H as (s & Hs & Ha). exact (H2 s Hs a Ha). Qed.
  Lemma read_P a : In a P -> In a (inputs j ++ d_sk d ++ own).
  Proof. intros H. apply in_or_app. right. apply in_or_app. right. apply in_or_app. left. apply in_P, H. Qed.
  Lemma read_sk a : In a (d_sk d) -> In a (inputs j ++ d_sk d ++ own).
  Proof. intros H. apply in_or_app. right. apply in_or_app. left. exact H. Qed.
  Lemma read_ct i a : i < length ct -> In a (nth i ct []) -> In a (inputs j ++ d_sk d ++ own).
  Proof. intros Hi H. apply in_or_app. left. apply in_concat. eexists. split; [apply nth_In, Hi|exact H]. Qed.
  Lemma read_pool a : b = false -> In a (d_pool d) -> In a (inputs j ++ d_sk d ++ own).
  Proof. intros Hb H. apply in_or_app. right. apply in_or_app. right. unfold own. rewrite Hb. apply in_or_app. right. exact H. Qed.
  Lemma level_sk : level < length (d_sk d).
  Proof. exact (proj1 sk_ok). Qed.
  Lemma level_ct i : i < length ct -> level < length (nth i ct []).
  Proof. intros Hi. exact (proj1 (ct_ok i Hi)). Qed.

  Lemma decrypt_reads a : In a (reads (c_Decrypt d ct b (j_pt j) (j_ptNTT j))) -> In a (inputs j ++ d_sk d ++ own).
  Proof.
    assert (Hc : length ct - 1 < length ct) by (destruct OK as [(H & _) _]; fold ct in H; lia).
    assert (Hp : level < length (d_pool d)) by apply OK.
    unfold c_Decrypt. change (dec_level ct (j_pt j)) with level. fold P. rewrite !reads_app. intros H.
    apply in_app_or in H. destruct H as [H|H].
    { destruct b; (eapply loop_reads'; [| |exact H]; [repeat constructor; apply level_ct, Hc|intros s [<- |[]] x Hx; exact (read_ct _ _ Hc Hx)]). }
    apply in_app_or in H. destruct H as [H|H].
    - unfold reads in H. rewrite concat_map in H. apply in_concat in H. destruct H as (x & H1 & H2). apply in_concat in H1. destruct H1 as (y & H1 & H3). rewrite map_map in H1. apply in_map_iff in H1.
      destruct H1 as (i & <- & Hi). assert (H : In a (reads (c_decrypt_step d level ct b P i))) by (unfold reads; apply in_concat; exists x; auto).
      clear H2 H3 x. apply in_rev, in_seq in Hi. assert (Hi' : i - 1 < length ct) by lia. unfold c_decrypt_step in H. rewrite !reads_app in H.
      apply in_app_or in H. destruct H as [H|H].
      { eapply loop_reads'; [| |exact H]; [repeat constructor; [apply level_P|apply level_sk]|intros s [<- |[<- |[]]] x Hx; [exact (read_P _ Hx)|exact (read_sk _ Hx)]]. }
      apply in_app_or in H. destruct H as [H|H].
      + destruct b eqn:Hb.
        * eapply loop_reads'; [| |exact H]; [repeat constructor; [apply level_P|apply level_ct, Hi']|intros s [<- |[<- |[]]] x Hx; [exact (read_P _ Hx)|exact (read_ct _ _ Hi' Hx)]].
        * rewrite reads_app in H. apply in_app_or in H. destruct H as [H|H].
          -- eapply loop_reads'; [| |exact H]; [repeat constructor; apply level_ct, Hi'|intros s [<- |[]] x Hx; exact (read_ct _ _ Hi' Hx)].
          -- eapply loop_reads'; [| |exact H]; [repeat constructor; [apply level_P|exact Hp]|intros s [<- |[<- |[]]] x Hx; [exact (read_P _ Hx)|exact (read_pool _ Hb Hx)]].
      + destruct (_ =? _)%Z in H; [|contradiction]. eapply loop_reads'; [| |exact H]; [repeat constructor; apply level_P|intros s [<- |[]] x Hx; exact (read_P _ Hx)].
    - apply in_app_or in H. destruct H as [H|H].
      + destruct (_ =? _)%Z in H; [contradiction|]. eapply loop_reads'; [| |exact H]; [repeat constructor; apply level_P|intros s [<- |[]] x Hx; exact (read_P _ Hx)].
      + destruct (j_ptNTT j); [contradiction|]. eapply loop_reads'; [| |exact H]; [repeat constructor; apply level_P|intros s [<- |[]] x Hx; exact (read_P _ Hx)].
  Qed.
End Dec.
