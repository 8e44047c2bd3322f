(** Proofs about interleavings and about the loops over rows. *)
From Verif Require Import Word ModRed Ring NTT RingOps Scaling Rlwe Conc ConcSpec.
Open Scope nat_scope.

Lemma run_app a b m : run (a ++ b) m = run b (run a m).
Proof. unfold run. apply fold_left_app. Qed.
Lemma writes_app a b : writes (a ++ b) = writes a ++ writes b.
Proof. apply map_app. Qed.
Lemma reads_app a b : reads (a ++ b) = reads a ++ reads b.
Proof. unfold reads. rewrite map_app. apply concat_app. Qed.

Lemma exec1_other s m a : a <> wr s -> exec1 m s a = m a.
Proof. intros H. unfold exec1. destruct (Nat.eqb_spec a (wr s)); [contradiction|reflexivity]. Qed.
Lemma exec1_own s m : exec1 m s (wr s) = act s (map m (rd s)).
Proof. unfold exec1. rewrite Nat.eqb_refl. reflexivity. Qed.
Lemma run_frame l : forall m a, ~ In a (writes l) -> run l m a = m a.
Proof.
  induction l as [|s l IH]; intros m a H; [reflexivity|]. cbn in H. change (run l (exec1 m s) a = m a).
  rewrite IH by tauto. apply exec1_other. intros ->. tauto.
Qed.

(** The outcome on the rows accessed depends on these only. *)
Lemma run_agree (P : nat -> Prop) l : forall m m', (forall a, In a (reads l) -> P a) -> (forall a, P a -> m a = m' a) -> forall a, P a -> run l m a = run l m' a.
Proof.
  induction l as [|s l IH]; intros m m' Hr E a Ha; [exact (E a Ha)|]. change (run l (exec1 m s) a = run l (exec1 m' s) a).
  apply IH; [intros b Hb; apply Hr; unfold reads; cbn; apply in_or_app; right; exact Hb| |exact Ha].
  intros b Hb. unfold exec1. destruct (b =? wr s); [|exact (E b Hb)]. f_equal. apply map_ext_in. intros c Hc. apply E, Hr.
  unfold reads. cbn. apply in_or_app. left. exact Hc.
Qed.

Lemma nth_mid {A} (ts1 : list A) t ts2 d : nth (length ts1) (ts1 ++ t :: ts2) d = t.
Proof. rewrite app_nth2, Nat.sub_diag by lia. reflexivity. Qed.
Lemma nth_mid_other {A} (ts1 : list A) t t' ts2 d k : k <> length ts1 -> nth k (ts1 ++ t :: ts2) d = nth k (ts1 ++ t' :: ts2) d.
Proof.
  intros H. destruct (Nat.lt_ge_cases k (length ts1)) as [Hk|Hk]; [rewrite !app_nth1 by lia; reflexivity|].
  rewrite !app_nth2 by lia. destruct (k - length ts1) eqn:E; [lia|reflexivity].
Qed.

Lemma race_free_tail ts1 (x : step) t ts2 : race_free (ts1 ++ (x :: t) :: ts2) -> race_free (ts1 ++ t :: ts2).
Proof.
  intros H i j Hi Hj Hij a Ha. rewrite app_length in Hi, Hj. cbn in Hi, Hj.
  assert (Hi' : i < length (ts1 ++ (x :: t) :: ts2)) by (rewrite app_length; cbn; lia).
  assert (Hj' : j < length (ts1 ++ (x :: t) :: ts2)) by (rewrite app_length; cbn; lia).
  specialize (H i j Hi' Hj' Hij a).
  assert (Sub : forall k b, In b (writes (nth k (ts1 ++ t :: ts2) [])) -> In b (writes (nth k (ts1 ++ (x :: t) :: ts2) []))).
  { intros k b. destruct (Nat.eq_dec k (length ts1)) as [->|Hk]; [rewrite !nth_mid; cbn; tauto|].
    rewrite (nth_mid_other ts1 t (x :: t)) by exact Hk. tauto. }
  assert (Sub2 : forall k b, In b (reads (nth k (ts1 ++ t :: ts2) [])) -> In b (reads (nth k (ts1 ++ (x :: t) :: ts2) []))).
  { intros k b. destruct (Nat.eq_dec k (length ts1)) as [->|Hk]; [rewrite !nth_mid; unfold reads; cbn; intros; apply in_or_app; tauto|].
    rewrite (nth_mid_other ts1 t (x :: t)) by exact Hk. tauto. }
  destruct (H (Sub i a Ha)) as [H1 H2]. split; intros C; [apply H1, Sub, C|apply H2, Sub2, C].
Qed.

Lemma isolation_any ts l : interleaving ts l -> race_free ts -> forall m i, i < length ts -> forall a,
  (forall j, j < length ts -> j <> i -> ~ In a (writes (nth j ts []))) -> run l m a = run (nth i ts []) m a.
Proof.
  intros H.
  induction H as [ts H|ts1 x t ts2 l H IH]; intros RF m i Hi a Ha.
  - assert (E : nth i ts [] = []). { rewrite Forall_forall in H. apply H, nth_In, Hi. } rewrite E. reflexivity.
  - pose proof (race_free_tail _ _ _ _ RF) as RF'. specialize (IH RF'). change (run l (exec1 m x) a = run (nth i (ts1 ++ (x :: t) :: ts2) []) m a).
    assert (Len : length (ts1 ++ t :: ts2) = length (ts1 ++ (x :: t) :: ts2)) by (rewrite !app_length; reflexivity).
    rewrite (IH (exec1 m x) i); [|rewrite Len; exact Hi|].
    + destruct (Nat.eq_dec i (length ts1)) as [->|Hk]; [rewrite !nth_mid; reflexivity|].
      rewrite (nth_mid_other ts1 t (x :: t)) by exact Hk.
      assert (Hm : length ts1 < length (ts1 ++ (x :: t) :: ts2)) by (rewrite app_length; cbn; lia).
      apply (run_agree (fun b => b <> wr x)).
      * intros b Hb ->. apply (RF (length ts1) i Hm Hi (fun e => Hk (eq_sym e)) (wr x)); [rewrite nth_mid; left; reflexivity|exact Hb].
      * intros b Hb. apply exec1_other, Hb.
      * intros ->. apply (Ha (length ts1) Hm (fun e => Hk (eq_sym e))). rewrite nth_mid. left. reflexivity.
    + intros j Hj Hji C. rewrite Len in Hj. apply (Ha j Hj Hji). destruct (Nat.eq_dec j (length ts1)) as [->|Hk].
      * rewrite nth_mid in C |- *. right. exact C.
      * rewrite (nth_mid_other ts1 (x :: t) t) by exact Hk. exact C.
Qed.

Lemma isolation_lemma ts l : interleaving ts l -> race_free ts -> forall m i, i < length ts ->
  forall a, In a (writes (nth i ts []) ++ reads (nth i ts [])) -> run l m a = run (nth i ts []) m a.
Proof.
  intros H RF m i Hi a Ha. apply (isolation_any ts l H RF m i Hi). intros j Hj Hij C.
  destruct (RF j i Hj Hi Hij a C) as [N1 N2]. apply in_app_or in Ha. tauto.
Qed.
Lemma interleaving_writes ts l : interleaving ts l -> forall a, In a (writes l) -> exists t, In t ts /\ In a (writes t).
Proof.
  induction 1 as [ts H|ts1 x t ts2 l H IH]; intros a Ha; [contradiction|]. destruct Ha as [<- |Ha].
  - exists (x :: t). split; [apply in_or_app; right; left; reflexivity|left; reflexivity].
  - destruct (IH a Ha) as (u & Hu & Hau). apply in_app_or in Hu. destruct Hu as [Hu|[<- |Hu]].
    + exists u. split; [apply in_or_app; left; exact Hu|exact Hau].
    + exists (x :: t). split; [apply in_or_app; right; left; reflexivity|right; exact Hau].
    + exists u. split; [apply in_or_app; right; right; exact Hu|exact Hau].
Qed.

(** ** Loops over the rows *)

Lemma content_length m p : length (content m p) = length p.
Proof. apply map_length. Qed.
Lemma content_nth m p i : i < length p -> prow (content m p) i = m (nth i p 0).
Proof. intros H. unfold prow, content. rewrite (nth_indep _ [] (m 0)) by (rewrite map_length; exact H). apply map_nth. Qed.
Lemma content_firstn m p k : content m (firstn k p) = firstn k (content m p).
Proof. unfold content. symmetry. apply firstn_map. Qed.
Lemma content_same m m' p : (forall a, In a p -> m a = m' a) -> content m p = content m' p.
Proof. intros H. apply map_ext_in, H. Qed.

(** A source is the destination itself, or has no row in common with it. *)
Definition source_ok (level : nat) (dst s : list nat) : Prop := level < length s /\ (s = dst \/ disjoint s dst).

Lemma loop_writes level dst srcs f : level < length dst -> writes (loop level dst srcs f) = firstn (S level) dst.
Proof.
  intros H. unfold writes, loop. rewrite map_map. cbn [wr].
  assert (G : forall n (l : list nat), n <= length l -> map (fun i => nth i l 0) (seq 0 n) = firstn n l).
  { induction n as [|n IH]; intros l Hl; [reflexivity|]. destruct l as [|x l]; [cbn in Hl; lia|]. cbn. f_equal.
    rewrite <- seq_shift, map_map. cbn. apply IH. cbn in Hl. lia. }
  apply G. lia.
Qed.
Lemma loop_reads level dst srcs f a : Forall (fun s => level < length s) srcs -> In a (reads (loop level dst srcs f)) -> In a (concat srcs).
Proof.
  intros Hs H. unfold reads, loop in H. rewrite map_map in H. cbn [rd] in H. apply in_concat in H. destruct H as (x & H1 & H2).
  apply in_map_iff in H1. destruct H1 as (i & <- & Hi). apply in_seq in Hi. apply in_map_iff in H2. destruct H2 as (s & <- & H2).
  apply in_concat. exists s. split; [exact H2|]. rewrite Forall_forall in Hs. apply nth_In. specialize (Hs s H2). lia.
Qed.

Lemma loop_spec n dst srcs f m : NoDup dst -> n <= length dst -> Forall (fun s => n <= length s /\ (s = dst \/ disjoint s dst)) srcs ->
  let m' := run (map (fun i => Step (nth i dst 0) (map (fun s => nth i s 0) srcs) (f i)) (seq 0 n)) m in
  (forall i, i < n -> m' (nth i dst 0) = f i (map (fun s => m (nth i s 0)) srcs)) /\ (forall i, n <= i -> i < length dst -> m' (nth i dst 0) = m (nth i dst 0)).
Proof.
  intros ND. induction n as [|n IH]; intros Hn Hs m'; [split; [lia|reflexivity]|].
  assert (Hs' : Forall (fun s => n <= length s /\ (s = dst \/ disjoint s dst)) srcs).
  { eapply Forall_impl; [|exact Hs]. cbn. intros s [? ?]. split; [lia|assumption]. }
  destruct (IH ltac:(lia) Hs') as [I1 I2]. subst m'. rewrite seq_S, map_app, run_app. cbn [map Nat.add].
  set (m0 := run _ m) in *.
  set (st := Step _ _ _). change (run [st] m0) with (exec1 m0 st).
  assert (Ne : forall i, i < length dst -> i <> n -> nth i dst 0 <> nth n dst 0).
  { intros i Hi Hin E. apply Hin. apply (proj1 (NoDup_nth dst 0) ND); [exact Hi|lia|exact E]. }
  split.
  - intros i Hi. destruct (Nat.eq_dec i n) as [->|Hin].
    + change (nth n dst 0) with (wr st). rewrite exec1_own. cbn [act rd st]. f_equal. rewrite map_map. apply map_ext_in. intros s Hin.
      rewrite Forall_forall in Hs. destruct (Hs s Hin) as [Hl [-> | Hd]]; [apply I2; lia|].
      subst m0. apply run_frame. rewrite writes_app || idtac. unfold writes. rewrite map_map. cbn [wr]. intros C. apply in_map_iff in C. destruct C as (k & Ek & Hk). apply in_seq in Hk.
      apply (Hd (nth n s 0)); [apply nth_In; lia|]. rewrite <- Ek. apply nth_In. lia.
    + rewrite exec1_other by (apply Ne; lia). apply I1. lia.
  - intros i Hi Hi2. rewrite exec1_other by (apply Ne; lia). apply I2; lia.
Qed.

(** A loop computes what the corresponding operation of RingOps.v does. *)
Lemma loop_lvl level dst srcs f m : NoDup dst -> level < length dst -> Forall (source_ok level dst) srcs ->
  content (run (loop level dst srcs f) m) dst = lvl (S level) (fun i => f i (map (fun s => prow (content m s) i) srcs)) (content m dst).
Proof.
  intros ND Hd Hs. unfold loop. assert (Hs' : Forall (fun s => S level <= length s /\ (s = dst \/ disjoint s dst)) srcs).
  { eapply Forall_impl; [|exact Hs]. intros s [? ?]. split; [lia|assumption]. }
  destruct (loop_spec (S level) dst srcs f m ND ltac:(lia) Hs') as [I1 I2]. cbv zeta in I1, I2. set (m' := run _ m) in *. clearbody m'.
  apply (nth_ext _ _ [] []); [unfold lvl; rewrite app_length, map_length, seq_length, skipn_length, !content_length; lia|].
  rewrite content_length. intros i Hi. unfold lvl. change (nth i (content m' dst) []) with (prow (content m' dst) i). rewrite content_nth by exact Hi.
  destruct (Nat.lt_ge_cases i (S level)) as [Hl|Hl].
  - rewrite app_nth1 by (rewrite map_length, seq_length; lia). rewrite I1 by lia.
    rewrite (nth_indep _ [] (f 0 (map (fun s => prow (content m s) 0) srcs))) by (rewrite map_length, seq_length; lia).
    change (f 0 (map (fun s => prow (content m s) 0) srcs)) with ((fun i => f i (map (fun s => prow (content m s) i) srcs)) 0).
    rewrite map_nth, seq_nth by lia. cbn [Nat.add]. f_equal. apply map_ext_in. intros s Hin. rewrite Forall_forall in Hs. destruct (Hs s Hin) as [Hls _].
    symmetry. apply content_nth. lia.
  - rewrite I2 by lia. rewrite app_nth2 by (rewrite map_length, seq_length; lia). rewrite map_length, seq_length.
    rewrite <- (content_nth m dst i Hi). unfold prow. rewrite <- (firstn_skipn (S level) (content m dst)) at 1.
    rewrite app_nth2 by (rewrite firstn_length, content_length; lia). rewrite firstn_length, content_length. f_equal. lia.
Qed.
Lemma loop_other level dst srcs f m p : level < length dst -> disjoint p dst -> content (run (loop level dst srcs f) m) p = content m p.
Proof.
  intros Hl Hd. apply content_same. intros a Ha. apply run_frame. rewrite loop_writes by exact Hl. intros C. apply (Hd a Ha). rewrite <- (firstn_skipn (S level) dst). apply in_or_app. left. exact C.
Qed.
