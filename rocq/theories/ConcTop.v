(** Goroutines with their decryptors or encryptors: each gets what it would get alone. *)
From Verif Require Import Word ModRed Ring NTT RingOps Scaling Rlwe Conc ConcSpec ConcProofs ConcDec.
Open Scope nat_scope.

Lemma in_concat_map {A} (f : A -> list nat) l x a : In x l -> In a (f x) -> In a (concat (map f l)).
Proof. intros H1 H2. apply in_concat. exists (f x). split; [apply in_map, H1|exact H2]. Qed.
Lemma concat_map_in {A} (f : A -> list nat) l a : In a (concat (map f l)) -> exists x, In x l /\ In a (f x).
Proof. intros H. apply in_concat in H. destruct H as (y & H1 & H2). apply in_map_iff in H1. destruct H1 as (x & <- & H1). eauto. Qed.
Lemma NoDup_app_iff' {A} (l1 l2 : list A) : NoDup (l1 ++ l2) <-> NoDup l1 /\ NoDup l2 /\ (forall a, In a l1 -> ~ In a l2).
Proof.
  induction l1 as [|x l1 IH]; cbn; [split; [intros H; repeat split; [constructor|exact H|tauto]|tauto]|].
  rewrite !NoDup_cons_iff, IH, in_app_iff. split.
  - intros (H1 & H2 & H3 & H4). repeat split; [tauto|exact H2|exact H3|]. intros a [-> |Ha]; [tauto|apply H4, Ha].
  - intros ((H1 & H2) & H3 & H4). repeat split; [|exact H2|exact H3|intros a Ha; apply H4; right; exact Ha]. intros [C|C]; [tauto|]. apply (H4 x); [left; reflexivity|exact C].
Qed.

Lemma NoDup_concat_nth {A} (ls : list (list A)) : NoDup (concat ls) ->
  (forall i, NoDup (nth i ls [])) /\ forall i j, i <> j -> forall a, In a (nth i ls []) -> ~ In a (nth j ls []).
Proof.
  induction ls as [|l ls IH]; intros H; [split; [intros [|i]; constructor|intros [|i] j _ a []]|].
  cbn in H. apply NoDup_app_iff' in H. destruct H as (H1 & H2 & H3). destruct (IH H2) as [I1 I2]. split; [intros [|i]; [exact H1|apply I1]|].
  assert (Sub : forall k a, In a (nth k ls []) -> In a (concat ls)).
  { intros k a Ha. destruct (Nat.lt_ge_cases k (length ls)) as [Hk|Hk]; [apply in_concat; exists (nth k ls []); split; [apply nth_In, Hk|exact Ha]|rewrite nth_overflow in Ha by exact Hk; contradiction]. }
  intros [|i] [|j] Hij a Ha C; cbn in Ha, C; [lia|exact (H3 a Ha (Sub j a C))|exact (H3 a C (Sub i a Ha))|exact (I2 i j ltac:(lia) a Ha C)].
Qed.
Lemma nth_map_nil {A B} (f : list A -> list B) ls i : f [] = [] -> nth i (map f ls) [] = f (nth i ls []).
Proof. intros E. rewrite <- E at 1. apply map_nth. Qed.

(** Calls of any kind: the rows [out] that a call writes, those [inp] that it reads, whether it uses the buffer, its steps, its outcome. *)
Section Calls.
  Context {J R : Type} (out inp : J -> list nat) (nobuf : J -> bool) (fits : decryptor -> J -> Prop) (code : decryptor -> J -> list step)
    (res : mem -> J -> R) (want : Ring -> mem -> list nat -> J -> R).
  Definition g_own (d : decryptor) (j : J) : list nat := out j ++ (if nobuf j then [] else d_pool d).
  Definition g_ok (d : decryptor) (j : J) : Prop :=
    fits d j /\ disjoint (inp j ++ d_sk d) (g_own d j) /\ (nobuf j = false -> NoDup (d_pool d) /\ disjoint (d_pool d) (out j)).
  Definition g_outputs (js : list J) : list nat := concat (map out js).
  Definition g_run (d : decryptor) (js : list J) : list step := concat (map (code d) js).
  Hypothesis (code_writes : forall d j, g_ok d j -> forall a, In a (writes (code d j)) -> In a (g_own d j)).
  Hypothesis (code_reads : forall d j, g_ok d j -> forall a, In a (reads (code d j)) -> In a (inp j ++ d_sk d ++ g_own d j)).
  Hypothesis (code_mem : forall d j, g_ok d j -> forall m, res (run (code d j) m) j = want (d_ring d) m (d_sk d) j).
  Hypothesis (res_same : forall m m' j, (forall a, In a (out j) -> m a = m' a) -> res m j = res m' j).
  Hypothesis (want_same : forall r m m' sk j, (forall a, In a (out j ++ inp j ++ sk) -> m a = m' a) -> want r m sk j = want r m' sk j).

Definition ins (d : decryptor) (js : list J) : list nat := concat (map inp js) ++ d_sk d.
Definition touched (d : decryptor) (js : list J) : list nat := concat (map (g_own d) js).
Definition thread_ok (d : decryptor) (js : list J) : Prop :=
  Forall (fits d) js /\ NoDup (g_outputs js) /\ disjoint (g_outputs js) (ins d js) /\
  (forall j, In j js -> nobuf j = false -> NoDup (d_pool d) /\ disjoint (d_pool d) (g_outputs js ++ ins d js)).

Lemma g_outputs_in js j a : In j js -> In a (out j) -> In a (g_outputs js).
Proof. apply (in_concat_map out). Qed.
Lemma own_cases d j a : In a (g_own d j) -> In a (out j) \/ (nobuf j = false /\ In a (d_pool d)).
Proof. unfold g_own. intros H. apply in_app_or in H. destruct H as [H|H]; [tauto|]. destruct (nobuf j); [contradiction|tauto]. Qed.

Lemma thread_call d js j : thread_ok d js -> In j js -> g_ok d j.
Proof.
  intros (F & N & D & HP) Hj. split; [rewrite Forall_forall in F; exact (F j Hj)|].
  assert (Hin : forall a, In a (inp j ++ d_sk d) -> In a (ins d js)).
  { intros a Ha. apply in_app_or in Ha. apply in_or_app. destruct Ha as [Ha|Ha]; [left; apply (in_concat_map inp js j); assumption|right; exact Ha]. }
  split.
  - intros a Ha C. apply Hin in Ha. apply own_cases in C. destruct C as [C|[Hb C]]; [exact (D a (g_outputs_in _ _ _ Hj C) Ha)|].
    apply (proj2 (HP j Hj Hb) a C). apply in_or_app. right. exact Ha.
  - intros Hb. destruct (HP j Hj Hb) as [H1 H2]. split; [exact H1|]. intros a Ha C. apply (H2 a Ha). apply in_or_app. left. exact (g_outputs_in _ _ _ Hj C).
Qed.
Lemma thread_tail d j js : thread_ok d (j :: js) -> thread_ok d js.
Proof.
  intros (F & N & D & HP). apply Forall_cons_iff in F. unfold g_outputs in N. cbn [map concat] in N. apply NoDup_app_iff' in N.
  assert (S1 : forall a, In a (ins d js) -> In a (ins d (j :: js))).
  { intros a Ha. apply in_app_or in Ha. apply in_or_app. destruct Ha as [Ha|Ha]; [left; cbn; apply in_or_app; right; exact Ha|right; exact Ha]. }
  assert (S2 : forall a, In a (g_outputs js) -> In a (g_outputs (j :: js))).
  { intros a Ha. unfold g_outputs. cbn. apply in_or_app. right. exact Ha. }
  split; [tauto|]. split; [tauto|]. split; [intros a Ha C; exact (D a (S2 a Ha) (S1 a C))|].
  intros k Hk Hb. destruct (HP k (or_intror Hk) Hb) as [H1 H2]. split; [exact H1|]. intros a Ha C. apply (H2 a Ha).
  apply in_app_or in C. apply in_or_app. destruct C as [C|C]; [left; exact (S2 a C)|right; exact (S1 a C)].
Qed.

Lemma run_writes d js a : thread_ok d js -> In a (writes (g_run d js)) -> In a (touched d js).
Proof.
  intros T H. unfold writes, g_run in H. rewrite concat_map, map_map in H. apply concat_map_in in H. destruct H as (j & Hj & H).
  apply (in_concat_map (g_own d) js j a Hj). exact (code_writes d j (thread_call d js j T Hj) a H).
Qed.
Lemma run_reads d js a : thread_ok d js -> In a (reads (g_run d js)) -> In a (ins d js ++ touched d js).
Proof.
  intros T H. unfold reads, g_run in H. rewrite concat_map in H. apply in_concat in H. destruct H as (x & H1 & H2). apply in_concat in H1. destruct H1 as (y & H1 & H3). rewrite map_map in H1. apply in_map_iff in H1.
  destruct H1 as (j & <- & Hj). assert (H : In a (reads (code d j))) by (unfold reads; apply in_concat; exists x; auto).
  apply (code_reads d j (thread_call d js j T Hj)) in H. apply in_app_or in H. apply in_or_app. destruct H as [H|H]; [left; apply in_or_app; left; exact (in_concat_map inp js j a Hj H)|].
  apply in_app_or in H. destruct H as [H|H]; [left; apply in_or_app; right; exact H|right; exact (in_concat_map (g_own d) js j a Hj H)].
Qed.

(** One goroutine alone. *)
Lemma thread_results d js : thread_ok d js -> forall m j, In j js -> res (run (g_run d js) m) j = want (d_ring d) m (d_sk d) j.
Proof.
  induction js as [|j0 js IH]; intros T m j Hj; [contradiction|].
  pose proof (thread_tail _ _ _ T) as T'. pose proof (thread_call _ _ j0 T (or_introl eq_refl)) as C0.
  unfold g_run. cbn [map concat]. rewrite run_app. fold (g_run d js). set (m1 := run (code d j0) m).
  destruct T as (F & N & D & HP). unfold g_outputs in N. cbn [map concat] in N. apply NoDup_app_iff' in N. destruct N as (N1 & N2 & N3).
  destruct Hj as [<- |Hj].
  - rewrite (res_same _ m1).
    + exact (code_mem d j0 C0 m).
    + intros a Ha. apply run_frame. intros C. apply (run_writes _ _ _ T') in C. apply concat_map_in in C. destruct C as (k & Hk & C).
      pose proof Ha as Ha'.
      apply own_cases in C. destruct C as [C|[Hb C]]; [exact (N3 a Ha' (g_outputs_in _ _ _ Hk C))|].
      apply (proj2 (HP k (or_intror Hk) Hb) a C). apply in_or_app. left. apply (g_outputs_in (j0 :: js) j0 a); [left; reflexivity|exact Ha'].
  - rewrite (IH T' m1 j Hj).
    assert (K : forall a, In a (out j ++ inp j ++ d_sk d) -> m1 a = m a).
    { intros a Ha. apply run_frame. intros C. apply (code_writes d j0 C0) in C. apply own_cases in C.
      assert (Ha' : In a (out j) \/ In a (ins d (j0 :: js))).
      { apply in_app_or in Ha. destruct Ha as [Ha|Ha]; [tauto|]. right. apply in_app_or in Ha. apply in_or_app.
        destruct Ha as [Ha|Ha]; [left; apply (in_concat_map inp (j0 :: js) j a); [right; exact Hj|exact Ha]|right; exact Ha]. }
      destruct C as [C|[Hb C]].
      - destruct Ha' as [Ha'|Ha']; [exact (N3 a C (g_outputs_in _ _ _ Hj Ha'))|]. exact (D a (g_outputs_in (j0 :: js) j0 a (or_introl eq_refl) C) Ha').
      - apply (proj2 (HP j0 (or_introl eq_refl) Hb) a C). apply in_or_app. destruct Ha' as [Ha'|Ha']; [left; exact (g_outputs_in (j0 :: js) j a (or_intror Hj) Ha')|right; exact Ha']. }
    apply want_same, K.
Qed.

(** ** Several goroutines *)
Definition threads (ds : list decryptor) (jss : list (list J)) : list (list step) := map (fun p => g_run (fst p) (snd p)) (combine ds jss).
Lemma nth_threads ds jss d0 i : length jss = length ds -> i < length ds -> nth i (threads ds jss) [] = g_run (nth i ds d0) (nth i jss []).
Proof.
  intros HL Hi. pose proof (map_nth (fun p => g_run (fst p) (snd p)) (combine ds jss) (d0, []) i) as E. rewrite combine_nth in E by (symmetry; exact HL).
  cbn [fst snd] in E. rewrite <- E. apply nth_indep. unfold threads. rewrite map_length, combine_length. lia.
Qed.
Lemma length_threads ds jss : length jss = length ds -> length (threads ds jss) = length ds.
Proof. intros HL. unfold threads. rewrite map_length, combine_length. lia. Qed.

Section System.
  Variables (ds : list decryptor) (jss : list (list J)) (d0 : decryptor).
  Hypothesis (HL : length jss = length ds).
  Hypothesis (T : forall i, i < length ds -> thread_ok (nth i ds d0) (nth i jss [])).
  Hypothesis (D : forall i j, i < length ds -> j < length ds -> i <> j ->
    disjoint (touched (nth i ds d0) (nth i jss [])) (ins (nth j ds d0) (nth j jss []) ++ touched (nth j ds d0) (nth j jss []))).

  Lemma system_race_free : race_free (threads ds jss).
  Proof.
    intros i j Hi Hj Hij a Ha. rewrite length_threads in Hi, Hj by exact HL. rewrite (nth_threads ds jss d0 i) in Ha by assumption.
    rewrite (nth_threads ds jss d0 j) by assumption. apply (run_writes _ _ _ (T i Hi)) in Ha. split; intros C.
    - apply (run_writes _ _ _ (T j Hj)) in C. apply (D i j Hi Hj Hij a Ha). apply in_or_app. right. exact C.
    - apply (run_reads _ _ _ (T j Hj)) in C. exact (D i j Hi Hj Hij a Ha C).
  Qed.
  Lemma system_results l m : interleaving (threads ds jss) l -> forall i j, i < length ds -> In j (nth i jss []) ->
    res (run l m) j = want (d_ring (nth i ds d0)) m (d_sk (nth i ds d0)) j.
  Proof.
    intros H i j Hi Hj. rewrite <- (thread_results _ _ (T i Hi) m j Hj). apply res_same. intros a Ha.
    rewrite (isolation_any _ _ H system_race_free m i); [rewrite (nth_threads ds jss d0) by assumption; reflexivity|rewrite length_threads by exact HL; exact Hi|].
    intros k Hk Hki C. rewrite length_threads in Hk by exact HL. rewrite (nth_threads ds jss d0) in C by assumption.
    apply (run_writes _ _ _ (T k Hk)) in C. apply (D k i Hk Hi Hki a C). apply in_or_app. right. apply (in_concat_map (g_own _) _ j a Hj).
    unfold g_own. apply in_or_app. left. exact Ha.
  Qed.
  Lemma system_frame l m a : interleaving (threads ds jss) l -> (forall i, i < length ds -> ~ In a (touched (nth i ds d0) (nth i jss []))) -> run l m a = m a.
  Proof.
    intros H Ha. apply run_frame. intros C. destruct (interleaving_writes _ _ H a C) as (t & Ht & Hat).
    destruct (In_nth _ _ [] Ht) as (i & Hi & <-). rewrite length_threads in Hi by exact HL. rewrite (nth_threads ds jss d0) in Hat by assumption.
    exact (Ha i Hi (run_writes _ _ _ (T i Hi) Hat)).
  Qed.
End System.

(** ** Decryptors made by ShallowCopy and WithKey *)
Definition pools_ok (d0 : decryptor) (st0 : state) (ds : list decryptor) (st : state) : Prop :=
  fst st0 <= fst st /\ (forall a, a < fst st0 -> snd st a = snd st0 a) /\
  (forall d, In d ds -> d_ring d = d_ring d0) /\ 0 < length ds /\ nth 0 ds d0 = d0 /\
  (forall i, 0 < i -> i < length ds -> NoDup (d_pool (nth i ds d0)) /\ forall a, In a (d_pool (nth i ds d0)) -> fst st0 <= a < fst st) /\
  (forall i j, 0 < i -> 0 < j -> i < length ds -> j < length ds -> i <> j -> disjoint (d_pool (nth i ds d0)) (d_pool (nth j ds d0))).

Lemma pools_add d0 st0 ds st d sk : pools_ok d0 st0 ds st -> In d ds ->
  pools_ok d0 st0 (ds ++ [Decryptor (d_ring d) (fst (NewPoly (d_ring d) st)) sk]) (snd (NewPoly (d_ring d) st)).
Proof.
  intros (A & B & C & E & F & G & H) Hd. destruct st as [nx m]. cbn [NewPoly fst snd] in *. set (n := length (rmods (d_ring d))). set (d' := Decryptor _ _ _).
  assert (Last : forall i, i < length (ds ++ [d']) -> i < length ds \/ i = length ds) by (intros i; rewrite app_length; cbn; lia).
  assert (Old : forall i, i < length ds -> nth i (ds ++ [d']) d0 = nth i ds d0) by (intros i Hi; apply app_nth1, Hi).
  assert (New : nth (length ds) (ds ++ [d']) d0 = d') by (apply nth_mid).
  split; [cbn [fst snd]; lia|]. split.
  { intros a Ha. cbn [fst snd]. rewrite (proj2 (Nat.leb_gt _ _)) by lia. cbn. apply B, Ha. }
  split; [intros x Hx; apply in_app_or in Hx; destruct Hx as [Hx|[<- |[]]]; [exact (C x Hx)|exact (C d Hd)]|].
  split; [rewrite app_length; cbn; lia|]. split; [rewrite Old by exact E; exact F|]. split.
  - intros i Hi Hl. cbn [fst snd]. destruct (Last i Hl) as [Hi2| ->].
    + rewrite Old by exact Hi2. destruct (G i Hi Hi2) as [G1 G2]. split; [exact G1|]. intros a Ha. specialize (G2 a Ha). lia.
    + rewrite New. split; [apply seq_NoDup|]. intros a Ha. apply in_seq in Ha. fold n in Ha. lia.
  - intros i j Hi0 Hj0 Hi Hj Hij. destruct (Last i Hi) as [Hi2|Ei]; destruct (Last j Hj) as [Hj2|Ej].
    + rewrite !Old by assumption. exact (H i j Hi0 Hj0 Hi2 Hj2 Hij).
    + rewrite Ej, New, Old by exact Hi2. intros a Ha Cc. destruct (G i Hi0 Hi2) as [_ G2]. specialize (G2 a Ha). apply in_seq in Cc. lia.
    + rewrite Ei, New, Old by exact Hj2. intros a Ha Cc. destruct (G j Hj0 Hj2) as [_ G2]. specialize (G2 a Cc). apply in_seq in Ha. lia.
    + lia.
Qed.
Lemma copies_pools d0 st0 ds st : copies_of d0 st0 ds st -> pools_ok d0 st0 ds st.
Proof.
  induction 1 as [|ds st d d' st' _ IH Hd E|ds st d sk d' st' _ IH Hd _ E].
  - split; [lia|]. split; [reflexivity|]. split; [intros d [<- |[]]; reflexivity|]. split; [cbn; lia|]. split; [reflexivity|]. cbn. split; intros; lia.
  - unfold ShallowCopy in E. pose proof (pools_add d0 st0 ds st d (d_sk d) IH Hd) as P. destruct (NewPoly (d_ring d) st) as [p s]. injection E as <- <-. exact P.
  - unfold WithKey in E. pose proof (pools_add d0 st0 ds st d sk IH Hd) as P. destruct (NewPoly (d_ring d) st) as [p s]. injection E as <- <-. exact P.
Qed.

Lemma g_outputs_concat jss : g_outputs (concat jss) = concat (map g_outputs jss).
Proof. induction jss as [|js jss IH]; [reflexivity|]. cbn [concat map]. unfold g_outputs in *. rewrite map_app, concat_app, IH. reflexivity. Qed.
Section Copies.
  Variables (d0 : decryptor) (st0 : state) (ds : list decryptor) (st : state) (jss : list (list J)).
  Hypothesis (HC : copies_of d0 st0 ds st) (HL : length jss = length ds).
  Hypothesis (HF : forall i, i < length ds -> Forall (fits (nth i ds d0)) (nth i jss [])).
  Hypothesis (HS : let js := concat jss in
    let ins := concat (map inp js) ++ concat (map d_sk ds) in
    Forall (fun a => a < fst st0) (g_outputs js ++ ins ++ d_pool d0) /\ NoDup (d_pool d0) /\
    NoDup (g_outputs js) /\ disjoint (g_outputs js) ins /\ disjoint (d_pool d0) (g_outputs js ++ ins)).

  Lemma job_in i j : In j (nth i jss []) -> In j (concat jss).
  Proof. intros H. destruct (Nat.lt_ge_cases i (length jss)) as [Hk|Hk]; [apply in_concat; exists (nth i jss []); split; [apply nth_In, Hk|exact H]|rewrite nth_overflow in H by exact Hk; contradiction]. Qed.
  Let ALL := concat (map inp (concat jss)) ++ concat (map d_sk ds).
  Lemma ins_all i a : i < length ds -> In a (ins (nth i ds d0) (nth i jss [])) -> In a ALL.
  Proof.
    intros Hi H. apply in_app_or in H. apply in_or_app. destruct H as [H|H].
    - left. apply concat_map_in in H. destruct H as (j & Hj & H). exact (in_concat_map inp _ j a (job_in _ _ Hj) H).
    - right. exact (in_concat_map d_sk ds _ a (nth_In ds d0 Hi) H).
  Qed.
  Lemma out_all i a : In a (g_outputs (nth i jss [])) -> In a (g_outputs (concat jss)).
  Proof. intros H. apply concat_map_in in H. destruct H as (j & Hj & H). exact (g_outputs_in _ j a (job_in _ _ Hj) H). Qed.

  (** The buffer of each decryptor is its own, and no data. *)
  Lemma pool_facts i : i < length ds -> NoDup (d_pool (nth i ds d0)) /\ disjoint (d_pool (nth i ds d0)) (g_outputs (concat jss) ++ ALL) /\
    forall j, j < length ds -> i <> j -> disjoint (d_pool (nth i ds d0)) (d_pool (nth j ds d0)).
  Proof.
    intros Hi. destruct (copies_pools _ _ _ _ HC) as (A & B & C & E & F & G & H). destruct HS as (S1 & S2 & S3 & S4 & S5). fold ALL in S1, S4, S5.
    rewrite Forall_forall in S1.
    assert (Low : forall a, In a (g_outputs (concat jss) ++ ALL ++ d_pool d0) -> a < fst st0) by exact S1.
    destruct i as [|i].
    - rewrite F. split; [exact S2|]. split; [exact S5|]. intros j Hj Hij a Ha Cc. destruct (G j ltac:(lia) Hj) as [_ G2]. specialize (G2 a Cc).
      specialize (Low a). assert (a < fst st0) by (apply Low; rewrite !in_app_iff; tauto). lia.
    - destruct (G (S i) ltac:(lia) Hi) as [G1 G2]. split; [exact G1|]. split.
      + intros a Ha Cc. specialize (G2 a Ha). assert (a < fst st0) by (apply Low; rewrite app_assoc; apply in_or_app; left; exact Cc). lia.
      + intros j Hj Hij. destruct j as [|j]; [|exact (H (S i) (S j) ltac:(lia) ltac:(lia) Hi Hj Hij)].
        rewrite F. intros a Ha Cc. specialize (G2 a Ha). assert (a < fst st0) by (apply Low; rewrite !in_app_iff; tauto). lia.
  Qed.
  Lemma copies_thread i : i < length ds -> thread_ok (nth i ds d0) (nth i jss []).
  Proof.
    intros Hi. destruct (pool_facts i Hi) as (P1 & P2 & _). destruct HS as (_ & _ & S3 & S4 & _). fold ALL in S4. split; [exact (HF i Hi)|].
    rewrite g_outputs_concat in S3. destruct (NoDup_concat_nth _ S3) as [N1 _]. split; [specialize (N1 i); rewrite nth_map_nil in N1 by reflexivity; exact N1|].
    split; [intros a Ha C; exact (S4 a (out_all _ _ Ha) (ins_all _ _ Hi C))|].
    intros j Hj Hb. split; [exact P1|]. intros a Ha C. apply (P2 a Ha). apply in_app_or in C. apply in_or_app. destruct C as [C|C]; [left; exact (out_all _ _ C)|right; exact (ins_all _ _ Hi C)].
  Qed.
  Lemma touched_cases i a : In a (touched (nth i ds d0) (nth i jss [])) -> In a (g_outputs (nth i jss [])) \/ In a (d_pool (nth i ds d0)).
  Proof. intros H. apply concat_map_in in H. destruct H as (j & Hj & H). apply own_cases in H. destruct H as [H|[_ H]]; [left; exact (g_outputs_in _ _ _ Hj H)|right; exact H]. Qed.
  Lemma copies_disjoint i j : i < length ds -> j < length ds -> i <> j ->
    disjoint (touched (nth i ds d0) (nth i jss [])) (ins (nth j ds d0) (nth j jss []) ++ touched (nth j ds d0) (nth j jss [])).
  Proof.
    intros Hi Hj Hij a Ha C. apply touched_cases in Ha. destruct (pool_facts i Hi) as (_ & P2 & P3). destruct (pool_facts j Hj) as (_ & Q2 & _).
    destruct HS as (_ & _ & S3 & S4 & _). fold ALL in S4. rewrite g_outputs_concat in S3. destruct (NoDup_concat_nth _ S3) as [_ N2]. specialize (N2 i j Hij a). rewrite !nth_map_nil in N2 by reflexivity.
    apply in_app_or in C. destruct C as [C|C].
    - apply (ins_all _ _ Hj) in C. destruct Ha as [Ha|Ha]; [exact (S4 a (out_all _ _ Ha) C)|]. apply (P2 a Ha). apply in_or_app. right. exact C.
    - apply touched_cases in C. destruct Ha as [Ha|Ha]; destruct C as [C|C].
      + exact (N2 Ha C).
      + apply (Q2 a C). apply in_or_app. left. exact (out_all _ _ Ha).
      + apply (P2 a Ha). apply in_or_app. left. exact (out_all _ _ C).
      + exact (P3 j Hj Hij a Ha C).
  Qed.

  Lemma copies_race_free : race_free (threads ds jss).
  Proof. exact (system_race_free ds jss d0 HL copies_thread copies_disjoint). Qed.
  Lemma copies_results l : interleaving (threads ds jss) l ->
    (forall i j, i < length ds -> In j (nth i jss []) -> res (run l (snd st)) j = want (d_ring d0) (snd st) (d_sk (nth i ds d0)) j) /\
    (forall a, In a ALL -> run l (snd st) a = snd st0 a).
  Proof.
    intros H. pose proof (copies_pools _ _ _ _ HC) as PO. split.
    - intros i j Hi Hj. rewrite (system_results ds jss d0 HL copies_thread copies_disjoint l (snd st) H i j Hi Hj).
      rewrite (proj1 (proj2 (proj2 PO)) (nth i ds d0) (nth_In ds d0 Hi)). reflexivity.
    - intros a Ha. rewrite (system_frame ds jss d0 HL copies_thread l (snd st) a H).
      + apply (proj1 (proj2 PO)). destruct HS as (S1 & _). rewrite Forall_forall in S1. apply S1. fold ALL. rewrite !in_app_iff. unfold ALL in Ha. rewrite in_app_iff in Ha. unfold ALL. rewrite in_app_iff. tauto.
      + intros i Hi C. apply touched_cases in C. destruct HS as (_ & _ & _ & S4 & _). fold ALL in S4. destruct C as [C|C]; [exact (S4 a (out_all _ _ C) Ha)|].
        destruct (pool_facts i Hi) as (_ & P2 & _). apply (P2 a C). apply in_or_app. right. exact Ha.
  Qed.
End Copies.

Section Shared.
  Variables (d : decryptor) (jss : list (list J)).
  Hypothesis (HF : Forall (Forall (fun j => fits d j /\ nobuf j = true)) jss).
  Hypothesis (HN : NoDup (g_outputs (concat jss))) (HD : disjoint (g_outputs (concat jss)) (concat (map inp (concat jss)) ++ d_sk d)).
  Let ds := map (fun _ => d) jss.
  Lemma shared_nth i : nth i ds d = d.
  Proof. unfold ds. change d with ((fun _ : list J => d) []) at 2. rewrite map_nth. reflexivity. Qed.
  Lemma shared_thread i : thread_ok d (nth i jss []).
  Proof.
    assert (F : Forall (fun j => fits d j /\ nobuf j = true) (nth i jss [])).
    { destruct (Nat.lt_ge_cases i (length jss)) as [Hk|Hk]; [rewrite Forall_forall in HF; apply HF, nth_In, Hk|rewrite nth_overflow by exact Hk; constructor]. }
    split; [eapply Forall_impl; [|exact F]; cbn; tauto|]. rewrite g_outputs_concat in HN. destruct (NoDup_concat_nth _ HN) as [N1 _]. specialize (N1 i). rewrite nth_map_nil in N1 by reflexivity.
    split; [exact N1|]. split.
    - intros a Ha C. apply (HD a (out_all jss i a Ha)). apply in_app_or in C. apply in_or_app. destruct C as [C|C]; [left|right; exact C].
      apply concat_map_in in C. destruct C as (j & Hj & C). exact (in_concat_map inp _ j a (job_in jss _ _ Hj) C).
    - intros j Hj Hb. rewrite Forall_forall in F. destruct (F j Hj) as [_ F2]. congruence.
  Qed.
  Lemma shared_touched i a : In a (touched d (nth i jss [])) -> In a (g_outputs (nth i jss [])).
  Proof.
    intros H. apply concat_map_in in H. destruct H as (j & Hj & H). apply own_cases in H. destruct H as [H|[Hb _]]; [exact (g_outputs_in _ _ _ Hj H)|].
    exfalso. destruct (Nat.lt_ge_cases i (length jss)) as [Hk|Hk]; [|rewrite nth_overflow in Hj by exact Hk; contradiction].
    rewrite Forall_forall in HF. specialize (HF _ (nth_In jss [] Hk)). rewrite Forall_forall in HF. destruct (HF j Hj). congruence.
  Qed.
  Lemma shared_results l m : interleaving (map (g_run d) jss) l -> forall js j, In js jss -> In j js -> res (run l m) j = want (d_ring d) m (d_sk d) j.
  Proof.
    intros H js j Hjs Hj. destruct (In_nth _ _ [] Hjs) as (i & Hi & E). subst js.
    assert (ET : threads ds jss = map (g_run d) jss).
    { unfold threads, ds. clear. induction jss as [|js l IH]; [reflexivity|]. cbn. f_equal. exact IH. }
    assert (HL : length jss = length ds) by (unfold ds; rewrite map_length; reflexivity).
    rewrite <- ET in H. rewrite (system_results ds jss d HL) with (i := i) (l := l) (m := m) (j := j); [rewrite shared_nth; reflexivity| | |exact H|lia|exact Hj].
    - intros k Hk. rewrite shared_nth. apply shared_thread.
    - intros k n Hk Hn Hkn a Ha C. rewrite shared_nth in Ha, C. apply shared_touched in Ha. apply in_app_or in C. destruct C as [C|C].
      + apply in_app_or in C. apply (HD a (out_all jss k a Ha)). apply in_or_app. destruct C as [C|C]; [left|right; exact C].
        apply concat_map_in in C. destruct C as (x & Hx & C). exact (in_concat_map inp _ x a (job_in jss _ _ Hx) C).
      + apply shared_touched in C. pose proof HN as HN'. rewrite g_outputs_concat in HN'. destruct (NoDup_concat_nth _ HN') as [_ N2]. specialize (N2 k n Hkn a). rewrite !nth_map_nil in N2 by reflexivity. exact (N2 Ha C).
  Qed.
End Shared.
End Calls.
