(** The theorems for decryptors and for encryptors. *)
From Verif Require Import Word ModRed Ring NTT RingOps Scaling Rlwe Conc ConcSpec ConcProofs ConcDec ConcTop ConcEnc.
Open Scope nat_scope.

Definition d_code (d : decryptor) (j : job) : list step := c_Decrypt d (j_ct j) (j_ctNTT j) (j_pt j) (j_ptNTT j).

Lemma d_res_same m m' j : (forall a, In a (j_pt j) -> m a = m' a) -> result m j = result m' j.
Proof. intros H. apply content_same. intros a Ha. apply H. rewrite <- (firstn_skipn (S (j_level j))). apply in_or_app. left. exact Ha. Qed.
Lemma d_want_same r m m' sk j : (forall a, In a (j_pt j ++ inputs j ++ sk) -> m a = m' a) -> decrypted r m sk j = decrypted r m' sk j.
Proof.
  intros H. unfold decrypted. f_equal; [|apply map_ext_in; intros c Hc|]; apply content_same; intros a Ha; apply H; rewrite !in_app_iff; [tauto| |tauto].
  right. left. apply in_concat. eauto.
Qed.
Lemma k_res_same m m' j : (forall a, In a (k_out j) -> m a = m' a) -> eresult m j = eresult m' j.
Proof.
  intros H. unfold eresult. f_equal; apply content_same; intros a Ha; apply H; apply in_or_app; [left|right]; rewrite <- (firstn_skipn (S (k_level j))); apply in_or_app; left; exact Ha.
Qed.
Lemma k_want_same r m m' sk j : (forall a, In a (k_out j ++ k_pt j ++ sk) -> m a = m' a) -> encrypted r m sk j = encrypted r m' sk j.
Proof. intros H. unfold encrypted. f_equal; apply content_same; intros a Ha; apply H; unfold k_out; rewrite !in_app_iff; tauto. Qed.

Lemma decryptors_results d0 st0 ds st jss l : copies_of d0 st0 ds st -> length jss = length ds ->
  (forall i, i < length ds -> Forall (job_fits (nth i ds d0)) (nth i jss [])) -> separate_data d0 st0 ds jss ->
  interleaving (goroutines ds jss) l ->
  (forall i j, i < length ds -> In j (nth i jss []) -> result (run l (snd st)) j = decrypted (d_ring d0) (snd st) (d_sk (nth i ds d0)) j) /\
  (forall a, In a (concat (map inputs (concat jss)) ++ concat (map d_sk ds)) -> run l (snd st) a = snd st0 a).
Proof.
  intros HC HL HF HS HI.
  refine (copies_results j_pt inputs j_ctNTT job_fits d_code result decrypted _ _ _ d_res_same d_want_same d0 st0 ds st jss HC HL HF HS l HI).
  - intros d j OK a Ha. exact (decrypt_writes d j OK a Ha).
  - intros d j OK a Ha. exact (decrypt_reads d j OK a Ha).
  - intros d j OK m. exact (decrypt_mem d j OK m).
Qed.
Lemma decryptors_race_free d0 st0 ds st jss : copies_of d0 st0 ds st -> length jss = length ds ->
  (forall i, i < length ds -> Forall (job_fits (nth i ds d0)) (nth i jss [])) -> separate_data d0 st0 ds jss -> race_free (goroutines ds jss).
Proof.
  intros HC HL HF HS. refine (copies_race_free j_pt inputs j_ctNTT job_fits d_code result decrypted _ _ _ d_res_same d_want_same d0 st0 ds st jss HC HL HF HS).
  - intros d j OK a Ha. exact (decrypt_writes d j OK a Ha).
  - intros d j OK a Ha. exact (decrypt_reads d j OK a Ha).
  - intros d j OK m. exact (decrypt_mem d j OK m).
Qed.
Lemma shared_decryptor d jss l m : Forall (Forall (fun j => job_fits d j /\ j_ctNTT j = true)) jss ->
  NoDup (outputs (concat jss)) -> disjoint (outputs (concat jss)) (concat (map inputs (concat jss)) ++ d_sk d) ->
  interleaving (map (decrypts d) jss) l ->
  forall js j, In js jss -> In j js -> result (run l m) j = decrypted (d_ring d) m (d_sk d) j.
Proof.
  intros HF HN HD HI. refine (shared_results j_pt inputs j_ctNTT job_fits d_code result decrypted _ _ _ d_res_same d_want_same d jss HF HN HD l m HI).
  - intros e j OK a Ha. exact (decrypt_writes e j OK a Ha).
  - intros e j OK a Ha. exact (decrypt_reads e j OK a Ha).
  - intros e j OK m'. exact (decrypt_mem e j OK m').
Qed.

(** Encryptors, seen as holders of a ring, a buffer and a key. *)
Definition conv (e : skEncryptor) : decryptor := Decryptor (e_ring e) (e_pool e) (e_sk e).
Lemma conv_copies e0 st0 es st : ecopies_of e0 st0 es st -> copies_of (conv e0) st0 (map conv es) st.
Proof.
  induction 1 as [|es st e e' st' _ IH He E|es st e sk e' st' _ IH He Hsk E]; [constructor| |]; rewrite map_app.
  - apply (by_copy _ _ _ st (conv e)); [exact IH|apply in_map, He|]. unfold EncShallowCopy in E. unfold ShallowCopy. cbn [d_ring conv d_sk].
    destruct (NewPoly (e_ring e) st) as [p s]. injection E as <- <-. reflexivity.
  - apply (by_key _ _ _ st (conv e) sk); [exact IH|apply in_map, He|exact Hsk|]. unfold EncWithKey in E. unfold WithKey. cbn [d_ring conv].
    destruct (NewPoly (e_ring e) st) as [p s]. injection E as <- <-. reflexivity.
Qed.
Lemma nth_conv e0 es i : nth i (map conv es) (conv e0) = conv (nth i es e0).
Proof. apply map_nth. Qed.
Lemma conv_id e : SkEncryptor (d_ring (conv e)) (d_pool (conv e)) (d_sk (conv e)) = e.
Proof. destruct e. reflexivity. Qed.
Lemma k_run e js : g_run k_code (conv e) js = encrypts e js.
Proof. destruct e. reflexivity. Qed.
Lemma conv_threads es jss : threads k_code (map conv es) jss = egoroutines es jss.
Proof.
  unfold threads, egoroutines. revert jss. induction es as [|e es IH]; intros [|js jss]; [reflexivity|reflexivity|reflexivity|]. cbn [map combine fst snd]. rewrite k_run. f_equal. apply IH.
Qed.
Lemma conv_sk es : map d_sk (map conv es) = map e_sk es.
Proof. rewrite map_map. reflexivity. Qed.

Section Enc.
  Variables (e0 : skEncryptor) (st0 : state) (es : list skEncryptor) (st : state) (jss : list (list ejob)).
  Hypothesis (HC : ecopies_of e0 st0 es st) (HL : length jss = length es).
  Hypothesis (HF : forall i, i < length es -> Forall (ejob_fits (nth i es e0)) (nth i jss [])).
  Hypothesis (HS : eseparate_data e0 st0 es jss).
  Let ds := map conv es.
  Lemma conv_fits i : i < length ds -> Forall (k_fits (nth i ds (conv e0))) (nth i jss []).
  Proof. unfold ds. rewrite map_length, nth_conv. intros Hi. unfold k_fits. rewrite conv_id. exact (HF i Hi). Qed.
  Lemma conv_sep : let js := concat jss in let ins := concat (map k_pt js) ++ concat (map d_sk ds) in
    Forall (fun a => a < fst st0) (g_outputs k_out js ++ ins ++ d_pool (conv e0)) /\ NoDup (d_pool (conv e0)) /\
    NoDup (g_outputs k_out js) /\ disjoint (g_outputs k_out js) ins /\ disjoint (d_pool (conv e0)) (g_outputs k_out js ++ ins).
  Proof. unfold ds. rewrite conv_sk. exact HS. Qed.
  Lemma conv_len : length jss = length ds.
  Proof. unfold ds. rewrite map_length. exact HL. Qed.

  Lemma encryptors_results l : interleaving (egoroutines es jss) l ->
    (forall i j, i < length es -> In j (nth i jss []) -> eresult (run l (snd st)) j = encrypted (e_ring e0) (snd st) (e_sk (nth i es e0)) j) /\
    (forall a, In a (concat (map k_pt (concat jss)) ++ concat (map e_sk es)) -> run l (snd st) a = snd st0 a).
  Proof.
    intros HI. rewrite <- conv_threads in HI.
    destruct (copies_results k_out k_pt k_nobuf k_fits k_code eresult encrypted (fun d j OK => proj1 (code_good d j OK)) (fun d j OK => proj2 (code_good d j OK)) encrypt_mem k_res_same k_want_same
      (conv e0) st0 ds st jss (conv_copies _ _ _ _ HC) conv_len conv_fits conv_sep l HI) as [R1 R2].
    split.
    - intros i j Hi Hj. rewrite (R1 i j ltac:(unfold ds; rewrite map_length; exact Hi) Hj). unfold ds. rewrite nth_conv. reflexivity.
    - intros a Ha. apply R2. unfold ds. rewrite conv_sk. exact Ha.
  Qed.
  Lemma encryptors_race_free : race_free (egoroutines es jss).
  Proof.
    rewrite <- conv_threads.
    exact (copies_race_free k_out k_pt k_nobuf k_fits k_code eresult encrypted (fun d j OK => proj1 (code_good d j OK)) (fun d j OK => proj2 (code_good d j OK)) encrypt_mem k_res_same k_want_same
      (conv e0) st0 ds st jss (conv_copies _ _ _ _ HC) conv_len conv_fits conv_sep).
  Qed.
End Enc.

(** One goroutine pausing while another runs. *)
Lemma pause_lemma {A} (a1 a2 b : list A) : interleaving [a1 ++ a2; b] (a1 ++ b ++ a2).
Proof.
  induction a1 as [|x a1 IH]; [|exact (one_step [] x (a1 ++ a2) [b] _ IH)]. cbn [app].
  induction b as [|x b IH]; [|exact (one_step [a2] x b [] _ IH)]. cbn [app].
  induction a2 as [|x a2 IH]; [apply all_done; repeat constructor|exact (one_step [] x a2 [[]] _ IH)].
Qed.
