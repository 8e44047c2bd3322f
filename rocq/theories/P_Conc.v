(** C90: concurrent use of decryptors and encryptors and of their shallow copies. *)
From Verif Require Import Word ModRed Ring NTT RingOps Scaling Rlwe RNSSpec RlweEx Conc ConcSpec ConcProofs ConcFin ConcEx.
Open Scope nat_scope.

(** Goroutines without data races: in every interleaving each has, on all the rows it accesses, the outcome of running alone. *)
Theorem C90_isolation : forall ts l, interleaving ts l -> race_free ts -> forall m i, i < length ts ->
  forall a, In a (writes (nth i ts []) ++ reads (nth i ts [])) -> run l m a = run (nth i ts []) m a.
Proof. exact isolation_lemma. Qed.
Print Assumptions C90_isolation.

(** A decryptor and any number of copies of it, by [ShallowCopy] or [WithKey], one per goroutine, each for any number of calls on ciphertexts
    that may be shared: whatever the interleaving, every call leaves in its plaintext what [Decrypt] gives for it, and the ciphertexts and
    keys are as they were before. *)
Theorem C90_decryptors : forall d0 st0 ds st jss l, copies_of d0 st0 ds st -> length jss = length ds ->
  (forall i, i < length ds -> Forall (job_fits (nth i ds d0)) (nth i jss [])) -> separate_data d0 st0 ds jss ->
  interleaving (goroutines ds jss) l ->
  (forall i j, i < length ds -> In j (nth i jss []) -> result (run l (snd st)) j = decrypted (d_ring d0) (snd st) (d_sk (nth i ds d0)) j) /\
  (forall a, In a (concat (map inputs (concat jss)) ++ concat (map d_sk ds)) -> run l (snd st) a = snd st0 a).
Proof. exact decryptors_results. Qed.
Print Assumptions C90_decryptors.

(** Nor is there a data race, so that the order of writes within a row does not matter either. *)
Theorem C90_race_free : forall d0 st0 ds st jss, copies_of d0 st0 ds st -> length jss = length ds ->
  (forall i, i < length ds -> Forall (job_fits (nth i ds d0)) (nth i jss [])) -> separate_data d0 st0 ds jss -> race_free (goroutines ds jss).
Proof. exact decryptors_race_free. Qed.
Print Assumptions C90_race_free.

(** Encryptors with a secret key. *)
Theorem C90_encryptors : forall e0 st0 es st jss, ecopies_of e0 st0 es st -> length jss = length es ->
  (forall i, i < length es -> Forall (ejob_fits (nth i es e0)) (nth i jss [])) -> eseparate_data e0 st0 es jss ->
  forall l, interleaving (egoroutines es jss) l ->
  (forall i j, i < length es -> In j (nth i jss []) -> eresult (run l (snd st)) j = encrypted (e_ring e0) (snd st) (e_sk (nth i es e0)) j) /\
  (forall a, In a (concat (map k_pt (concat jss)) ++ concat (map e_sk es)) -> run l (snd st) a = snd st0 a).
Proof. exact encryptors_results. Qed.
Print Assumptions C90_encryptors.
Theorem C90_encryptors_race_free : forall e0 st0 es st jss, ecopies_of e0 st0 es st -> length jss = length es ->
  (forall i, i < length es -> Forall (ejob_fits (nth i es e0)) (nth i jss [])) -> eseparate_data e0 st0 es jss -> race_free (egoroutines es jss).
Proof. exact encryptors_race_free. Qed.
Print Assumptions C90_encryptors_race_free.

(** One decryptor for several goroutines is safe as long as all the ciphertexts are in the NTT domain: the buffer is not used then. *)
Theorem C90_shared_ntt : forall d jss l m, Forall (Forall (fun j => job_fits d j /\ j_ctNTT j = true)) jss ->
  NoDup (outputs (concat jss)) -> disjoint (outputs (concat jss)) (concat (map inputs (concat jss)) ++ d_sk d) ->
  interleaving (map (decrypts d) jss) l ->
  forall js j, In js jss -> In j js -> result (run l m) j = decrypted (d_ring d) m (d_sk d) j.
Proof. exact shared_decryptor. Qed.
Print Assumptions C90_shared_ntt.

(** Otherwise it is not, though nothing but the decryptor is shared. *)
Theorem C90_shared_refuted : exists d m j1 j2 l, built_ring 9 (d_ring d) /\ job_fits d j1 /\ job_fits d j2 /\
  NoDup (d_sk d ++ d_pool d ++ inputs j1 ++ inputs j2 ++ j_pt j1 ++ j_pt j2) /\
  interleaving [decrypts d [j1]; decrypts d [j2]] l /\ result (run l m) j1 <> decrypted (d_ring d) m (d_sk d) j1.
Proof. exact shared_decryptor_wrong. Qed.
Print Assumptions C90_shared_refuted.
Theorem C90_shared_encryptor_refuted : exists e m j1 j2 l, built_ring 9 (e_ring e) /\ ejob_fits e j1 /\ ejob_fits e j2 /\
  NoDup (e_sk e ++ e_pool e ++ k_pt j1 ++ k_pt j2 ++ k_ct0 j1 ++ k_ct1 j1 ++ k_ct0 j2 ++ k_ct1 j2) /\
  interleaving [encrypts e [j1]; encrypts e [j2]] l /\ eresult (run l m) j1 <> encrypted (e_ring e) m (e_sk e) j1.
Proof. exact shared_encryptor_wrong. Qed.
Print Assumptions C90_shared_encryptor_refuted.

(** Two goroutines decrypting the same ciphertext, one with a shallow copy. *)
Example C90_applies : forall l, interleaving [decrypts ex_d [ex_j1]; decrypts ex_copy [ex_j2']] l ->
  let m := snd (snd (ShallowCopy ex_d ex_st0)) in
  result (run l m) ex_j1 = decrypted eQ m [0; 1; 2] ex_j1 /\ result (run l m) ex_j2' = decrypted eQ m [0; 1; 2] ex_j2'.
Proof.
  intros l Hl m. destruct (C90_decryptors ex_d ex_st0 [ex_d; ex_copy] _ [[ex_j1]; [ex_j2']] l ex_copies eq_refl ex_copy_fits ex_copy_separate Hl) as [H _].
  split; [exact (H 0 ex_j1 ltac:(cbn; lia) (or_introl eq_refl))|exact (H 1 ex_j2' ltac:(cbn; lia) (or_introl eq_refl))].
Qed.
(** Two goroutines encrypting. *)
Example C90_encrypt_applies : forall l, interleaving [encrypts ex_e [ex_k1]; encrypts ex_ecopy [ex_k2]] l ->
  let m := snd (snd (EncShallowCopy ex_e ex_st0)) in
  eresult (run l m) ex_k1 = encrypted eQ m [0; 1; 2] ex_k1 /\ eresult (run l m) ex_k2 = encrypted eQ m [0; 1; 2] ex_k2.
Proof.
  intros l Hl m. destruct (C90_encryptors ex_e ex_st0 [ex_e; ex_ecopy] _ [[ex_k1]; [ex_k2]] ex_ecopies eq_refl ex_ecopy_fits ex_ecopy_separate l Hl) as [H _].
  split; [exact (H 0 ex_k1 ltac:(cbn; lia) (or_introl eq_refl))|exact (H 1 ex_k2 ltac:(cbn; lia) (or_introl eq_refl))].
Qed.
(** The calls of [C90_shared_refuted] have interleavings, and steps. *)
Example C90_steps : length (decrypts ex_d [ex_j1]) = 6 /\ length (encrypts ex_e [ex_k1]) = 7.
Proof. split; reflexivity. Qed.
