(** Concrete goroutines. *)
From Verif Require Import Word ModRed Arith Ring RingProofs RNSSpec NTT RingOps Scaling BasisEx FrlweEx RlweSpec Rlwe RlweKeys RlweEx Conc ConcSpec ConcProofs ConcDec ConcTop ConcEnc ConcFin.
Open Scope nat_scope.

(** Rows 0-2: the secret key; 3-5: the buffer; 6, 7 and 8, 9: ciphertexts; 10, 11: plaintexts; all in the coefficient domain. *)
Definition ex_mem : mem := fun a =>
  if a <? 3 then nth a (fst (genSecretKey eQ eP ex_sk)) []
  else map (fun k => Z.modulo (Z.of_nat (k * (a + 3) + a)) 97) (seq 0 16).
Definition ex_d : decryptor := Decryptor eQ [3; 4; 5] [0; 1; 2].
Definition ex_e : skEncryptor := SkEncryptor eQ [3; 4; 5] [0; 1; 2].
Definition ex_j1 : job := Job [[6]; [7]] false [10] false.
Definition ex_j2 : job := Job [[8]; [9]] false [11] false.
Definition ex_k1 : ejob := EJob [6] true [8] [9] true [ex_mem 20] [ex_mem 21].
Definition ex_k2 : ejob := EJob [7] true [10] [11] true [ex_mem 22] [ex_mem 23].

Ltac mem_tac := intros ? H; cbn in H; repeat (destruct H as [<- |H]; [cbn; try lia; intuition lia|]); contradiction.
Ltac nodup_tac := repeat (constructor; [cbn; intuition lia|]); constructor.

Lemma ex_fits1 pool : 0 < length pool -> job_fits (Decryptor eQ pool [0; 1; 2]) ex_j1.
Proof. intros H. unfold job_fits. cbn. repeat split; try lia; [nodup_tac|]. intros c [<- |[<- |[]]]; cbn; lia. Qed.
Lemma ex_fits2 pool : 0 < length pool -> job_fits (Decryptor eQ pool [0; 1; 2]) ex_j2.
Proof. intros H. unfold job_fits. cbn. repeat split; try lia; [nodup_tac|]. intros c [<- |[<- |[]]]; cbn; lia. Qed.
Lemma ex_kfits1 pool : 0 < length pool -> ejob_fits (SkEncryptor eQ pool [0; 1; 2]) ex_k1.
Proof. intros H. unfold ejob_fits. cbn -[ex_mem]. repeat split; try lia. nodup_tac. Qed.
Lemma ex_kfits2 pool : 0 < length pool -> ejob_fits (SkEncryptor eQ pool [0; 1; 2]) ex_k2.
Proof. intros H. unfold ejob_fits. cbn -[ex_mem]. repeat split; try lia. nodup_tac. Qed.

(** One decryptor for both: the second goroutine overwrites the buffer after the first has filled it. *)
Definition ex_l : list step := firstn 3 (decrypts ex_d [ex_j1]) ++ decrypts ex_d [ex_j2] ++ skipn 3 (decrypts ex_d [ex_j1]).
Lemma shared_decryptor_wrong : exists d m j1 j2 l, built_ring 9 (d_ring d) /\ job_fits d j1 /\ job_fits d j2 /\
  NoDup (d_sk d ++ d_pool d ++ inputs j1 ++ inputs j2 ++ j_pt j1 ++ j_pt j2) /\
  interleaving [decrypts d [j1]; decrypts d [j2]] l /\ result (run l m) j1 <> decrypted (d_ring d) m (d_sk d) j1.
Proof.
  exists ex_d, ex_mem, ex_j1, ex_j2, ex_l. split; [apply pair16|]. split; [apply ex_fits1; cbn; lia|]. split; [apply ex_fits2; cbn; lia|]. split; [cbn; nodup_tac|]. split.
  - unfold ex_l. rewrite <- (firstn_skipn 3 (decrypts ex_d [ex_j1])) at 1. apply pause_lemma.
  - intros E. apply (f_equal (fun x => nth 0 (nth 0 x []) 0%Z)) in E. vm_compute in E. discriminate.
Qed.
(** The same for encryption: NTT-domain ciphertexts, where the error is kept in the buffer. *)
Definition ex_kl : list step := firstn 4 (encrypts ex_e [ex_k1]) ++ encrypts ex_e [ex_k2] ++ skipn 4 (encrypts ex_e [ex_k1]).
Lemma shared_encryptor_wrong : exists e m j1 j2 l, built_ring 9 (e_ring e) /\ ejob_fits e j1 /\ ejob_fits e j2 /\
  NoDup (e_sk e ++ e_pool e ++ k_pt j1 ++ k_pt j2 ++ k_ct0 j1 ++ k_ct1 j1 ++ k_ct0 j2 ++ k_ct1 j2) /\
  interleaving [encrypts e [j1]; encrypts e [j2]] l /\ eresult (run l m) j1 <> encrypted (e_ring e) m (e_sk e) j1.
Proof.
  exists ex_e, ex_mem, ex_k1, ex_k2, ex_kl. split; [apply pair16|]. split; [apply ex_kfits1; cbn; lia|]. split; [apply ex_kfits2; cbn; lia|]. split; [cbn; nodup_tac|]. split.
  - unfold ex_kl. rewrite <- (firstn_skipn 4 (encrypts ex_e [ex_k1])) at 1. apply pause_lemma.
  - intros E. apply (f_equal (fun x => nth 0 (nth 0 (fst x) []) 0%Z)) in E. vm_compute in E. discriminate.
Qed.

(** With a copy for the second goroutine, the same order of steps, and both read the same ciphertext. *)
Definition ex_st0 : state := (12, ex_mem).
Definition ex_copy : decryptor := fst (ShallowCopy ex_d ex_st0).
Definition ex_j2' : job := Job [[6]; [7]] false [11] false.
Lemma ex_copies : copies_of ex_d ex_st0 [ex_d; ex_copy] (snd (ShallowCopy ex_d ex_st0)).
Proof. apply (by_copy _ _ [ex_d] ex_st0 ex_d); [constructor|left; reflexivity|reflexivity]. Qed.
Lemma ex_copy_fits : forall i, i < 2 -> Forall (job_fits (nth i [ex_d; ex_copy] ex_d)) (nth i [[ex_j1]; [ex_j2']] []).
Proof.
  intros [|[|i]] Hi; [| |lia].
  - constructor; [apply ex_fits1; cbn; lia|constructor].
  - constructor; [|constructor]. unfold job_fits. cbn. repeat split; try lia; [nodup_tac|]. intros c [<- |[<- |[]]]; cbn; lia.
Qed.
Lemma ex_copy_separate : separate_data ex_d ex_st0 [ex_d; ex_copy] [[ex_j1]; [ex_j2']].
Proof. unfold separate_data. cbn. split; [repeat constructor; lia|]. split; [nodup_tac|]. split; [nodup_tac|]. split; mem_tac. Qed.
Definition ex_ecopy : skEncryptor := fst (EncShallowCopy ex_e ex_st0).
Lemma ex_ecopies : ecopies_of ex_e ex_st0 [ex_e; ex_ecopy] (snd (EncShallowCopy ex_e ex_st0)).
Proof. apply (eby_copy _ _ [ex_e] ex_st0 ex_e); [constructor|left; reflexivity|reflexivity]. Qed.
Lemma ex_ecopy_fits : forall i, i < 2 -> Forall (ejob_fits (nth i [ex_e; ex_ecopy] ex_e)) (nth i [[ex_k1]; [ex_k2]] []).
Proof.
  intros [|[|i]] Hi; [| |lia].
  - constructor; [apply ex_kfits1; cbn; lia|constructor].
  - constructor; [|constructor]. apply (ex_kfits2 (e_pool ex_ecopy)). cbn. lia.
Qed.
Lemma ex_ecopy_separate : eseparate_data ex_e ex_st0 [ex_e; ex_ecopy] [[ex_k1]; [ex_k2]].
Proof. unfold eseparate_data. cbn -[ex_mem]. split; [repeat constructor; lia|]. split; [nodup_tac|]. split; [nodup_tac|]. split; mem_tac. Qed.
