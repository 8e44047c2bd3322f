(** C93: sets of rotation keys and lists of rotations. *)
From Coq Require Import Permutation.
From Verif Require Import Word Arith PolySpec Ring NTT RingOps RNSSpec Automorphism AutoProps Gadget GadgetSpec Frlwe RlweSpec Rlwe Float64 Ckks CkksSpec RotKeys RotKeysSpec RotKeysLists RotKeysTop Examples BasisEx BasisEx FrlweEx RlweEx CkksBase CkksEx.
Open Scope Z_scope.

(** The set holds exactly the keys asked for, one for each Galois element, and each is a key for its Galois element. *)
Theorem C93_set : forall rQ rP, ring_pair rQ rP -> forall L, rN rQ = (2 ^ L)%nat ->
  forall galEls sk s d Be, Forall (fun g => 0 <= g < W /\ Z.odd g = true) galEls -> sampled rQ rP (maxLevel rQ) (maxLevel rP) sk s -> draws_ok rQ rP Be (length galEls) d ->
  let set := GenRotationKeys rQ rP galEls (genSecretKey rQ rP sk) d in
  (forall g, GetRotationKey set g = None <-> ~ In g galEls) /\
  (forall g key, GetRotationKey set g = Some key -> rotation_key rQ rP L (maxLevel rQ) (maxLevel rP) g key s Be) /\
  length set = length (nodup Z.eq_dec galEls).
Proof. exact set_keys_top. Qed.
Print Assumptions C93_set.

(** Rotations with the keys of GenRotationKeysForRotations: those congruent, modulo the number of slots, to one of the list
    succeed and rotate; the others panic. *)
Theorem C93_rotate : forall rQ rP, ring_pair rQ rP -> forall L, rN rQ = (2 ^ L)%nat ->
  forall ks (conj : bool) sk s d Be Bs level B c M k scratch DQ,
  let lP := maxLevel rP in let count := (length ks + if conj then 1 else 0)%nat in
  sampled rQ rP (maxLevel rQ) lP sk s -> draws_ok rQ rP Be count d -> (lP < 18)%nat ->
  ct_ok rQ level B c -> fits rQ B -> words rQ level (fun q => 2 * q) (comp c 1) -> decrypts rQ L (fst (genSecretKey rQ rP sk)) c M -> ctDegree c = 1%nat -> k <> 0 ->
  blocks_below rQ level lP DQ -> 0 <= Be -> 0 <= Bs -> pbound (rN rQ) Bs s ->
  let set := GetRotationKey (GenRotationKeysForRotations rQ rP ks conj (genSecretKey rQ rP sk) d) in let half := Z.of_nat (rN rQ) / 2 in
  ((exists k', In k' ks /\ k mod half = k' mod half) ->
    exists c' E, RotateNew rQ rP lP set c k scratch = Some c' /\ ct_ok rQ level B c' /\ ctDegree c' = 1%nat /\ ctScale c' = ctScale c /\
      switch_noise rQ rP level lP DQ Be Bs E /\ decrypts rQ L (fst (genSecretKey rQ rP sk)) c' (padd (rot rQ k M) E)) /\
  (~ (exists k', In k' ks /\ k mod half = k' mod half) -> RotateNew rQ rP lP set c k scratch = None).
Proof. exact rotate_top. Qed.
Print Assumptions C93_rotate.

(** Conjugation needs the flag. *)
Theorem C93_conjugate : forall rQ rP, ring_pair rQ rP -> forall L, rN rQ = (2 ^ L)%nat ->
  forall ks (conj : bool) sk s d Be Bs level B c M scratch DQ,
  let lP := maxLevel rP in let count := (length ks + if conj then 1 else 0)%nat in
  sampled rQ rP (maxLevel rQ) lP sk s -> draws_ok rQ rP Be count d -> (lP < 18)%nat ->
  ct_ok rQ level B c -> fits rQ B -> words rQ level (fun q => 2 * q) (comp c 1) -> decrypts rQ L (fst (genSecretKey rQ rP sk)) c M -> ctDegree c = 1%nat ->
  blocks_below rQ level lP DQ -> 0 <= Be -> 0 <= Bs -> pbound (rN rQ) Bs s ->
  let set := GetRotationKey (GenRotationKeysForRotations rQ rP ks conj (genSecretKey rQ rP sk) d) in
  if conj then
    exists c' E, ConjugateNew rQ rP lP set c scratch = Some c' /\ ct_ok rQ level B c' /\ ctDegree c' = 1%nat /\ ctScale c' = ctScale c /\
      switch_noise rQ rP level lP DQ Be Bs E /\ decrypts rQ L (fst (genSecretKey rQ rP sk)) c' (padd (pauto (rN rQ) (2 * rN rQ - 1) M) E)
  else ConjugateNew rQ rP lP set c scratch = None.
Proof. exact conjugate_top. Qed.
Print Assumptions C93_conjugate.

(** GenRotationKeysForInnerSum: the powers of two below the number of slots, and the conjugation. *)
Theorem C93_inner_sum_keys : forall rQ rP, ring_pair rQ rP -> forall L, rN rQ = (2 ^ L)%nat -> (1 <= L)%nat -> forall sk d,
  let set := GetRotationKey (GenRotationKeysForInnerSum rQ rP L sk d) in
  (forall k, set (GaloisElementForColumnRotationBy rQ k) <> None <-> exists i, (i < L - 1)%nat /\ k mod (Z.of_nat (rN rQ) / 2) = 2 ^ Z.of_nat i) /\
  set (GaloisElementForRowRotation rQ) <> None.
Proof. exact inner_keys_top. Qed.
Print Assumptions C93_inner_sum_keys.

(** With these keys, adding to a ciphertext its rotations by 1, 2, 4, ... gives the sum of all its rotations. *)
Theorem C93_inner_sum : forall rQ rP, ring_pair rQ rP -> forall L, rN rQ = (2 ^ L)%nat -> (1 <= L)%nat ->
  forall sk s d Be Bs level c M scratch pool DQ,
  let lP := maxLevel rP in
  sampled rQ rP (maxLevel rQ) lP sk s -> draws_ok rQ rP Be L d -> (lP < 18)%nat ->
  ct_ok rQ level canon c -> decrypts rQ L (fst (genSecretKey rQ rP sk)) c M -> ctDegree c = 1%nat ->
  blocks_below rQ level lP DQ -> 0 <= Be -> 0 <= Bs -> pbound (rN rQ) Bs s -> (forall i, shaped 2 (maxLevel rQ) (pool i)) ->
  let set := GetRotationKey (GenRotationKeysForInnerSum rQ rP L (genSecretKey rQ rP sk) d) in let half := (rN rQ / 2)%nat in
  exists c' E, fold_rotations rQ rP set (L - 1) 0 c scratch pool = Some c' /\ ct_ok rQ level canon c' /\ ctDegree c' = 1%nat /\ ctScale c' = ctScale c /\
    switch_noises rQ rP level lP (Z.of_nat half - 1) DQ Be Bs E /\ decrypts rQ L (fst (genSecretKey rQ rP sk)) c' (padd (sum_rotations rQ 1 half M) E).
Proof. exact inner_sum_top. Qed.
Print Assumptions C93_inner_sum.

(** The keys for the list of RotationsForInnerSum serve every multiple of the batch, and those of RotationsForReplicate the
    opposite ones, also when the products wrap. *)
Theorem C93_rotation_lists : forall rQ rP, ring_pair rQ rP -> forall batch n conj sk d t, 0 <= t < n ->
  (let set := GetRotationKey (GenRotationKeysForRotations rQ rP (RotationsForInnerSum batch n) conj sk d) in
   t = 0 \/ set (GaloisElementForColumnRotationBy rQ (t * batch)) <> None) /\
  (let set := GetRotationKey (GenRotationKeysForRotations rQ rP (RotationsForReplicate batch n) conj sk d) in
   t = 0 \/ set (GaloisElementForColumnRotationBy rQ (- t * batch)) <> None).
Proof. exact inner_list_top. Qed.
Print Assumptions C93_rotation_lists.

(** With the rotations of RotationsForInnerSumLog, whatever the order of the map, the sum of the n rotations is computed with at
    most 2 ceil(log2 n) rotations. *)
Theorem C93_inner_sum_log : forall rQ rP, ring_pair rQ rP -> forall fuel order batch n M,
  (62 < fuel)%nat -> (forall l, Permutation l (order l)) -> 1 <= n <= 2 ^ 62 ->
  exists rots, RotationsForInnerSumLog fuel order batch n = Some rots /\ NoDup rots /\ Z.of_nat (length rots) <= 2 * Z.log2_up n /\
    computes rQ rots M (Z.to_nat (2 * Z.log2_up n)) (sum_rotations rQ batch (Z.to_nat n) M).
Proof. exact log_top. Qed.
Print Assumptions C93_inner_sum_log.

Theorem C93_replicate_log : forall rQ rP, ring_pair rQ rP -> forall fuel order batch n M,
  (62 < fuel)%nat -> (forall l, Permutation l (order l)) -> 1 <= n <= 2 ^ 62 ->
  exists rots, RotationsForReplicateLog fuel order batch n = Some rots /\ NoDup rots /\ Z.of_nat (length rots) <= 2 * Z.log2_up n /\
    computes rQ rots M (Z.to_nat (2 * Z.log2_up n)) (sum_rotations rQ (- batch) (Z.to_nat n) M).
Proof. exact replicate_log_top. Qed.
Print Assumptions C93_replicate_log.

Theorem C93_trace : forall rQ rP, ring_pair rQ rP -> forall a b M, (a <= b)%nat ->
  computes rQ (RotationsForTrace a b) M (b - a) (sum_rotations rQ (2 ^ Z.of_nat a) (2 ^ (b - a)) M).
Proof. exact trace_top. Qed.
Print Assumptions C93_trace.

(** A key generated alone is the key of a set. *)
Theorem C93_single_keys : forall rQ rP, ring_pair rQ rP -> forall k sk,
  GenSwitchingKeyForRotationBy rQ rP k sk = GenSwitchingKeyForGalois rQ rP (GaloisElementForColumnRotationBy rQ k) sk /\
  GenSwitchingKeyForRowRotation rQ rP sk = GenSwitchingKeyForGalois rQ rP (GaloisElementForRowRotation rQ) sk.
Proof. exact single_top. Qed.
Print Assumptions C93_single_keys.

(** For n above 2^62 the counter of RotationsForInnerSumLog wraps to 0 and the loop never ends, whatever the number of iterations. *)
Theorem C93_inner_sum_log_refuted : forall fuel order batch n, 2 ^ 62 < n < 2 ^ 63 -> RotationsForInnerSumLog fuel order batch n = None.
Proof. exact log_diverges. Qed.
Print Assumptions C93_inner_sum_log_refuted.

Definition g_draw (i : nat) : draw := mkDraw g_err g_aQ g_aP (zrows 2, zrows 1) (zrows 2).
Lemma g_draws count : draws_ok gQ gP 1 count g_draw.
Proof. intros i _. exists ex_e. split; [exact g_random|]. intros j _ k Hk. apply ex_e_small. exact Hk. Qed.

(** Degree 16: the sum of the 8 rotations of a ciphertext of pseudo-random words. *)
Example C93_case : exists c' M E, fold_rotations gQ gP (GetRotationKey (GenRotationKeysForInnerSum gQ gP 4 (genSecretKey gQ gP (res_rows gQ 1 ex_s)) g_draw)) 3 0
    (mkCt (g_vals 1 1) f64_zero true) (fun _ => g_scratch) (fun _ => g_new 2 1) = Some c' /\
  switch_noises gQ gP 1 0 7 12289 1 1 E /\ decrypts gQ 4 (fst (genSecretKey gQ gP (res_rows gQ 1 ex_s))) c' (padd (sum_rotations gQ 1 8 M) E).
Proof.
  assert (K0 : ct_ok gQ 1 canon (mkCt (g_vals 1 1) f64_zero true)) by (apply ctb_ok; vm_compute; reflexivity).
  destruct (g_decrypts 1 canon _ K0 g_fits_canon) as [M D].
  destruct (C93_inner_sum gQ gP gpair 4 eq_refl ltac:(lia) (res_rows gQ 1 ex_s) ex_s g_draw 1 1 1 (mkCt (g_vals 1 1) f64_zero true) M (fun _ => g_scratch) (fun _ => g_new 2 1) 12289) as (c' & E & H1 & _ & _ & _ & H5 & H6).
  - apply g_sampled. exact ex_s_small.
  - apply g_draws.
  - cbn. lia.
  - exact K0.
  - rewrite g_sk_eq. exact D.
  - reflexivity.
  - apply (g_blocks 1). lia.
  - lia.
  - lia.
  - exact g_s_bound.
  - intros i. apply g_new_shaped; cbn; lia.
  - exists c', M, E. split; [exact H1|]. split; [exact H5|exact H6].
Qed.
Example C93_rotate_case : exists c' M E, RotateNew gQ gP 0 (GetRotationKey (GenRotationKeysForRotations gQ gP [3; -2; 3] true (genSecretKey gQ gP (res_rows gQ 1 ex_s)) g_draw))
    (mkCt (g_vals 1 1) f64_zero true) 6 g_scratch = Some c' /\ decrypts gQ 4 (fst (genSecretKey gQ gP (res_rows gQ 1 ex_s))) c' (padd (rot gQ 6 M) E).
Proof.
  assert (K0 : ct_ok gQ 1 canon (mkCt (g_vals 1 1) f64_zero true)) by (apply ctb_ok; vm_compute; reflexivity).
  destruct (g_decrypts 1 canon _ K0 g_fits_canon) as [M D].
  destruct (C93_rotate gQ gP gpair 4 eq_refl [3; -2; 3] true (res_rows gQ 1 ex_s) ex_s g_draw 1 1 1 canon (mkCt (g_vals 1 1) f64_zero true) M 6 g_scratch 12289) as [H _].
  - apply g_sampled. exact ex_s_small.
  - apply g_draws.
  - cbn. lia.
  - exact K0.
  - exact g_fits_canon.
  - apply Examples.wordsb_ok. vm_compute. reflexivity.
  - rewrite g_sk_eq. exact D.
  - reflexivity.
  - lia.
  - apply (g_blocks 1). lia.
  - lia.
  - lia.
  - exact g_s_bound.
  - destruct H as (c' & E & H1 & _ & _ & _ & _ & H6); [exists (-2); split; [right; left; reflexivity|reflexivity]|]. exists c', M, E. split; [exact H1|exact H6].
Qed.
Example C93_list_case : RotationsForInnerSumLog 63 (fun l => l) 3 5 = Some [3; 12; 6; 0] /\ RotationsForReplicateLog 63 (@rev Z) 2 4 = Some [-4; -8; -2] /\
  RotationsForInnerSum (-7) 3 = [-7; -14] /\ RotationsForTrace 2 5 = [4; 8; 16].
Proof. repeat split; vm_compute; reflexivity. Qed.
