(** C91: key switching and rotations whose division by P is left to the caller. *)
From Verif Require Import Word Arith PolySpec Ring NTT RingOps RNSSpec Automorphism Gadget GadgetSpec Frlwe RlweSpec Rlwe Float64 FrlweEx Ckks CkksSpec CkksEx CkksRefute Lazy LazySpec LazyProofs LazyTop.
Open Scope Z_scope.

(** Without the division by P, switching the key of a polynomial A gives, modulo every modulus of Q up to the level and every
    modulus of P, a pair with c0 + c1 s = P A s' + F; the receivers keep their other rows. *)
Theorem C91_switch : forall rQ rP L, ring_pair rQ rP -> rN rQ = (2 ^ L)%nat ->
  forall levelK levelQ levelP cx isNTT A (key : swkey) poolInv c2 c0Q c0P c1Q c1P s s' DQ Be,
  key_levels rQ rP levelK levelP -> (levelQ <= levelK)%nat -> rns_dom rQ L levelQ isNTT cx A ->
  swkey_ok rQ rP L levelK levelP key s s' Be -> blocks_below rQ levelQ levelP DQ -> 0 <= Be ->
  exists x F, SwitchKeysInPlaceNoModDown rQ rP levelQ levelP cx isNTT (fst key) (snd key) poolInv c2 c0Q c0P c1Q c1P = Some x /\
    lazy_ct rQ rP L levelQ levelP x s (pmul (rN rQ) A s') F /\ lazy_noise rQ levelQ levelP 1 DQ Be F /\
    kept levelQ c0Q (fst (fst x)) /\ kept levelP c0P (snd (fst x)) /\ kept levelQ c1Q (fst (snd x)) /\ kept levelP c1P (snd (snd x)).
Proof. exact switch_lazy. Qed.
Print Assumptions C91_switch.

(** Decomposing first and multiplying by the key afterwards gives the same words. *)
Theorem C91_hoisted : forall rQ rP levelQ levelP cx (key0 key1 : list (rows * rows)) poolInv c2 pools c0Q c0P c1Q c1P,
  KeyswitchHoistedNoModDown rQ rP levelQ levelP (DecomposeNTT rQ rP levelQ levelP (levelP + 1) cx true poolInv pools) key0 key1 c0Q c1Q c0P c1P =
  SwitchKeysInPlaceNoModDown rQ rP levelQ levelP cx true key0 key1 poolInv c2 c0Q c0P c1Q c1P.
Proof. exact hoisted_nomod. Qed.
Print Assumptions C91_hoisted.

(** One entry for each rotation other than 0, in which the pair encrypts P times the rotated plaintext. *)
Theorem C91_rotations : forall rQ rP L, ring_pair rQ rP -> rN rQ = (2 ^ L)%nat ->
  let levelP := maxLevel rP in
  forall levelK level0 level B rtks ks c poolInv pools sk sec M DQ Be,
  secret rQ L sk sec -> key_levels rQ rP levelK levelP ->
  ct_ok rQ level0 B c -> fits rQ B -> words rQ level0 canon (comp c 1) -> decrypts rQ L sk c M ->
  ctDegree c = 1%nat -> (level <= level0)%nat -> (level <= levelK)%nat ->
  blocks_below rQ level levelP DQ -> 0 <= Be ->
  (forall k, In k ks -> k <> 0 -> let g := GaloisElementForColumnRotationBy rQ k in exists key, rtks g = Some key /\ rotation_key rQ rP L levelK levelP g key sec Be) ->
  let dig := DecomposeNTT rQ rP level levelP (levelP + 1) (comp c 1) true poolInv pools in
  forall buffers, exists outs, RotateHoistedNoModDownNew rQ rP level rtks ks (comp c 0) dig buffers = Some outs /\
    map fst outs = filter (fun k => negb (k =? 0)) ks /\
    forall k x, In (k, x) outs -> exists F, pair_rows level levelP x /\
      lazy_ct rQ rP L level levelP x sec (pauto (rN rQ) (Z.to_nat (GaloisElementForColumnRotationBy rQ k)) M) F /\ lazy_noise rQ level levelP 1 DQ Be F.
Proof. exact rotations_lazy. Qed.
Print Assumptions C91_rotations.

(** A rotation without a key is a panic. *)
Theorem C91_missing_key : forall rQ rP level rtks ks c0 dig k, In k ks -> k <> 0 -> rtks (GaloisElementForColumnRotationBy rQ k) = None ->
  forall buffers, RotateHoistedNoModDownNew rQ rP level rtks ks c0 dig buffers = None.
Proof. exact rotations_missing. Qed.
Print Assumptions C91_missing_key.

(** Pairs add, and their errors with them. *)
Theorem C91_add : forall rQ rP L, ring_pair rQ rP -> rN rQ = (2 ^ L)%nat -> let levelP := maxLevel rP in
  forall level x y s M M' F F', (level < length (rmods rQ))%nat -> lazy_ct rQ rP L level levelP x s M F -> lazy_ct rQ rP L level levelP y s M' F' ->
  lazy_ct rQ rP L level levelP (pair_add rQ rP level x y) s (padd M M') (padd F F').
Proof. exact lazy_add. Qed.
Print Assumptions C91_add.

(** Dividing a pair by P gives a ciphertext of M, and the error is divided by P. *)
Theorem C91_mod_down : forall rQ rP L, ring_pair rQ rP -> rN rQ = (2 ^ L)%nat -> let levelP := maxLevel rP in let P := product (prefix rP levelP) in
  forall level x sk sec M F BF Bs scale, (levelP < 18)%nat -> (level < length (rmods rQ))%nat -> secret rQ L sk sec -> 0 <= Bs -> pbound (rN rQ) Bs sec ->
  pair_rows level levelP x -> lazy_ct rQ rP L level levelP x sec M F -> (forall k, (k < rN rQ)%nat -> 2 ^ 42 * Z.abs (F k) <= BF) ->
  let '(o0, o1) := pair_down rQ rP level x in
  ct_ok rQ level canon (mkCt [o0; o1] scale true) /\
  exists E, decrypts rQ L sk (mkCt [o0; o1] scale true) (padd M E) /\
    forall k, (k < rN rQ)%nat -> 2 ^ 42 * (P * Z.abs (E k)) <= BF + (2 ^ 42 + 1) * (P * (1 + Z.of_nat (rN rQ) * Bs)).
Proof. exact down_lazy. Qed.
Print Assumptions C91_mod_down.

(** Any number of rotations of one ciphertext, added modulo QP and divided once by P: the sum of the rotated plaintexts, with the
    rounding error of a single division. *)
Theorem C91_rotate_and_sum : forall rQ rP L, ring_pair rQ rP -> rN rQ = (2 ^ L)%nat -> let levelP := maxLevel rP in
  forall levelK level0 level B rtks ks c poolInv pools buffers sk sec M DQ Be Bs,
  secret rQ L sk sec -> key_levels rQ rP levelK levelP ->
  ct_ok rQ level0 B c -> fits rQ B -> words rQ level0 canon (comp c 1) -> decrypts rQ L sk c M ->
  ctDegree c = 1%nat -> (level <= level0)%nat -> (level <= levelK)%nat ->
  blocks_below rQ level levelP DQ -> 0 <= Be -> 0 <= Bs -> pbound (rN rQ) Bs sec -> ks <> [] -> NoDup ks ->
  (forall k, In k ks -> k <> 0 /\ let g := GaloisElementForColumnRotationBy rQ k in exists key, rtks g = Some key /\ rotation_key rQ rP L levelK levelP g key sec Be) ->
  let dig := DecomposeNTT rQ rP level levelP (levelP + 1) (comp c 1) true poolInv pools in
  exists k0 x0 outs E, RotateHoistedNoModDownNew rQ rP level rtks ks (comp c 0) dig buffers = Some ((k0, x0) :: outs) /\
    let '(o0, o1) := pair_down rQ rP level (fold_left (fun acc y => pair_add rQ rP level acc (snd y)) outs x0) in
    ct_ok rQ level canon (mkCt [o0; o1] (ctScale c) true) /\
    decrypts rQ L sk (mkCt [o0; o1] (ctScale c) true) (padd (rotations_sum rQ ks M) E) /\
    summed_noise rQ rP level levelP (length ks) DQ Be Bs E.
Proof. exact rotate_and_sum. Qed.
Print Assumptions C91_rotate_and_sum.

(** Rotations by 1 and 9 of a ciphertext of eight slots. *)
Example C91_case : exists M k0 x0 outs E, decrypts gQ 4 (fst g_sk) (g_ct 1 1 1024) M /\
  RotateHoistedNoModDownNew gQ gP 1 g_rtks [1; 9] (comp (g_ct 1 1 1024) 0)
    (DecomposeNTT gQ gP 1 0 (0 + 1) (comp (g_ct 1 1 1024) 1) true (zrows 2) (fun _ => (zrows 2, zrows 1))) (fun _ => no_pair) = Some ((k0, x0) :: outs) /\
  let '(o0, o1) := pair_down gQ gP 1 (fold_left (fun acc y => pair_add gQ gP 1 acc (snd y)) outs x0) in
  decrypts gQ 4 (fst g_sk) (mkCt [o0; o1] (f64_of_Z 1024) true) (padd (rotations_sum gQ [1; 9] M) E) /\
  summed_noise gQ gP 1 0 2 12289 1 1 E.
Proof.
  assert (K0 : ct_ok gQ 1 canon (g_ct 1 1 1024)) by (apply ctb_ok; vm_compute; reflexivity).
  destruct (g_decrypts 1 canon _ K0 g_fits_canon) as [M D0]. exists M.
  destruct (C91_rotate_and_sum gQ gP 4 gpair eq_refl 1 1 1 canon g_rtks [1; 9] (g_ct 1 1 1024) (zrows 2) (fun _ => (zrows 2, zrows 1)) (fun _ => no_pair) (fst g_sk) ex_s M 12289 1 1 g_secret g_levels K0 g_fits_canon) as (k0 & x0 & outs & E & X1 & X2).
  - apply Examples.wordsb_ok. vm_compute. reflexivity.
  - exact D0.
  - reflexivity.
  - lia.
  - lia.
  - apply g_blocks. lia.
  - lia.
  - lia.
  - exact g_s_bound.
  - discriminate.
  - repeat constructor; cbn; intros H; repeat (destruct H as [H|H]; try discriminate H); exact H.
  - intros k Hk. assert (G : k <> 0 /\ GaloisElementForColumnRotationBy gQ k = 5).
    { destruct Hk as [<- |[<- |[]]]; split; try discriminate; vm_compute; reflexivity. }
    destruct G as [Gk ->]. split; [exact Gk|]. exists g_rot5. split; [vm_compute; reflexivity|exact g_rot5_ok].
  - exists k0, x0, outs, E. split; [exact D0|]. split; [exact X1|].
    destruct (pair_down gQ gP 1 _) as [o0 o1]. destruct X2 as (_ & X2 & X3). split; [exact X2|exact X3].
Qed.
