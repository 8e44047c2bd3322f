(** Inputs on which rlwe returns something else than one would expect. *)
From Verif Require Import Word Arith PolySpec PolyProofs Ring RingProofs NTT RingOps RNSSpec RowProofs OpsProofs OpsProps BasisExt BasisProps Gadget Frlwe FrlweSetup GadgetSpec Repr FrlweProps BasisEx FrlweEx RlweSpec Rlwe RlweKeys RlweEx.

(** A zero given as q_0 becomes p_0. *)
Lemma extend_unreduced : exists rQ rP p X, built_ring 9 rQ /\ built_ring 9 rP /\ rN rP = rN rQ /\
  row_repr (rN rQ) (mq (rmod rQ 0)) (mq (rmod rQ 0) + 1) (nth 0 p []) X /\ small_poly rQ rP 0 X /\
  ~ rns_repr rP 0 canon (ExtendBasisSmallNormAndCenter rQ rP p 0 []) X.
Proof.
  exists eQ, eP, [repeat 97 16], pzero. split; [apply pair16|]. split; [apply pair16|]. split; [reflexivity|].
  assert (R : forall q k, (k < 16)%nat -> nth k (repeat q 16) 0 = q) by (intros q k Hk; do 16 (destruct k as [|k]; [reflexivity|]); lia).
  change (rN eQ) with 16%nat. change (mq (rmod eQ 0)) with 97. split; [|split].
  - split; [reflexivity|]. intros k Hk. cbn [nth]. change (0 <= nth k (repeat 97 16) 0 < 97 + 1 /\ eqm 97 (nth k (repeat 97 16) 0) 0). rewrite R by exact Hk. split; [lia|reflexivity].
  - intros k Hk. unfold pzero. split; [reflexivity|]. intros i Hi. replace i with O by lia. unfold Z.le. vm_compute. discriminate.
  - intros (_ & _ & H). destruct (H 0%nat ltac:(lia)) as [_ H']. destruct (H' 0%nat) as [[_ H1] _]; [cbn; lia|].
    vm_compute in H1. discriminate.
Qed.

(** A ciphertext of degree 7 given by coefficients, all of whose polynomials but the first are zero. *)
Definition ex_c0 : list Z := Eval vm_compute in map (fun k => (Z.of_nat k * Z.of_nat k * 37) mod 97) (seq 0 16).
Definition ex_ct7 : list rows := [ex_c0] :: repeat [repeat 0 16] 7.
Definition ex_C7 (i : nat) : poly := if Nat.eqb i 0 then (fun k => nth k ex_c0 0) else pzero.
Definition ex_key1row : rows := Eval vm_compute in [prow (key_rows eQ ex_s) 0].

Lemma pmul_zero n b k : pmul n pzero b k = 0.
Proof. unfold pmul. rewrite (bigsum_ext _ _ (fun _ => 0)); [apply bigsum_zero; reflexivity|]. intros i Hi. unfold pzero. ring. Qed.

Lemma decrypt_degree_seven : exists rQ, built_ring 9 rQ /\ exists L level sk s ct C,
  rN rQ = (2 ^ L)%nat /\ length ct = 8%nat /\ rns_ntt rQ L level canon sk (pscale W s) /\
  (forall j, (j < 8)%nat -> rns_dom rQ L level false (nth j ct []) (C j)) /\
  ~ rns_repr rQ level (fun _ => W) (Decrypt rQ sk ct false (repeat [] (S level)) false []) (psum 8 (fun i => pmul (rN rQ) (C i) (ppow (rN rQ) s i))).
Proof.
  exists eQ. split; [apply pair16|]. exists 4%nat, 0%nat, ex_key1row, ex_s, ex_ct7, ex_C7. split; [reflexivity|]. split; [reflexivity|]. split; [|split].
  - pose proof (key_rows_ok eQ 4 ex_s (proj1 pair16) eq_refl ltac:(cbn; lia)) as (_ & _ & H).
    split; [cbn; lia|]. split; [cbn; lia|]. intros i Hi. replace i with O by lia. specialize (H 0%nat ltac:(lia)).
    replace (nth 0 ex_key1row []) with (nth 0 (key_rows eQ ex_s) []) by (vm_compute; reflexivity). exact H.
  - intros j Hj. unfold rns_dom. assert (X : nth j ex_ct7 [] = [if Nat.eqb j 0 then ex_c0 else repeat 0 16]) by (do 8 (destruct j as [|j]; [reflexivity|]); lia).
    refine (eq_ind_r (fun c => rns_repr eQ 0 canon c (ex_C7 j)) _ X). split; [cbn; lia|]. split; [cbn; lia|]. intros i Hi. replace i with O by lia. change (rN eQ) with 16%nat. change (mq (rmod eQ 0)) with 97. cbn [nth]. unfold canon, ex_C7. destruct (Nat.eqb j 0).
    + split; [reflexivity|]. intros k Hk. split; [|reflexivity]. clear - Hk. do 16 (destruct k as [|k]; [cbn; lia|]). lia.
    + split; [reflexivity|]. intros k Hk. clear - Hk. do 16 (destruct k as [|k]; [split; [cbn; lia|reflexivity]|]). lia.
  - intros (_ & _ & H). destruct (H 0%nat ltac:(lia)) as [_ H']. specialize (H' 8%nat). change (rN eQ) with 16%nat in H'. destruct (H' ltac:(lia)) as [_ E]. clear H H'.
    change (mq (rmod eQ 0)) with 97 in E.
    assert (V : eqm 97 (psum 8 (fun i => pmul 16 (ex_C7 i) (ppow 16 ex_s i)) 8%nat) 40).
    { unfold psum. cbn [bigsum]. unfold ex_C7. cbn [Nat.eqb]. rewrite !pmul_zero. cbn [ppow]. rewrite (pmul_1_r 16 97 (fun k => nth k ex_c0 0) 8%nat ltac:(lia)). vm_compute. reflexivity. }
    rewrite V in E. vm_compute in E. discriminate.
Qed.
