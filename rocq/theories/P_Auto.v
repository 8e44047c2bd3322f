(** Properties C17-C19: the automorphisms X -> X^g and the Galois elements. *)
From Coq Require Import Permutation.
From Verif Require Import Word Arith PolySpec Ring RingOps RNSSpec Automorphism ScalingMore AutoProps Examples BasisEx.

(** C17.  Words may be q itself (on input and on output), hence the bound q+1.  [Permute] works on
    all the moduli of the ring. *)
Theorem C17_permute : forall r p out g X, built_ring 2 r -> 0 <= g -> Z.odd g = true ->
  (forall i, (i < length (rmods r))%nat -> length (nth i out []) = rN r) ->
  rns_repr r (length (rmods r) - 1) (fun q => q + 1) p X ->
  rns_repr r (length (rmods r) - 1) (fun q => q + 1) (Permute r p g out) (pauto (rN r) (Z.to_nat g) X).
Proof. exact (fun r p out g X => permute_poly 2 r p out g X (Z.le_refl 2)). Qed.
Print Assumptions C17_permute.

Theorem C17_composition : forall r p out out' g h X, built_ring 2 r -> 0 <= g -> Z.odd g = true -> 0 <= h -> Z.odd h = true ->
  (forall i, (i < length (rmods r))%nat -> length (nth i out []) = rN r /\ length (nth i out' []) = rN r) ->
  rns_repr r (length (rmods r) - 1) canon p X ->
  rns_repr r (length (rmods r) - 1) (fun q => q + 1) (Permute r (Permute r p g out) h out')
    (pauto (rN r) (Nat.modulo (Z.to_nat g * Z.to_nat h) (2 * rN r)) X).
Proof. exact (fun r p out out' g h X => permute_twice 2 r p out out' g h X (Z.le_refl 2)). Qed.
Print Assumptions C17_composition.

Theorem C17_inverse : forall r p out out' g X, built_ring 2 r -> 0 <= g < W -> Z.odd g = true ->
  (forall i, (i < length (rmods r))%nat -> length (nth i out []) = rN r /\ length (nth i out' []) = rN r) ->
  rns_repr r (length (rmods r) - 1) canon p X ->
  rns_repr r (length (rmods r) - 1) (fun q => q + 1) (Permute r (Permute r p g out) (InverseGaloisElement r g) out') X.
Proof. exact (fun r p out out' g X => permute_inverse 2 r p out out' g X (Z.le_refl 2)). Qed.
Print Assumptions C17_inverse.

(** The map X -> X^g of the specification is a ring endomorphism of Z_q[X]/(X^N+1). *)
Theorem C17_automorphism : forall N q g a b, (0 < N)%nat -> Nat.odd g = true ->
  peq N q (pauto N g (padd a b)) (padd (pauto N g a) (pauto N g b)) /\
  peq N q (pauto N g (pmul N a b)) (pmul N (pauto N g a) (pauto N g b)) /\
  peq N q (pauto N g pone) pone.
Proof. exact pauto_morphism. Qed.
Print Assumptions C17_automorphism.

(** The result is not always reduced: a zero coefficient that changes sign becomes q. *)
Theorem C17_reduced_refuted : exists r p out g,
  built_ring 8 r /\ words r (length (rmods r) - 1) canon p /\ words r (length (rmods r) - 1) canon out /\ Z.odd g = true /\
  coeff (Permute r p g out) 0 12 = mq (rmod r 0).
Proof.
  exists ring16, poly_a, poly_b, 31. split; [exact ring16_built|].
  split; [apply wordsb_ok; vm_compute; reflexivity|]. split; [apply wordsb_ok; vm_compute; reflexivity|].
  split; [reflexivity|]. vm_compute. reflexivity.
Qed.
Print Assumptions C17_reduced_refuted.

Example C17_case : rns_repr ring16 (length (rmods ring16) - 1) canon (res_rows ring16 2 X16) X16.
Proof. apply (res_rows_repr 8); [lia|exact ring16_built|vm_compute; lia]. Qed.
(** X -> X^5 on 1 + 2X + ... + 16X^15: X^15 goes to X^75 = X^11. *)
Example C17_case_value : nth 0 (Permute ring16 (repeat [1; 2; 3; 4; 5; 6; 7; 8; 9; 10; 11; 12; 13; 14; 15; 16] 3) 5 poly_b) [] =
  [1; 14; 86; 8; 92; 2; 15; 85; 9; 91; 3; 16; 84; 10; 90; 4].
Proof. vm_compute. reflexivity. Qed.

(** C18. *)
Theorem C18_index_permutation : forall r g, built_ring 2 r -> Z.odd g = true ->
  Permutation (PermuteNTTIndex r g) (map Z.of_nat (seq 0 (rN r))).
Proof. exact (fun r g => index_perm 2 r g (Z.le_refl 2)). Qed.
Print Assumptions C18_index_permutation.

Theorem C18_permute_ntt : forall r L level B p out g X, built_ring 2 r -> rN r = (2 ^ L)%nat -> 0 <= g -> Z.odd g = true ->
  rns_ntt r L level B p X ->
  rns_ntt r L level B (PermuteNTTLvl r level p g out) (pauto (rN r) (Z.to_nat g) X).
Proof. exact (fun r L level B p out g X => permute_ntt_index 2 r L level B p out g X (Z.le_refl 2)). Qed.
Print Assumptions C18_permute_ntt.

(** The accumulating variant, as long as the sums stay below 2^64. *)
Theorem C18_permute_ntt_add : forall r L level B B' p out g X Y, built_ring 2 r -> rN r = (2 ^ L)%nat -> 0 <= g -> Z.odd g = true ->
  (forall i, (i <= level)%nat -> B (mq (rmod r i)) + B' (mq (rmod r i)) <= W + 1) ->
  rns_ntt r L level B p X -> rns_ntt r L level B' out Y ->
  rns_ntt r L level (fun q => B q + B' q) (PermuteNTTWithIndexAndAddNoModLvl r level p (PermuteNTTIndex r g) out)
    (padd Y (pauto (rN r) (Z.to_nat g) X)).
Proof. exact (fun r L level B B' p out g X Y => permute_ntt_add 2 r L level B B' p out g X Y (Z.le_refl 2)). Qed.
Print Assumptions C18_permute_ntt_add.

Theorem C18_composition : forall r L level B p out out' g h X, built_ring 2 r -> rN r = (2 ^ L)%nat ->
  0 <= g -> Z.odd g = true -> 0 <= h -> Z.odd h = true ->
  rns_ntt r L level B p X ->
  rns_ntt r L level B (PermuteNTTLvl r level (PermuteNTTLvl r level p g out) h out')
    (pauto (rN r) (Nat.modulo (Z.to_nat g * Z.to_nat h) (2 * rN r)) X).
Proof. exact (fun r L level B p out out' g h X => permute_ntt_twice 2 r L level B p out out' g h X (Z.le_refl 2)). Qed.
Print Assumptions C18_composition.

Theorem C18_inverse : forall r L level B p out out' g X, built_ring 2 r -> rN r = (2 ^ L)%nat ->
  0 <= g < W -> Z.odd g = true -> rns_ntt r L level B p X ->
  rns_ntt r L level B (PermuteNTTLvl r level (PermuteNTTLvl r level p g out) (InverseGaloisElement r g) out') X.
Proof. exact (fun r L level B p out out' g X => permute_ntt_inverse 2 r L level B p out out' g X (Z.le_refl 2)). Qed.
Print Assumptions C18_inverse.

Example C18_case : PermuteNTTIndex ring16 5 = [4; 5; 6; 7; 3; 2; 0; 1; 14; 15; 13; 12; 8; 9; 10; 11].
Proof. vm_compute. reflexivity. Qed.
Example C18_case_transform : exists p X, rns_ntt ring16 4 2 canon p X.
Proof. exists (NTTLvl ring16 2 (res_rows ring16 2 X16) []), X16. apply ntt_coeff; [exact ring16_built|vm_compute; reflexivity|]. apply (res_rows_repr 8); [lia|exact ring16_built|vm_compute; lia]. Qed.

(** C19.  M = 2N is the order of the roots; [k], [l] range over all integers. *)
Theorem C19_group : forall r, built_ring 2 r -> forall k l,
  let gal := GaloisElementForColumnRotationBy r in let M := 2 * Z.of_nat (rN r) in
  (0 < gal k < M /\ Z.odd (gal k) = true) /\ gal 0 = 1 /\
  (gal k * gal l) mod M = gal (k + l) /\
  (gal k = gal l <-> k mod (Z.of_nat (rN r) / 2) = l mod (Z.of_nat (rN r) / 2)).
Proof.
  exact (fun r Hb k l => conj (gal_range 2 r (Z.le_refl 2) Hb k) (conj (gal_0 2 r (Z.le_refl 2) Hb)
    (conj (gal_add 2 r (Z.le_refl 2) Hb k l) (gal_eq_iff 2 r (Z.le_refl 2) Hb k l)))).
Qed.
Print Assumptions C19_group.

Theorem C19_inverse : forall r, built_ring 2 r ->
  let M := 2 * Z.of_nat (rN r) in
  (forall g, 0 <= g < W -> Z.odd g = true ->
     0 < InverseGaloisElement r g < M /\ Z.odd (InverseGaloisElement r g) = true /\ (g * InverseGaloisElement r g) mod M = 1) /\
  (forall k, InverseGaloisElement r (GaloisElementForColumnRotationBy r k) = GaloisElementForColumnRotationBy r (- k)).
Proof. exact (fun r Hb => conj (inverse_odd 2 r (Z.le_refl 2) Hb) (inverse_gal 2 r (Z.le_refl 2) Hb)). Qed.
Print Assumptions C19_inverse.

(** The row rotation is the involution -1, and it is not a column rotation; with the column rotations it
    generates all the odd elements. *)
Theorem C19_row_rotation : forall r, built_ring 2 r ->
  let M := 2 * Z.of_nat (rN r) in
  GaloisElementForRowRotation r = M - 1 /\ (GaloisElementForRowRotation r * GaloisElementForRowRotation r) mod M = 1 /\
  forall k, GaloisElementForRowRotation r <> GaloisElementForColumnRotationBy r k.
Proof. exact (fun r => row_rotation 2 r (Z.le_refl 2)). Qed.
Print Assumptions C19_row_rotation.

Theorem C19_generates : forall r, built_ring 2 r -> forall g,
  let M := 2 * Z.of_nat (rN r) in
  0 <= g < M -> Z.odd g = true ->
  exists k, 0 <= k < Z.of_nat (rN r) / 2 /\
    (g = GaloisElementForColumnRotationBy r k \/ g = M - GaloisElementForColumnRotationBy r k).
Proof. exact (fun r => gal_generates 2 r (Z.le_refl 2)). Qed.
Print Assumptions C19_generates.

(** The precomputed list of column rotations. *)
Theorem C19_gen_galois_params : forall r, built_ring 2 r ->
  let l := GenGaloisParams (Z.of_nat (rN r)) GaloisGen in
  length l = Nat.div (rN r) 2 /\
  forall i, (i < Nat.div (rN r) 2)%nat -> nth i l 0 = GaloisElementForColumnRotationBy r (Z.of_nat i).
Proof. exact (fun r => galois_params 2 r (Z.le_refl 2)). Qed.
Print Assumptions C19_gen_galois_params.

Example C19_case : map (GaloisElementForColumnRotationBy ring16) [0; 1; 2; -1; 7; 8; -8; 1000001] = [1; 5; 25; 13; 13; 1; 1; 5].
Proof. vm_compute. reflexivity. Qed.
Example C19_case_inverse : map (InverseGaloisElement ring16) [5; 31; 3] = [13; 31; 11].
Proof. vm_compute. reflexivity. Qed.
