(** Model of /repo/ring/ring_automorphism.go and of the Galois elements of
    /repo/rlwe/params.go:350-392.

    As in RingOps.v the new content of the destination is returned and the 8-way
    unrolling is not modelled. *)
From Verif Require Import Word ModRed Ring NTT RingOps.

(** Go's slice assignment [l[i] = v] (out-of-range indices panic in Go and are ignored here). *)
Fixpoint upd (l : list Z) (i : nat) (v : Z) : list Z :=
  match l, i with
  | [], _ => []
  | _ :: l', O => v :: l'
  | x :: l', S i' => x :: upd l' i' v
  end.

(** ring/ring_automorphism.go:27-44 [GenGaloisParams]; the loop carries the last entry. *)
Fixpoint galois_powers (cnt : nat) (gen mask last : Z) : list Z :=
  match cnt with
  | O => []
  | S c => let v := Z.land (wmul last gen) mask in v :: galois_powers c gen mask v
  end.
Definition GenGaloisParams (n gen : Z) : list Z :=
  1 :: galois_powers (Z.to_nat (wshr n 1) - 1) gen (wsub (wshl n 1) 1) 1.

(** ring/ring_automorphism.go:47-61 [PermuteNTTIndex]; the products and sums are uint64 operations. *)
Definition PermuteNTTIndex (r : Ring) (galEl : Z) : list Z :=
  let logNthRoot := Len64 (rNthRoot r) - 2 in
  let mask := rNthRoot r - 1 in
  map (fun i =>
    let tmp1 := wadd (wmul 2 (BitReverse64 (Z.of_nat i) logNthRoot)) 1 in
    let tmp2 := wshr (wsub (Z.land (wmul galEl tmp1) mask) 1) 1 in
    BitReverse64 tmp2 logNthRoot) (seq 0 (rN r)).

(** ring/ring_automorphism.go:80-101 [PermuteNTTWithIndexLvl]. *)
Definition PermuteNTTWithIndexLvl (r : Ring) (level : nat) (p : rows) (index : list Z) (out : rows) : rows :=
  lvl (S level) (fun i => map (fun x => nth (Z.to_nat x) (prow p i) 0) index) out.

(** ring/ring_automorphism.go:107-128 [PermuteNTTWithIndexAndAddNoModLvl]. *)
Definition PermuteNTTWithIndexAndAddNoModLvl (r : Ring) (level : nat) (p : rows) (index : list Z) (out : rows) : rows :=
  lvl (S level) (fun i => map2 (fun z x => wadd z (nth (Z.to_nat x) (prow p i) 0)) (prow out i) index) out.

(** ring/ring_automorphism.go:73-75 [PermuteNTTLvl], 66-68 [PermuteNTT]. *)
Definition PermuteNTTLvl (r : Ring) (level : nat) (p : rows) (gen : Z) (out : rows) : rows :=
  PermuteNTTWithIndexLvl r level p (PermuteNTTIndex r gen) out.
Definition PermuteNTT (r : Ring) (p : rows) (gen : Z) (out : rows) : rows :=
  PermuteNTTLvl r (Nat.min (length p - 1) (length out - 1)) p gen out.

(** ring/ring_automorphism.go:133-154 [Permute]; the loop over the coefficients, for the row of the
    modulus qi (the code runs the loop over the rows inside; the rows do not interact). *)
Definition permute_row (N : nat) (qi gen : Z) (row out : list Z) : list Z :=
  let mask := Z.of_nat N - 1 in
  let logN := Len64 mask in
  fold_left (fun o i =>
    let indexRaw := wmul (Z.of_nat i) gen in
    let index := Z.land indexRaw mask in
    let tmp := Z.land (wshr indexRaw logN) 1 in
    let x := nth i row 0 in
    upd o (Z.to_nat index) (Z.lor (wmul x (Z.lxor tmp 1)) (wmul (wsub qi x) tmp))) (seq 0 N) out.
Definition Permute (r : Ring) (p : rows) (gen : Z) (out : rows) : rows :=
  lvl (length (rmods r)) (fun j => permute_row (rN r) (mq (rmod r j)) gen (prow p j) (prow out j)) out.

(** rlwe/params.go:45-47 [GaloisGen]. *)
Definition GaloisGen : Z := 5.

(** rlwe/params.go:353-355 [GaloisElementForColumnRotationBy]: [k] is a (signed) int, [&] is
    Go's two's complement conjunction, which is [Z.land]. *)
Definition GaloisElementForColumnRotationBy (r : Ring) (k : Z) : Z :=
  ModExp GaloisGen (Z.land k (rNthRoot r - 1)) (rNthRoot r).

(** rlwe/params.go:359-364 [GaloisElementForRowRotation], for the standard ring type (it panics for
    the conjugate-invariant one). *)
Definition GaloisElementForRowRotation (r : Ring) : Z := rNthRoot r - 1.

(** rlwe/params.go:369-385 [GaloisElementsForRowInnerSum], standard ring type. *)
Definition GaloisElementsForRowInnerSum (r : Ring) (logN : nat) : list Z :=
  map (fun i => GaloisElementForColumnRotationBy r (2 ^ Z.of_nat i)) (seq 0 (logN - 1)) ++ [GaloisElementForRowRotation r].

(** rlwe/params.go:390-392 [InverseGaloisElement]. *)
Definition InverseGaloisElement (r : Ring) (galEl : Z) : Z :=
  ModExp galEl (rNthRoot r - 1) (rNthRoot r).
