(** Sets of rotation keys: rlwe/keygen.go, rlwe/keys.go, and the lists of rotations of ckks/params.go. *)
From Verif Require Import Word Arith Ring RingOps Automorphism Frlwe Gadget Rlwe Float64 RingUtil Ckks.
Open Scope Z_scope.

(** A map from Galois elements to keys: its entries, one for each Galois element. *)
Definition rotation_set : Type := list (Z * swkey).
(** The assignment m[g] = key. *)
Fixpoint put (m : rotation_set) (g : Z) (key : swkey) : rotation_set :=
  match m with
  | [] => [(g, key)]
  | (h, x) :: t => if h =? g then (h, key) :: t else (h, x) :: put t g key
  end.
(** rlwe/keys.go:86-94 [GetRotationKey]; a nil map is the empty one.  [None]: not in the set. *)
Definition GetRotationKey (m : rotation_set) (g : Z) : option swkey :=
  match find (fun e => fst e =? g) m with Some e => Some (snd e) | None => None end.

(** rlwe/keys.go:97-107 [NewSwitchingKey] with all the moduli. *)
Definition NewSwitchingKey (rQ rP : Ring) : swkey :=
  let z := (zero_rows (rN rQ) (length (rmods rQ)), zero_rows (rN rQ) (length (rmods rP))) in
  let l := repeat z (ceil_div (length (rmods rQ)) (length (rmods rP))) in (l, l).
(** rlwe/keys.go:77-84 [NewRotationKeySet]. *)
Definition NewRotationKeySet (rQ rP : Ring) (galEls : list Z) : rotation_set :=
  fold_left (fun m g => put m g (NewSwitchingKey rQ rP)) galEls [].

(** What call number i of [genrotKey] draws (the errors and the uniform polynomials of its digits) and finds in the pools. *)
Record draw := mkDraw { drE : nat -> rows; drQ : nat -> rows; drP : nat -> rows; drPool : rows * rows; drPoolQ : rows }.

(** rlwe/keygen.go:210-216 [GenRotationKeys].  [genrotKey] writes all the rows of the key found in the map, so that the
    key is replaced. *)
Fixpoint gen_loop (rQ rP : Ring) (sk : rows * rows) (d : nat -> draw) (i : nat) (galEls : list Z) (m : rotation_set) : rotation_set :=
  match galEls with
  | [] => m
  | g :: t =>
      gen_loop rQ rP sk d (S i) t
        (put m g (genrotKey rQ rP sk (InverseGaloisElement rQ g) (drE (d i)) (drQ (d i)) (drP (d i)) (drPool (d i)) (drPoolQ (d i))))
  end.
Definition GenRotationKeys (rQ rP : Ring) (galEls : list Z) (sk : rows * rows) (d : nat -> draw) : rotation_set :=
  gen_loop rQ rP sk d 0 galEls (NewRotationKeySet rQ rP galEls).

(** rlwe/keygen.go:228-237 [GenRotationKeysForRotations], standard ring type. *)
Definition GenRotationKeysForRotations (rQ rP : Ring) (ks : list Z) (includeConjugate : bool) (sk : rows * rows) (d : nat -> draw) : rotation_set :=
  GenRotationKeys rQ rP (map (GaloisElementForColumnRotationBy rQ) ks ++ (if includeConjugate then [GaloisElementForRowRotation rQ] else [])) sk d.

(** rlwe/keygen.go:252-254 [GenRotationKeysForInnerSum], standard ring type. *)
Definition GenRotationKeysForInnerSum (rQ rP : Ring) (logN : nat) (sk : rows * rows) (d : nat -> draw) : rotation_set :=
  GenRotationKeys rQ rP (GaloisElementsForRowInnerSum rQ logN) sk d.

(** ckks/evaluator.go:1392-1396 [RotateNew], 1421-1430 [ConjugateNew]. *)
Definition RotateNew (rQ rP : Ring) (levelP : nat) (rtks : Z -> option swkey) (ct0 : Ct) (k : Z) (s : Scratch) : option Ct :=
  Rotate rQ rP levelP rtks k false ct0 (NewCiphertext (rN rQ) (ctDegree ct0) (ctLevel ct0) (ctScale ct0)) s.
Definition ConjugateNew (rQ rP : Ring) (levelP : nat) (rtks : Z -> option swkey) (ct0 : Ct) (s : Scratch) : option Ct :=
  Conjugate rQ rP levelP rtks false ct0 (NewCiphertext (rN rQ) (ctDegree ct0) (ctLevel ct0) (ctScale ct0)) s.

(** ** ckks/params.go: the lists of rotations.  Products of ints wrap. *)

(** ckks/params.go:480-486 [RotationsForInnerSum]. *)
Definition RotationsForInnerSum (batch n : Z) : list Z :=
  map (fun i => wint (Z.of_nat i * batch)) (seq 1 (Z.to_nat n - 1)).

(** An insertion in the map of ckks/params.go:492, of which only the keys matter. *)
Definition insert (k : Z) (l : list Z) : list Z := if in_dec Z.eq_dec k l then l else l ++ [k].
(** ckks/params.go:496-505: the loop, [fuel] iterations at most ([None]: it goes on). *)
Fixpoint log_loop (fuel : nat) (i n batch : Z) (acc : list Z) : option (list Z) :=
  match fuel with
  | O => None
  | S f =>
      if i <? n then
        let acc := insert (wint (i * batch)) acc in
        let k := wint (n - Z.land n (wint (wint (2 * i) - 1))) in
        log_loop f (wint (2 * i)) n batch (insert (wint (k * batch)) acc)
      else Some acc
  end.
(** ckks/params.go:490-515 [RotationsForInnerSumLog]; [order] is the order in which the map is visited. *)
Definition RotationsForInnerSumLog (fuel : nat) (order : list Z -> list Z) (batch n : Z) : option (list Z) :=
  match log_loop fuel 1 n batch [] with Some l => Some (order l) | None => None end.

(** ckks/params.go:519-521 [RotationsForReplicate], 525-527 [RotationsForReplicateLog]. *)
Definition RotationsForReplicate (batch n : Z) : list Z := RotationsForInnerSum (wint (- batch)) n.
Definition RotationsForReplicateLog (fuel : nat) (order : list Z -> list Z) (batch n : Z) : option (list Z) :=
  RotationsForInnerSumLog fuel order (wint (- batch)) n.

(** ckks/params.go:531-539 [RotationsForTrace], for a start that is not negative (else the shift panics). *)
Definition RotationsForTrace (logSlotsStart logSlotsEnd : nat) : list Z :=
  map (fun i => wint (2 ^ Z.of_nat i)) (seq logSlotsStart (logSlotsEnd - logSlotsStart)).
