(** Utilities of a ring: the bit reversal of rows, the rotation of evaluations, and the export of a ring. *)
From Verif Require Import Word ModRed Ring RingOps CI.

(** ring/ring_operations.go:556 [bitLenOfN], and the index [utils.BitReverse64(j, bitLenOfN)] of lines 562 and 569. *)
Definition brev_index (r : Ring) (j : nat) : nat := Z.to_nat (BitReverse64 (Z.of_nat j) (Len64 (Z.of_nat (rN r)) - 1)).

(** ring/ring_operations.go:555-564 [BitReverse], the branch p1 != p2, over all the moduli: word j of p1 is written at the
    reversed index of p2.  Simplification: two polynomials that are different but share rows are not modelled. *)
Definition BitReverse (r : Ring) (p1 p2 : rows) : rows :=
  lvl (length (rmods r))
    (fun i => fold_left (fun acc j => upd acc (brev_index r j) (nth j (prow p1 i) 0)) (seq 0 (rN r)) (prow p2 i)) p2.

(** ring/ring_operations.go:565-576 [BitReverse], the branch p1 = p2: words are exchanged. *)
Definition BitReverseInPlace (r : Ring) (p : rows) : rows :=
  lvl (length (rmods r))
    (fun x => fold_left (fun acc i => let j := brev_index r i in
                if Nat.ltb i j then upd (upd acc i (nth j acc 0)) j (nth i acc 0) else acc)
              (seq 0 (rN r)) (prow p x)) p.

(** Go's wrap-around of an [int] (64 bits, signed). *)
Definition wint (x : Z) : Z := (x + 2 ^ 63) mod 2 ^ 64 - 2 ^ 63.

(** ring/ring_operations.go:585 [n &= (1 << r.N) - 1]: the shift of an int by 64 or more gives 0, so that the mask is -1. *)
Definition rotate_exponent (N : nat) (n : Z) : Z :=
  Z.land n (wint ((if Nat.ltb N 64 then wint (2 ^ Z.of_nat N) else 0) - 1)).

(** ring/ring_operations.go:587-605, for one modulus: the loop carries the running factor [gal] and the row. *)
Definition rotate_row (N : nat) (m : modp) (n : Z) (row : list Z) : list Z :=
  let root := ModexpMontgomery (MRed (mpsiMont m) (mpsiMont m) (mq m) (mqinv m)) n (mq m) (mqinv m) (mbred m) in
  snd (fold_left (fun st j =>
         let gal := MRed (fst st) root (mq m) (mqinv m) in
         (gal, upd (snd st) j (MRed (nth j (snd st) 0) gal (mq m) (mqinv m))))
       (seq 1 (N - 1)) (MForm 1 (mq m) (mbred m), row)).

(** ring/ring_operations.go:581-607 [Rotate]: the contents of p1 and of p2 after the call.  Line 597 takes both slices from
    p1, so that p1 is what is written. *)
Definition Rotate (r : Ring) (p1 : rows) (n : Z) (p2 : rows) : rows * rows :=
  (lvl (length (rmods r)) (fun i => rotate_row (rN r) (rmod r i) (rotate_exponent (rN r) n) (prow p1 i)) p1, p2).

(** ring/ring.go:34-40: the two kinds of rings. *)
Inductive ring_type := Standard | ConjugateInvariant.

(** ring/ring.go:78-110: a ring object, with the embedded NumberTheoreticTransformer ([None] is the nil interface).
    [ro_ring] is [None] as long as the parameters have not been set. *)
Record ring_obj := mkObj { ro_ring : option Ring; ro_ntt : option ring_type }.

(** [new(Ring)]. *)
Definition new_ring : ring_obj := mkObj None None.

(** ring/ring.go:115-117, 122-124, 131-140: the two constructors, with the transformer they install. *)
Definition NewRingFromType (fuel : nat) (N : Z) (ms : list Z) (t : ring_type) : ring_obj + ring_error :=
  match (match t with Standard => NewRing fuel N ms | ConjugateInvariant => NewRingConjugateInvariant fuel N ms end) with
  | inl r => inl (mkObj (Some r) (Some t))
  | inr e => inr e
  end.

(** What a call may do: return, return an error, or panic. *)
Inductive call (A : Type) := Done (a : A) | Failed (e : ring_error) | Panicked.
Arguments Done {A} a.
Arguments Failed {A} e.
Arguments Panicked {A}.

(** ring/ring.go:346-350 [ringParams]. *)
Record ring_params := mkRingParams { pN : Z; pNthRoot : Z; pModulus : list Z }.

(** ring/ring.go:353-363 [MarshalBinary].  Simplification: encoding/gob is taken to transport the three fields unchanged, so
    that the bytes are represented by the fields themselves. *)
Definition MarshalBinary (r : Ring) : ring_params := mkRingParams (Z.of_nat (rN r)) (rNthRoot r) (moduli r).

(** ring/ring.go:366-384 [UnmarshalBinary] = setParameters (205-255) then genNTTParams (260-343) on the receiver, whose
    transformer is not touched.  genNTTParams panics (266-268) when NthRoot is 0 (after setParameters accepted).
    Simplification: on an error the model returns the error only, not the receiver as it is then. *)
Definition UnmarshalBinary (fuel : nat) (o : ring_obj) (d : ring_params) : call ring_obj :=
  match NewRingWithCustomNTT fuel (pN d) (pModulus d) (pNthRoot d) with
  | inr BadDegree => Failed BadDegree
  | inr NoModulus => Failed NoModulus
  | inr NotDistinct => Failed NotDistinct
  | other =>
      if pNthRoot d <? 1 then Panicked
      else match other with
           | inl r => Done (mkObj (Some r) (ro_ntt o))
           | inr e => Failed e
           end
  end.

(** ring/ring.go:192-201 [Type]: panics without a transformer. *)
Definition Type_ (o : ring_obj) : call ring_type :=
  match ro_ntt o with Some t => Done t | None => Panicked end.

(** ring/ring_ntt.go:25-27 [NTT] = the method Forward of the transformer (ring/ring_ntt_interface.go:41-45 and 136-140), over
    all the moduli: a call through a nil interface panics. *)
Definition ObjNTT (o : ring_obj) (p1 p2 : rows) : call rows :=
  match ro_ntt o, ro_ring o with
  | Some Standard, Some r => Done (NTTLvl r (length (rmods r) - 1) p1 p2)
  | Some ConjugateInvariant, Some r => Done (CIForwardLvl r (length (rmods r) - 1) p1 p2)
  | Some _, None => Done p2
  | None, _ => Panicked
  end.
