(** Model of /repo/utils/utils.go.  [BitReverse64] and [AllDistinct] are in Ring.v, [EqualSliceUint64] in Params.v (the
    versions for int64 and uint8 are the same code); the random helpers (24-46) read crypto/rand and are not modelled. *)
From Verif Require Import Word Ring.

(** utils/utils.go:77-90 [IsInSliceUint64], [IsInSliceInt]: no early exit. *)
Definition IsInSlice (x : Z) (slice : list Z) : bool := fold_left (fun v y => v || (y =? x)) slice false.
(** utils/utils.go:93-122 [MinUint64], [MinInt], [MaxUint64], [MaxInt]. *)
Definition Min (a b : Z) : Z := if a <=? b then a else b.
Definition Max (a b : Z) : Z := if b <=? a then a else b.
(** utils/utils.go:133-138 [MaxSliceUint64]: the result starts at 0. *)
Definition MaxSlice (slice : list Z) : Z := fold_left Max slice 0.
(** utils/utils.go:146-151 [HammingWeight64]. *)
Definition HammingWeight64 (x : Z) : Z :=
  let x := wsub x (Z.land (wshr x 1) 0x5555555555555555) in
  let x := wadd (Z.land x 0x3333333333333333) (Z.land (wshr x 2) 0x3333333333333333) in
  let x := Z.land (wadd x (wshr x 4)) 0x0f0f0f0f0f0f0f0f in
  wshr (Z.land (wmul x 0x0101010101010101) 0xffffffffffffffff) 56.
(** utils/utils.go:166-178 [RotateUint64Slice]; 181-192, 205-216, 219-230 are the same code for int64, complex128 and float64.  The
    two copies fill the new slice from both ends.  The result shares its memory with s when k = 0. *)
Definition RotateSlice {A} (s : list A) (k : Z) : list A :=
  if (k =? 0) || Nat.eqb (length s) 0 then s
  else
    let r := Z.rem k (Z.of_nat (length s)) in
    let r := if r <? 0 then r + Z.of_nat (length s) else r in
    skipn (Z.to_nat r) s ++ firstn (Z.to_nat r) s.
(** utils/utils.go:197-203 [RotateUint64Slots]. *)
Definition RotateSlots {A} (s : list A) (k : Z) : list A :=
  let slots := (length s / 2)%nat in
  RotateSlice (firstn slots s) k ++ RotateSlice (skipn slots s) k.
