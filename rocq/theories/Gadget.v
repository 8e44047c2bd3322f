(** Model of what /repo/frlwe/keyswitch.go and /repo/rlwe/keyswitch.go share: the number of digits, the
    overflow margins and the lazy accumulation. *)
From Verif Require Import Word ModRed Ring NTT RingOps Float64.

(** [int(math.Ceil(float64(a) / float64(b)))] for small non-negative ints.  Simplification: the exact
    quotient rounded up (the float64 computation agrees with it for a, b below 2^26). *)
Definition ceil_div (a b : nat) : nat := ((a + b - 1) / b)%nat.

(** utils/utils.go:133-138 [MaxSliceUint64]. *)
Definition MaxSlice (l : list Z) : Z := fold_left (fun m x => if m <? x then x else m) l 0.

(** frlwe/params.go:69-71 [TiOverflowMargin], rlwe/params.go:340-348 [QiOverflowMargin],
    [PiOverflowMargin]: [int(math.Exp2(64) / float64(max(moduli[:level+1])))]. *)
Definition OverflowMargin (ms : list Z) (level : nat) : Z :=
  f64_trunc (f64_div (f64_of_Z W) (f64_of_Z (MaxSlice (firstn (S level) ms)))).

(** The accumulation of the products of the digits and the rows of a key: frlwe/keyswitch.go:131-155 for
    one block (the code runs the loop over the blocks inside the loop over the digits; the blocks do not
    interact), rlwe/keyswitch.go:193-226 and 265-298 for one of the two halves of the key and one of the
    two bases (which do not interact either).  The counter [reduce] equals i. *)
Definition acc_step (rT : Ring) (levelT : nat) (F : Z) (a b : nat -> rows) (acc : rows) (i : nat) : rows :=
  let acc := if Nat.eqb i 0 then MulCoeffsMontgomeryConstantLvl rT levelT (a i) (b i) acc
             else MulCoeffsMontgomeryConstantAndAddNoModLvl rT levelT (a i) (b i) acc in
  if Z.of_nat i mod F =? F - 1 then ReduceLvl rT levelT acc acc else acc.
Definition accumulate (rT : Ring) (levelT : nat) (F : Z) (beta : nat) (a b : nat -> rows) (pool : rows) : rows :=
  let acc := fold_left (acc_step rT levelT F a b) (seq 0 beta) pool in
  if Z.of_nat beta mod F =? 0 then acc else ReduceLvl rT levelT acc acc.

