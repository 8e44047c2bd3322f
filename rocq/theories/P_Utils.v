(** The helpers of package utils: property C27. *)
From Verif Require Import Word Ring RingProofs Codec Params ParamsSpec ParamsProofs Utils UtilsProofs.

(** AllDistinct accepts exactly the lists without repetition. *)
Theorem C27_all_distinct : forall s, AllDistinct s = true <-> NoDup s.
Proof. exact AllDistinct_spec. Qed.
Print Assumptions C27_all_distinct.

(** Bit i of the reversal of x in L bits is bit L - 1 - i of x, and there are no other bits; reversing twice gives x. *)
Theorem C27_bit_reverse : forall x L i, 0 <= x < W -> 0 <= L <= 64 -> 0 <= i -> Z.testbit (BitReverse64 x L) i = (i <? L) && Z.testbit x (L - 1 - i).
Proof. exact bit_reverse_testbit. Qed.
Print Assumptions C27_bit_reverse.

Theorem C27_bit_reverse_involution : forall x L, 0 <= L <= 64 -> 0 <= x < 2 ^ L -> 0 <= BitReverse64 x L < 2 ^ L /\ BitReverse64 (BitReverse64 x L) L = x.
Proof. exact bit_reverse_invol. Qed.
Print Assumptions C27_bit_reverse_involution.

(** HammingWeight64 counts the one bits. *)
Theorem C27_hamming_weight : forall x, 0 <= x < W -> HammingWeight64 x = Z.of_nat (length (filter (fun i => Z.testbit x (Z.of_nat i)) (seq 0 64))).
Proof. exact hamming_bits. Qed.
Print Assumptions C27_hamming_weight.

(** Rotation by k moves entry (i + k) mod n to place i; rotations compose and invert. *)
Theorem C27_rotate : forall (A : Type) (s : list A) k d, length (RotateSlice s k) = length s /\
  forall i, (i < length s)%nat -> nth i (RotateSlice s k) d = nth (Z.to_nat ((Z.of_nat i + k) mod Z.of_nat (length s))) s d.
Proof. exact @rotate_spec. Qed.
Print Assumptions C27_rotate.

Theorem C27_rotate_laws : forall (A : Type) (s : list A), (forall j k, RotateSlice (RotateSlice s j) k = RotateSlice s (j + k)) /\ RotateSlice s 0 = s /\ RotateSlice s (Z.of_nat (length s)) = s /\
  forall k, RotateSlice (RotateSlice s k) (- k) = s.
Proof. exact @rotate_laws. Qed.
Print Assumptions C27_rotate_laws.

Theorem C27_rotate_slots : forall (A : Type) (a b : list A) k, length a = length b -> RotateSlots (a ++ b) k = RotateSlice a k ++ RotateSlice b k.
Proof. exact @rotate_slots. Qed.
Print Assumptions C27_rotate_slots.

(** Membership and extrema. *)
Theorem C27_is_in_slice : forall x s, IsInSlice x s = true <-> In x s.
Proof. exact is_in_slice. Qed.
Print Assumptions C27_is_in_slice.

Theorem C27_min_max : forall a b, Min a b = Z.min a b /\ Max a b = Z.max a b.
Proof. exact (fun a b => conj (min_spec a b) (max_spec a b)). Qed.
Print Assumptions C27_min_max.

Theorem C27_max_slice : forall s, Forall (Z.le 0) s -> s <> [] -> In (MaxSlice s) s /\ forall y, In y s -> y <= MaxSlice s.
Proof. exact max_slice. Qed.
Print Assumptions C27_max_slice.

(** EqualSlice only compares with a prefix of its second argument, and panics when the second argument is a proper prefix
    of the first. *)
Theorem C27_equal_slice : forall a b, (EqualSliceUint64 a b = Ret true <-> prefix a b) /\ (EqualSliceUint64 a b = Panic <-> prefix b a /\ a <> b).
Proof. exact (fun a b => conj (equal_slice_true a b) (equal_slice_panic a b)). Qed.
Print Assumptions C27_equal_slice.

(** It does not decide equality. *)
Theorem C27_equal_slice_refuted : exists a b, a <> b /\ EqualSliceUint64 a b = Ret true /\ EqualSliceUint64 b a = Panic.
Proof. exact equal_slice_differs. Qed.
Print Assumptions C27_equal_slice_refuted.

Example C27_example_equal : EqualSliceUint64 [3] [3; 4] = Ret true /\ EqualSliceUint64 [3; 4] [3] = Panic /\ EqualSliceUint64 [3; 5] [3; 4] = Ret false.
Proof. repeat split. Qed.
Example C27_example_bits : BitReverse64 5 5 = 20 /\ HammingWeight64 0xF0F0000000000001 = 9.
Proof. split; vm_compute; reflexivity. Qed.
Example C27_example_rotate : RotateSlice [1; 2; 3; 4; 5] 2 = [3; 4; 5; 1; 2] /\ RotateSlice [1; 2; 3; 4; 5] (-1) = [5; 1; 2; 3; 4] /\ RotateSlots [1; 2; 3; 4] 1 = [2; 1; 4; 3].
Proof. repeat split. Qed.
