(** A memory with three polynomials of two rows, and the statements of P_Heap that are closed by computation. *)
From Verif Require Import Word Heap HeapSpec HeapProofs HeapTop HeapEq.
Require Import Lia.
Open Scope nat_scope.

Definition full (a n : nat) : slice := Slice a 0 n n.
Definition ex_mem : mem :=
  Mem [[1; 2; 3; 4]%Z; [5; 6; 7; 8]%Z; [9; 10; 11; 12]%Z; [0; 0; 0; 0]%Z; [0; 0; 0; 0]%Z; [0; 0; 0; 0]%Z]
      [Poly [full 0 4; full 1 4] true false; Poly [full 2 4] false true; Poly [full 3 4; full 4 4] false false; Poly [full 5 4] true true].
Definition ex_swk : switchingKey := [((QP (Some 0) (Some 1)), (QP (Some 2) (Some 3)))].

Lemma ex_mem_ok : mem_ok ex_mem.
Proof. unfold mem_ok, ex_mem. simpl. repeat constructor. Qed.
Lemma ex_swk_valid : Forall (valid ex_mem) (ptrsSWK ex_swk).
Proof. unfold valid. simpl. repeat constructor. Qed.
Lemma ex_swk_full : fullSWK ex_swk.
Proof. repeat constructor; discriminate. Qed.

Lemma empty_key_ex : exists m m', mem_ok m /\ SWK_CopyNew m (Some []) = (m', None) /\ SWK_Equals m' (Some []) None = false /\
  RLK_CopyNew m (Some []) = (m', None) /\ RLK_Equals m' (Some []) None = false.
Proof. exists ex_mem, ex_mem. split; [exact ex_mem_ok|]. repeat split. Qed.

Lemma levels_ex : exists m pol p1, mem_ok m /\ valid m pol /\ valid m p1 /\ rect m 4 pol /\ rect m 4 p1 /\ NoDup (rows_of m pol) /\ elsewhere m [pol] p1 /\
  Poly_Equals (Poly_Copy m pol p1) (Some pol) (Some p1) = false.
Proof.
  exists ex_mem, 2, 1. split; [exact ex_mem_ok|]. unfold valid, rect, rows_of, elsewhere, rows_of, shape. simpl.
  repeat split; try lia; repeat constructor; simpl; try lia.
  all: intros a Ha Hb; lia.
Qed.

Lemma shift_zero_ex : exists m p1 p2 m', mem_ok m /\ p1 <> p2 /\ Shift 0 4 2 m p1 0 p2 = Some m' /\ content m' p1 = content m p1 /\
  exists w, content (apply_change m' p2 w) p1 <> content m p1.
Proof.
  exists ex_mem, 0, 2. eexists. split; [exact ex_mem_ok|]. split; [discriminate|]. split; [reflexivity|]. split; [reflexivity|].
  exists (SetWord 0 0 77%Z). discriminate.
Qed.

Lemma rotate_zero_ex : exists m s v, mem_ok m /\ slice_ok m s /\ 0 < len s /\
  let '(m', r) := RotateUint64Slice m s 0 in words (set_words m' (Slice (arr r) (off r) 1 1) [v]) s <> words m s.
Proof.
  exists ex_mem, (full 0 4), 77%Z. split; [exact ex_mem_ok|]. split; [repeat constructor|]. split; [simpl; lia|]. discriminate.
Qed.

Lemma nil_ex : exists m k o, PK_Equals m k o = true /\ PK_Equals m o k = false.
Proof.
  exists ex_mem, (QP (Some 0) None, QP (Some 2) None), (QP (Some 0) (Some 1), QP (Some 2) (Some 3)). split; reflexivity.
Qed.

Lemma includes_ex : exists m k o, RTK_Includes (Some k) (Some o) = true /\ length k = length o /\ RTK_Equals m (Some k) (Some o) = false.
Proof.
  exists ex_mem, [(5%N, Some ex_swk)], [(5%N, Some [(QP (Some 2) (Some 3), QP (Some 0) (Some 1))])]. repeat split; reflexivity.
Qed.

Lemma flags_ex : exists m p o, content m p <> content m o /\ Poly_Equals m (Some p) (Some o) = true.
Proof.
  exists (Mem [[1; 2]%Z; [1; 2]%Z] [Poly [full 0 2] true false; Poly [full 1 2] false false]), 0, 1. split; [discriminate|reflexivity].
Qed.
