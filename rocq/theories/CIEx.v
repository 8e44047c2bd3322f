(** Small conjugate-invariant rings for the non-vacuity examples. *)
From Verif Require Import Word PolySpec Ring RingOps RNSSpec Automorphism CI CISpec Examples.

(** Degree 16, moduli 193, 257 and 449, and the standard ring of degree 32. *)
Definition ci16 : Ring := Eval vm_compute in
  match NewRingConjugateInvariant 1000 16 [193; 257; 449] with inl r => r | inr _ => mkRing 0 0 [] 0 [] end.
Definition std32 : Ring := Eval vm_compute in ring_of 32 [193; 257; 449].

Lemma ci16_paired : paired 8 ci16 std32.
Proof.
  exists 1000%nat, 1000%nat, 16, [193; 257; 449]. split; [vm_compute; reflexivity|]. split; [vm_compute; reflexivity|].
  split; [vm_compute; discriminate|]. intros q Hq. cbn in Hq. destruct Hq as [<- | [<- | [<- | []]]]; vm_compute; discriminate.
Qed.

Lemma ci16_built : built_ci 8 ci16.
Proof.
  destruct ci16_paired as (f1 & f2 & N & ms & E & _ & HN & Hq). exists f1, N, ms. split; [exact E|]. split; [lia|exact Hq].
Qed.

Definition ci_a : rows := [[1; 2; 3; 4; 5; 6; 7; 8; 9; 10; 11; 12; 13; 14; 15; 16]; repeat 256 16; [0; 448; 5; 448; 0; 3; 448; 0; 1; 2; 3; 4; 5; 6; 7; 8]].
Definition ci_b : rows := [[5; 0; 0; 0; 0; 0; 0; 0; 0; 0; 0; 0; 0; 0; 0; 2]; [7; 7; 7; 7; 190; 191; 192; 0; 0; 0; 0; 0; 0; 0; 0; 1]; repeat 448 16].
Definition std_a : rows := map (fun row => row ++ rev row) ci_a.
Definition blank (n : nat) : rows := repeat (repeat 0 n) 3.
