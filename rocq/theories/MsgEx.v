(** Concrete parameters for the examples of messages: degree 32, Q = 32321*32257*31873, P = 31489, T = 30977*30593*30529, gamma = 1. *)
From Verif Require Import Word Arith PolySpec PolyProofs Ring RingProofs NTT RingOps RNSSpec Gadget Frlwe FrlweSetup BasisEx.
Definition mxQ : list Z := [32321; 32257; 31873].
Definition mxP : list Z := [31489].
Definition mxT : list Z := [30977; 30593; 30529].
Definition xQ := Eval vm_compute in match NewRing 1000 32 mxQ with inl r => r | inr _ => ring0 end.
Definition xP := Eval vm_compute in match NewRing 1000 32 mxP with inl r => r | inr _ => ring0 end.
Definition xT := Eval vm_compute in match NewRing 1000 32 mxT with inl r => r | inr _ => ring0 end.
Definition xR := Eval vm_compute in match NewRing 1000 32 (mxP ++ mxQ) with inl r => r | inr _ => ring0 end.
Lemma xQ_new : NewRing 1000 32 mxQ = inl xQ. Proof. vm_compute. reflexivity. Qed.
Lemma xP_new : NewRing 1000 32 mxP = inl xP. Proof. vm_compute. reflexivity. Qed.
Lemma xT_new : NewRing 1000 32 mxT = inl xT. Proof. vm_compute. reflexivity. Qed.
Lemma xR_new : NewRing 1000 32 (mxP ++ mxQ) = inl xR. Proof. vm_compute. reflexivity. Qed.
Definition par32 : FParams := mkFP xQ xP xT xR 1.
Lemma par32_built : NewFParams 1000 32 mxQ mxP mxT 1 = Some par32.
Proof. unfold NewFParams. rewrite xQ_new, xP_new, xT_new, xR_new. reflexivity. Qed.
