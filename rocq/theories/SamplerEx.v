(** Concrete streams and polynomials for the samplers. *)
From Flocq Require Import IEEE754.BinarySingleNaN.
From Verif Require Import Word Ring RingOps RNSSpec Examples Float64 Codec CodecSpec BasisEx Sampler SamplerSpec ProbaTop.

Definition zeros3 : rows := repeat (repeat 0 16) 3.
Lemma zeros3_rows : has_rows (rN ring16) 1 zeros3.
Proof. split; [vm_compute; lia|]. intros i Hi. destruct i as [|[|i]]; [reflexivity|reflexivity|lia]. Qed.
Lemma ring16_built2 : built_ring 2 ring16.
Proof. apply (built_weaken 8); [lia|exact ring16_built]. Qed.
(** A stream with some structure. *)
Definition stream1 : stream := fun j => (Z.of_nat j * 37 + 11) mod 256.
(** The bits of the first byte are 1 1 0 0 ...: the first coefficient is -1. *)
Definition stream2 : stream := fun j => if Nat.eqb j 0 then 3 else 85.
(** Bits 0 1 ...: the first two coefficients are 0 and, from bit 2 on, 0. *)
Definition stream3 : stream := fun j => if Nat.eqb j 0 then 42 else 85.
(** Only bit 54 is set. *)
Definition stream4 : stream := fun j => if Nat.eqb j 6 then 64 else 0.
Definition coeffs_of {A} (x : res (rows * A)) (i : nat) : option (list Z) := match x with Ret (p, _) => Some (firstn i (nth 0 p [])) | _ => None end.
Definition panics {A} (x : res A) : bool := match x with Panic => true | _ => false end.
Definition returns {A} (x : res A) : bool := match x with Ret _ => true | _ => false end.
Lemma uniform_example : returns (Uniform_ReadLvl 100 stream1 ring16 1 zeros3 newPrng) = true.
Proof. vm_compute. reflexivity. Qed.
Lemma sparse_example : coeffs_of (match sampleSparse 100 stream1 ring16 false 5 1 zeros3 newPrng with Ret (p, _, g) => Ret (p, g) | Fail => Fail | Panic => Panic end) 16 <> None.
Proof. vm_compute. discriminate. Qed.
Lemma third_minus : coeffs_of (sampleProba 200 stream2 ring16 false third 1 zeros3 newPrng) 2 = Some [96; 1] \/ coeffs_of (sampleProba 200 stream2 ring16 false third 1 zeros3 newPrng) 2 = Some [96; 96].
Proof. vm_compute. (left; reflexivity) || (right; reflexivity). Qed.
Lemma third_zero : coeffs_of (sampleProba 200 stream3 ring16 false third 1 zeros3 newPrng) 2 = Some [0; 0].
Proof. vm_compute. reflexivity. Qed.
Lemma three_tenths_panics : panics (sampleProba 1000 stream4 ring16 false three_tenths 1 zeros3 newPrng) = true.
Proof. vm_compute. reflexivity. Qed.
Lemma clock_not_enough : exists s os1 os2 n, final_clock 0 os1 = final_clock 0 os2 /\ fst (Clock s n (run_ops s newPrng os1)) <> fst (Clock s n (run_ops s newPrng os2)).
Proof. exists stream1, [OpClock 1], [OpClock 2], 1%nat. split; [reflexivity|]. vm_compute. discriminate. Qed.
