(** C95: the values of parameters, the constants for dividing switching keys by P, and random elements. *)
From Coq Require Import Znumtheory.
From Flocq Require Import IEEE754.Binary IEEE754.Bits IEEE754.BinarySingleNaN.
From Verif Require Import Word ModRed Ring RingOps RNSSpec GadgetSpec Examples Float64 Ckks Codec Params ParamsSpec ParamsEx Sampler SamplerSpec SamplerEx Draw DrawSpec
  ParamValues ParamValuesSpec ParamValuesProofs.
Open Scope Z_scope.

(** The big integers are the products of the moduli, also up to a level; a level outside of the chain panics. *)
Theorem C95_products : forall p, QBigInt p = product (pQ p) /\ PBigInt p = product (pP p) /\ QPBigInt p = product (pQP p) /\ length (pQP p) = QPCount p /\ pQP p = pQ p ++ pP p /\
  forall level, (-1 <= level <= MaxLevel p -> QLvl p level = Ret (product (firstn (Z.to_nat (level + 1)) (pQ p)))) /\
    (level < -1 \/ MaxLevel p < level -> QLvl p level = Panic /\ LogQLvl p level = Panic).
Proof. exact products. Qed.
Print Assumptions C95_products.

(** The logarithms of accepted parameters are the exact lengths in bits; the length of QP is that of Q plus that of P, or one less; each
    level adds more than LogN bits. *)
Theorem C95_bits : forall fuel logn q p hh sg ty P, NewParameters fuel logn q p hh sg ty = (P, None) -> Forall word q -> Forall word p ->
  has_bits (product q) (LogQ P) /\ has_bits (product p) (LogP P) /\ has_bits (product q * product p) (LogQP P) /\
  LogQ P + LogP P - 1 <= LogQP P <= LogQ P + LogP P /\ LogQLvl P (MaxLevel P) = Ret (LogQ P) /\
  (forall level, 0 <= level <= MaxLevel P -> exists n, LogQLvl P level = Ret n /\ has_bits (product (firstn (Z.to_nat (level + 1)) q)) n) /\
  (forall level n n', 0 <= level < MaxLevel P -> LogQLvl P level = Ret n -> LogQLvl P (level + 1) = Ret n' -> n + logn < n').
Proof. exact bits. Qed.
Print Assumptions C95_bits.

(** Slots of accepted parameters: between 1 and the maximum, N / 2 or N; nothing panics or wraps. *)
Theorem C95_slots : forall fuel logn q p hh sg ty P ls sc C, NewParameters fuel logn q p hh sg ty = (P, None) -> Ckks_NewParameters P ls sc = Ret (C, None) ->
  exists m, m = (if ty =? Standard then logn - 1 else logn) /\ MaxLogSlots C = Ret m /\ MaxSlots C = Ret (2 ^ m) /\ 0 <= ls <= m /\ Slots C = Ret (2 ^ ls) /\ pN (cRlwe C) = Ret (2 ^ logn).
Proof. exact slots. Qed.
Print Assumptions C95_slots.

(** Multiplication in Montgomery form by the constants of GenSwitchkeysRescalingParams divides by P. *)
Theorem C95_division_by_P : forall Q P i, (i < length Q)%nat -> let q := nth i Q 0 in prime q -> Z.odd q = true -> q < 2 ^ 63 -> (forall x, In x P -> ~ (q | x)) ->
  length (GenSwitchkeysRescalingParams Q P) = length Q /\ let c := nth i (GenSwitchkeysRescalingParams Q P) 0 in 0 <= c < q /\
  forall x, MRed ((x * product P) mod q) c q (MRedParams q) = x mod q.
Proof. exact rescaling. Qed.
Print Assumptions C95_division_by_P.

(** With a modulus of Q that also divides P, the constant is 0, without an error. *)
Theorem C95_shared_modulus_refuted : forall Q P i, (i < length Q)%nat -> let q := nth i Q 0 in prime q -> 3 <= q < 2 ^ 63 -> (exists x, In x P /\ (q | x)) ->
  nth i (GenSwitchkeysRescalingParams Q P) 0 = 0.
Proof. exact rescaling_shared. Qed.
Print Assumptions C95_shared_modulus_refuted.

(** A read of the sampler modulo Q and P gives canonical rows, and depends only on bytes not used before. *)
Theorem C95_uniform_QP : forall rQ rP, built_ring 2 rQ -> built_ring 2 rP -> forall fuel s a b la lb g, length a = S la -> has_rows (rN rQ) la a -> (la < length (rmods rQ))%nat ->
  length b = S lb -> has_rows (rN rP) lb b -> (lb < length (rmods rP))%nat ->
  match UniformQP_Read fuel s (Some rQ) (Some rP) (Some a) (Some b) g with
  | Ret ((Some a', Some b'), g') => words rQ la canon a' /\ length a' = S la /\ words rP lb canon b' /\ length b' = S lb /\ (pos g + rN rQ + rN rP <= pos g')%nat /\
      forall s', agree s s' (pos g) (pos g') -> UniformQP_Read fuel s' (Some rQ) (Some rP) (Some a) (Some b) g = Ret ((Some a', Some b'), g')
  | Ret _ => False
  | Fail => True
  | Panic => False
  end.
Proof. exact uniform_QP. Qed.
Print Assumptions C95_uniform_QP.

(** Without one of the rings, that half is left as it is. *)
Theorem C95_uniform_half : forall fuel s rQ rP a b g, UniformQP_Read fuel s rQ None a b g = (let* '(a, g) := read_opt fuel s rQ a g in Ret ((a, b), g)) /\
  UniformQP_Read fuel s None rP a b g = (let* '(b, g) := read_opt fuel s rP b g in Ret ((a, b), g)).
Proof. exact uniform_nil. Qed.
Print Assumptions C95_uniform_half.

(** A random ciphertext has the degree, level and scale asked for, and canonical polynomials that share no bytes with anything drawn before; ... *)
Theorem C95_random_ciphertext : forall r, built_ring 2 r -> forall fuel s degree level scale g, (level < length (rmods r))%nat ->
  match NewCiphertextRandom fuel s r degree level scale g with
  | Ret (c, g') => length (ctV c) = S degree /\ ctScale c = scale /\ (forall i, (i <= degree)%nat -> words r level canon (comp c i) /\ length (comp c i) = S level) /\
      (pos g + (degree + 1) * rN r <= pos g')%nat /\ forall s', agree s s' (pos g) (pos g') -> NewCiphertextRandom fuel s' r degree level scale g = Ret (c, g')
  | Fail => True
  | Panic => False
  end.
Proof. exact random_element. Qed.
Print Assumptions C95_random_ciphertext.

Theorem C95_random_level : forall fuel s r degree level scale g, (length (rmods r) <= level)%nat -> NewCiphertextRandom fuel s r degree level scale g = Panic.
Proof. exact random_panics. Qed.
Print Assumptions C95_random_level.

(** ... but it is not marked as being in the NTT domain, so that no evaluator adds or subtracts it. *)
Theorem C95_random_usable_refuted : forall fuel s r degree level scale g c g', NewCiphertextRandom fuel s r degree level scale g = Ret (c, g') ->
  ctNTT c = false /\ forall r' other out pool, Add r' c other out pool = None /\ Add r' other c out pool = None /\ Sub r' c other out pool = None /\ Sub r' other c out pool = None.
Proof. exact random_rejected. Qed.
Print Assumptions C95_random_usable_refuted.

(** A share at a level has its rows; the share "at maximum level" has one row. *)
Theorem C95_share_refuted : forall r, ((2 <= length (rmods r))%nat -> (length (NewAdditiveShare r) < length (rmods r))%nat) /\
  forall level, length (NewAdditiveShareAtLevel r level) = S level /\ has_rows (rN r) level (NewAdditiveShareAtLevel r level).
Proof. exact share_level. Qed.
Print Assumptions C95_share_refuted.

Theorem C95_smallest_largest : forall a b, let '(x, y, same) := GetSmallestLargest a b in
  ((x = a /\ y = b) \/ (x = b /\ y = a)) /\ (ctDegree x <= ctDegree y)%nat /\ (same = true <-> ctDegree a = ctDegree b) /\ (same = true -> x = a /\ y = b).
Proof. exact smallest_largest. Qed.
Print Assumptions C95_smallest_largest.

(** Q = 97 * 193 and P = 257; 4 of 8 slots. *)
Example C95_case : let P := made 4 [97; 193] [257] 8 (f64_of_Z 3) Standard in
  NewParameters 1000 4 [97; 193] [257] 8 (f64_of_Z 3) Standard = (P, None) /\ QPBigInt P = 4811297 /\ LogQ P = 15 /\ LogP P = 9 /\ LogQP P = 23 /\ LogQLvl P 0 = Ret 7.
Proof. intros P. split; [apply made_ok; vm_compute; reflexivity|]. repeat split; vm_compute; reflexivity. Qed.
Example C95_case_slots : exists C, Ckks_NewParameters (made 4 [97; 193] [257] 8 (f64_of_Z 3) Standard) 2 (f64_of_Z 1024) = Ret (C, None).
Proof. exact (ex_intro _ _ ckks_example). Qed.
Example C95_case_division : GenSwitchkeysRescalingParams [97; 193] [257] = [41; 134] /\ MRed ((5 * 257) mod 97) 41 97 (MRedParams 97) = 5 /\
  GenSwitchkeysRescalingParams [97; 193] [97] = [0; 168].
Proof. vm_compute. repeat split; reflexivity. Qed.
Example C95_case_random : built_ring 2 ring16 /\ returns (NewCiphertextRandom 100 stream1 ring16 1 1 f64_zero newPrng) = true /\
  returns (UniformQP_Read 100 stream1 (Some ring16) (Some ring16) (Some (firstn 2 zeros3)) (Some (firstn 2 zeros3)) newPrng) = true.
Proof. split; [exact ring16_built2|]. split; vm_compute; reflexivity. Qed.
