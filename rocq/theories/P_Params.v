(** Parameter sets: properties C22 (serialization, equality) and C46 (accepted moduli). *)
From Flocq Require Import IEEE754.Binary IEEE754.Bits.
From Flocq Require Import IEEE754.BinarySingleNaN.
From Verif Require Import Word Ring NTT RingOps RNSSpec Float64 Codec CodecSpec Params ParamsSpec ParamsProofs ParamsEx.
From Coq Require Import Znumtheory.

(** ** C22 *)

(** Accepted parameters are written in the format, with the advertised length, and read back exactly, into any receiver
    and whatever follows. *)
Theorem C22_round_trip : forall fuel logn q p hh sg ty P, NewParameters fuel logn q p hh sg ty = (P, None) -> go_int hh -> Forall word q -> Forall word p ->
  Params_MarshalBinary P = params_bytes logn q p hh sg ty /\ Z.of_nat (length (Params_MarshalBinary P)) = MarshalBinarySize P /\
  forall r tail, Params_UnmarshalBinary fuel r (Params_MarshalBinary P ++ tail) = Ret (P, None).
Proof. exact params_round_trip. Qed.
Print Assumptions C22_round_trip.

(** Conversely, bytes that are accepted start with the serialization of the parameters they give. *)
Theorem C22_accepted_bytes : forall fuel r data P, Forall is_byte data -> Params_UnmarshalBinary fuel r data = Ret (P, None) -> is_nan (sigma P) = false ->
  exists tail, data = Params_MarshalBinary P ++ tail.
Proof. exact unmarshal_accepted. Qed.
Print Assumptions C22_accepted_bytes.

(** Exactly which bytes make UnmarshalBinary panic, which the claim excludes; fewer than 11 bytes are rejected. *)
Theorem C22_panics : forall fuel r data, Forall is_byte data ->
  (Params_UnmarshalBinary fuel r data = Panic <->
   (11 <= length data <= 19)%nat \/
   ((20 <= length data)%nat /\ checkSizeParams (nth 0 data 0) (nth 1 data 0) (nth 2 data 0) = true /\ Z.of_nat (length data) < 20 + 8 * (nth 1 data 0 + nth 2 data 0))).
Proof. exact unmarshal_panics. Qed.
Print Assumptions C22_panics.

Theorem C22_panic_refuted : exists data, Forall is_byte data /\ length data = 11%nat /\ forall fuel r, Params_UnmarshalBinary fuel r data = Panic.
Proof. exact panic_example. Qed.
Print Assumptions C22_panic_refuted.

Theorem C22_short : forall fuel r data, (length data < 11)%nat -> Params_UnmarshalBinary fuel r data = Ret (r, Some DataError).
Proof. exact short_params. Qed.
Print Assumptions C22_short.

(** Equals answers true exactly when the other chains extend the receiver's, and the rest agrees. *)
Theorem C22_equals : forall a b, Equals a b = Ret true <->
  logN a = logN b /\ prefix (qi a) (qi b) /\ prefix (pi a) (pi b) /\ h a = h b /\ f64_same (sigma a) (sigma b) = true /\ ringType a = ringType b.
Proof. exact equals_true. Qed.
Print Assumptions C22_equals.

Theorem C22_equals_refl : forall a, is_nan (sigma a) = false -> Equals a a = Ret true.
Proof. exact equals_refl. Qed.
Print Assumptions C22_equals_refl.

(** So different parameters can be "equal", and the same comparison the other way round panics. *)
Theorem C22_equals_refuted : exists fuel logn q q' p hh sg P P', NewParameters fuel logn q p hh sg Standard = (P, None) /\ NewParameters fuel logn q' p hh sg Standard = (P', None) /\
  q <> q' /\ Equals P P' = Ret true /\ Equals P' P = Panic.
Proof. exact equals_prefix. Qed.
Print Assumptions C22_equals_refuted.

(** The JSON form of parameters of the standard type, with finite nonzero sigma and nonzero H, is read back exactly. *)
Theorem C22_json : forall fuel logn q p hh sg P, NewParameters fuel logn q p hh sg Standard = (P, None) ->
  hh <> 0 -> is_finite sg = true -> f64_same sg (f64_of_Z 0) = false ->
  exists d, Params_MarshalJSON P = Ret d /\ Params_UnmarshalJSON fuel d = Ret (P, None).
Proof. exact json_round_trip. Qed.
Print Assumptions C22_json.

(** The ring type is lost in JSON; H = 0 and sigma = 0 become the defaults. *)
Theorem C22_json_type_refuted : exists fuel logn q p hh sg P d P', NewParameters fuel logn q p hh sg ConjugateInvariant = (P, None) /\
  Params_MarshalJSON P = Ret d /\ Params_UnmarshalJSON fuel d = Ret (P', None) /\ ringType P' = Standard /\ Equals P P' = Ret false.
Proof. exact json_type. Qed.
Print Assumptions C22_json_type_refuted.

Theorem C22_json_defaults_refuted : exists fuel logn q p hh sg P d P', NewParameters fuel logn q p hh sg Standard = (P, None) /\
  Params_MarshalJSON P = Ret d /\ Params_UnmarshalJSON fuel d = Ret (P', None) /\ h P = 0 /\ h P' = 8 /\ f64_same (sigma P) (f64_of_Z 0) = true /\ sigma P' = DefaultSigma.
Proof. exact json_defaults. Qed.
Print Assumptions C22_json_defaults_refuted.

(** The parameters of the approximate scheme. *)
Theorem C22_ckks_round_trip : forall fuel logn q p hh sg ty P ls sc C, NewParameters fuel logn q p hh sg ty = (P, None) -> Ckks_NewParameters P ls sc = Ret (C, None) ->
  go_int hh -> Forall word q -> Forall word p -> ls < 256 ->
  Ckks_MarshalBinary C = params_bytes logn q p hh sg ty ++ [ls] ++ be_bytes 8 (Float64bits sc) /\ Z.of_nat (length (Ckks_MarshalBinary C)) = Ckks_MarshalBinarySize C /\
  forall r, Ckks_UnmarshalBinary fuel r (Ckks_MarshalBinary C) = Ret (C, None).
Proof. exact ckks_params_round_trip. Qed.
Print Assumptions C22_ckks_round_trip.

Theorem C22_ckks_json : forall fuel logn q p hh sg ty P ls sc C, NewParameters fuel logn q p hh sg ty = (P, None) -> Ckks_NewParameters P ls sc = Ret (C, None) ->
  hh <> 0 -> is_finite sg = true -> f64_same sg (f64_of_Z 0) = false -> ls <> 0 -> is_finite sc = true ->
  exists d, Ckks_MarshalJSON C = Ret d /\ Ckks_UnmarshalJSON fuel d = Ret (C, None).
Proof. exact ckks_json_round_trip. Qed.
Print Assumptions C22_ckks_json.

(** LogSlots = 0 becomes the largest value in JSON; the bytes of generic parameters alone are accepted, the last nine
    bytes being read again as LogSlots and scale. *)
Theorem C22_ckks_slots_refuted : exists fuel logn q p hh sg P sc C d C', NewParameters fuel logn q p hh sg Standard = (P, None) /\ Ckks_NewParameters P 0 sc = Ret (C, None) /\
  Ckks_MarshalJSON C = Ret d /\ Ckks_UnmarshalJSON fuel d = Ret (C', None) /\ cLogSlots C = 0 /\ cLogSlots C' = 3.
Proof. exact ckks_json_slots. Qed.
Print Assumptions C22_ckks_slots_refuted.

Theorem C22_ckks_missing_refuted : exists fuel q p hh sg P C, NewParameters fuel 4 q p hh sg Standard = (P, None) /\ Forall word q /\ Forall word p /\ 
  Ckks_UnmarshalBinary fuel zeroCkks (Params_MarshalBinary P) = Ret (C, None) /\ cRlwe C = P /\ cLogSlots C = 1.
Proof. exact ckks_missing. Qed.
Print Assumptions C22_ckks_missing_refuted.

(** The zero value is written as no bytes, which are not accepted; rejected bytes can overwrite the receiver with
    parameters that are not accepted. *)
Theorem C22_zero_refuted : Params_MarshalBinary zeroParams = [] /\ forall fuel r, Params_UnmarshalBinary fuel r (Params_MarshalBinary zeroParams) = Ret (r, Some DataError).
Proof. exact zero_params. Qed.
Print Assumptions C22_zero_refuted.

Theorem C22_error_receiver_refuted : exists fuel q p hh sg data e, Forall word q /\
  snd (NewParameters fuel 4 q p hh sg Standard) = Some e /\ qi (fst (NewParameters fuel 4 q p hh sg Standard)) = q /\ q <> [] /\
  Params_UnmarshalBinary fuel zeroParams data = Ret (fst (NewParameters fuel 4 q p hh sg Standard), Some e).
Proof. exact error_params. Qed.
Print Assumptions C22_error_receiver_refuted.

(** The hypotheses hold for parameters with three moduli. *)
Example C22_example : NewParameters 1000 4 [97; 193] [257] 8 (f64_of_Z 3) Standard = (made 4 [97; 193] [257] 8 (f64_of_Z 3) Standard, None) /\
  go_int 8 /\ Forall word [97; 193] /\ Forall word [257] /\ is_finite (f64_of_Z 3) = true /\ f64_same (f64_of_Z 3) (f64_of_Z 0) = false.
Proof.
  split; [apply made_ok; vm_compute; reflexivity|]. split; [split; vm_compute; congruence|]. split; [apply words_small; reflexivity|]. split; [apply words_small; reflexivity|].
  split; [reflexivity|vm_compute; reflexivity].
Qed.
Example C22_example_conjugate : NewParameters 1000 4 [193; 257] [449] 8 (f64_of_Z 3) ConjugateInvariant = (made 4 [193; 257] [449] 8 (f64_of_Z 3) ConjugateInvariant, None).
Proof. apply made_ok. vm_compute. reflexivity. Qed.
Example C22_example_ckks : exists C, Ckks_NewParameters (made 4 [97; 193] [257] 8 (f64_of_Z 3) Standard) 2 (f64_of_Z 1024) = Ret (C, None).
Proof. exact (ex_intro _ _ ckks_example). Qed.

(** ** C46 *)

(** What the checks guarantee. *)
Theorem C46_accepted : forall fuel logn q p hh sg ty P, NewParameters fuel logn q p hh sg ty = (P, None) -> Forall word q -> Forall word p ->
  let M := 2 ^ (logn + (if ty =? Standard then 1 else 2)) in
  4 <= logn <= 17 /\ (ty = Standard \/ ty = ConjugateInvariant) /\ (1 <= length q <= 100)%nat /\ (length p <= 100)%nat /\
  good_moduli M (2 ^ 62) q /\ good_moduli M (2 ^ 63) p.
Proof. exact accepted_moduli. Qed.
Print Assumptions C46_accepted.

(** The rings of accepted parameters of the standard type, with moduli at most W / c, are rings for which the theorems
    about the transforms hold (they ask for c = 4 or c = 8). *)
Theorem C46_usable : forall fuel logn q p hh sg P c, NewParameters fuel logn q p hh sg Standard = (P, None) -> Forall word q -> Forall word p ->
  (forall x, In x (q ++ p) -> c * x <= W) ->
  (exists r, ringQ P = Some r /\ built_ring c r /\ moduli r = q /\ Z.of_nat (rN r) = 2 ^ logn) /\
  (p = [] /\ ringP P = None \/ exists r, ringP P = Some r /\ built_ring c r /\ moduli r = p /\ Z.of_nat (rN r) = 2 ^ logn).
Proof. exact accepted_rings. Qed.
Print Assumptions C46_usable.

(** Moduli of 62 bits in Q and of 63 bits in P are accepted, and the inverse of the transform does not undo it. *)
Theorem C46_large_moduli_refuted : exists fuel q p hh sg P rQ rP a b, NewParameters fuel 4 q p hh sg Standard = (P, None) /\ Forall word q /\ Forall word p /\
  ringQ P = Some rQ /\ ringP P = Some rP /\ words rQ 0 canon a /\ words rP 0 canon b /\
  InvNTTLvl rQ 0 (NTTLvl rQ 0 a []) [] <> a /\ InvNTTLvl rP 0 (NTTLvl rP 0 b []) [] <> b.
Proof. exact large_moduli. Qed.
Print Assumptions C46_large_moduli_refuted.

(** A prime can be in both chains; P then has no inverse modulo Q. *)
Theorem C46_shared_prime_refuted : exists fuel q p hh sg P x, NewParameters fuel 4 q p hh sg Standard = (P, None) /\ Forall word q /\ Forall word p /\ In x q /\ In x p.
Proof. exact shared_prime. Qed.
Print Assumptions C46_shared_prime_refuted.

Example C46_example : forall x, In x ([97; 193] ++ [257]) -> 8 * x <= W.
Proof. cbn [app In]. intros x H. destruct H as [<- | [<- | [<- | []]]]; vm_compute; discriminate. Qed.
