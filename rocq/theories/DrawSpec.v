(** Vocabulary for keys and ciphertexts drawn from the bytes of a generator. *)
From Verif Require Import Word PolySpec Ring RingOps RNSSpec Float64 Codec Sampler SamplerSpec Gauss GaussSpec Gadget Rlwe RlweSpec Ckks CkksSpec Encoder EncSpec Draw.

(** The computation never panics, and what it returns satisfies P (it may also run out of fuel: more rejections than allowed). *)
Definition yields {A} (x : res A) (P : A -> Prop) : Prop := match x with Ret a => P a | Codec.Fail => True | Codec.Panic => False end.
(** The bytes are bytes, conversions of floating-point numbers give words, the bound of the errors is not negative. *)
Definition source_ok (src : source) : Prop := byte_stream (srBytes src) /\ word_valued (srOther src) /\ 0 <= srBound src.
(** The states of the samplers. *)
Definition samplers_ok (st : samplers) : Prop := gauss_state (smGauss st).
(** Errors up to B can be represented: B is below half of the first modulus, below the other moduli of Q and at most those of P. *)
Definition errors_fit (rQ rP : Ring) (B : Z) : Prop :=
  2 * B < mq (rmod rQ 0) /\ (forall i, (i < length (rmods rQ))%nat -> B < mq (rmod rQ i)) /\ (forall i, (i < length (rmods rP))%nat -> B <= mq (rmod rP i)).
(** Exactly h (at most N) coefficients of s are 1 or -1, the others are 0. *)
Definition ternary (N h : nat) (s : poly) : Prop :=
  exists ps, NoDup ps /\ length ps = Nat.min h N /\ (forall p, In p ps -> (p < N)%nat) /\ (forall i, In i ps -> s i = 1 \/ s i = -1) /\ (forall i, ~ In i ps -> s i = 0).
(** The secret key generated from the small polynomial s. *)
Definition key_of (rQ rP : Ring) (sk : rows * rows) (s : poly) : Prop :=
  exists rs, sampled rQ rP (maxLevel rQ) (maxLevel rP) rs s /\ sk = genSecretKey rQ rP rs.
(** The states of an encryptor for messages at the given scale. *)
Definition encryptor_ok (rQ : Ring) (scale : float64) (enc : FEncryptor) : Prop :=
  pt_shape rQ (maxLevel rQ) (fePt enc) /\ ptNTT (fePt enc) = true /\ ptScale (fePt enc) = scale /\
  has_rows (rN rQ) (maxLevel rQ) (fePool enc) /\ samplers_ok (feSm enc).
(** A ciphertext that can receive an encryption at the level. *)
Definition receiver (rQ : Ring) (level : nat) (c : Ct) : Prop := (level < length (rmods rQ))%nat /\ shaped 1 level c /\ has_rows (rN rQ) level (comp c 1).

(** ** Fresh bytes *)

(** The streams s and s' agree on the bytes from a to b. *)
Definition agree (s s' : stream) (a b : nat) : Prop := forall j, (a <= j < b)%nat -> s' j = s j.
Definition with_bytes (src : source) (s' : stream) : source := mkSource (srFuel src) s' (srSigma src) (srLog src) (srExp src) (srOther src).
(** What [f] returns from the state st depends on no other bytes than the ones that it reads, at least n bytes that have not been read before; [gen]
    is the generator of a state, and the new state stands after these bytes. *)
Definition reads_fresh {A St} (gen : St -> prng) (f : source -> St -> res (A * St)) (n : nat) (src : source) (st : St) : Prop :=
  forall a st', f src st = Ret (a, st') -> (pos (gen st) + n <= pos (gen st'))%nat /\
    forall s', agree (srBytes src) s' (pos (gen st)) (pos (gen st')) -> f (with_bytes src s') st = Ret (a, st').
(** Bytes read for a ternary polynomial of weight h: the signs and, for each position, at least one word of 4 bytes. *)
Definition ternary_bytes (N h : nat) : nat := (Nat.min h N + 7) / 8 + 4 * Nat.min h N.
(** Bytes read for the error and the two uniform halves of a digit. *)
Definition digit_bytes (NQ NP : nat) : nat := 1024 + NQ + NP.
