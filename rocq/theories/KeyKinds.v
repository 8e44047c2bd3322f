(** Secret keys of every kind and parameter sets without special moduli: rlwe/keygen.go and rlwe/encryptor.go with their samplers, and
    the generator of frlwe/keygen.go. *)
From Flocq Require Import IEEE754.BinarySingleNaN.
From Verif Require Import Word Ring RingOps Float64 Codec Sampler Gauss Gadget Rlwe Frlwe Draw.

(** The ways of making a secret key: rlwe/keygen.go:86-88 [GenSecretKey], 91-93 [GenSecretKeyGaussian], 96-103 [GenSecretKeyWithDistrib]
    and 106-113 [GenSecretKeyWithHammingWeight] (for a weight that is not negative).  The last two make a new generator, with its own
    bytes. *)
Inductive kind := Plain | Gaussian | Distrib (p : float64) (newBytes : stream) | HammingWeight (hw : nat) (newBytes : stream).
(** sampler.Read, rlwe/keygen.go:122 and 130. *)
Definition read_kind (src : source) (rQ : Ring) (k : kind) (st : samplers) : res (rows * samplers) :=
  let level := maxLevel rQ in
  match k with
  | Plain => read_ternary src rQ level (zero_poly rQ) st
  | Gaussian => read_gauss src rQ level (zero_poly rQ) st
  | Distrib p newBytes => let* '(s, _) := sampleProba (srFuel src) newBytes rQ false p level (zero_poly rQ) newPrng in Ret (s, st)
  | HammingWeight hw newBytes => let* '(s, _, _) := sampleSparse (srFuel src) newBytes rQ false hw level (zero_poly rQ) newPrng in Ret (s, st)
  end.
(** rlwe/keygen.go:116-126, 136 [genSecretKeyFromSampler] with special moduli. *)
Definition DrawKind (src : source) (rQ rP : Ring) (k : kind) (st : samplers) : res ((rows * rows) * samplers) :=
  let* '(s, st) := read_kind src rQ k st in Ret (genSecretKey rQ rP s, st).

(** ** Without special moduli *)

(** rlwe/keygen.go:126-134: the rows of sk.Value.Q. *)
Definition genSecretKeyQ (rQ : Ring) (s : rows) : rows :=
  let s := NTTLvl rQ (maxLevel rQ) s s in MFormLvl rQ (maxLevel rQ) s s.
Definition DrawKindQ (src : source) (rQ : Ring) (k : kind) (st : samplers) : res (rows * samplers) :=
  let* '(s, st) := read_kind src rQ k st in Ret (genSecretKeyQ rQ s, st).
(** rlwe/keygen.go:160-172 [GenPublicKey]. *)
Definition DrawPublicKeyQ (src : source) (rQ : Ring) (sk : rows) (st : samplers) : res ((rows * rows) * samplers) :=
  let level := maxLevel rQ in
  let* '(e, st) := read_gauss src rQ level (zero_poly rQ) st in
  let e := NTTLvl rQ level e e in
  let* '(a, st) := read_uniform src rQ level (zero_poly rQ) st in
  Ret ((MulCoeffsMontgomeryAndSubLvl rQ level sk a e, a), st).
(** rlwe/encryptor.go:126-134 [pkEncryptor.Encrypt] with 279-340 [encryptNoP]: the uniform polynomial written to ct.Value[1], u, and the
    two errors, the one of ct.Value[1] first when the ciphertext is in the NTT domain; [pool] is poolQ[0].  Outside of the NTT domain the
    errors are added as they are sampled; here they are sampled (over the pool) and then added, see [pkEncryptNoP]. *)
Definition DrawEncryptQ (src : source) (rQ : Ring) (pk : rows * rows) (pt : rows) (ptNTT : bool) (ct0 ct1 : rows) (ctNTT : bool) (pool : rows) (st : samplers)
    : res ((rows * rows) * samplers) :=
  let level := Nat.min (length pt - 1) (length ct0 - 1) in
  let* '(ct1, st) := read_uniform src rQ level ct1 st in
  let* '(u, st) := read_ternary src rQ level pool st in
  let* '(a, st) := read_gauss src rQ level u st in
  let* '(b, st) := read_gauss src rQ level a st in
  Ret (if ctNTT then pkEncryptNoP rQ pk pt ptNTT ct0 ct1 ctNTT u b a pool else pkEncryptNoP rQ pk pt ptNTT ct0 ct1 ctNTT u a b pool, st).

(** ** The generator of the fast evaluator *)

(** frlwe/keygen.go:51-53 [GenSecretKey] and 55-57 [GenPublicKey]: both call themselves.  [Fail] stands for more than [fuel] calls. *)
Fixpoint FastGenSecretKey (fuel : nat) : res (rows * rows) := match fuel with O => Fail | S f => FastGenSecretKey f end.
Fixpoint FastGenPublicKey (fuel : nat) (sk : rows * rows) : res ((rows * rows) * (rows * rows)) := match fuel with O => Fail | S f => FastGenPublicKey f sk end.
