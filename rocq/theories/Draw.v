(** Keys and ciphertexts from the bytes of the generators: rlwe/keygen.go, frlwe/keygen.go, rlwe/encryptor.go and fckks/encryptor.go with
    their samplers. *)
From Flocq Require Import IEEE754.BinarySingleNaN.
From Verif Require Import Word Ring RingOps Float64 Codec Sampler Gauss Gadget Rlwe Frlwe Ckks Fckks Encoder Msg.

(** What is fixed during the life of a key generator or encryptor: the bytes of its generator, the standard deviation, the mathematical
    functions and conversions left open in Gauss.v; [srFuel] bounds the number of rejections of a sample. *)
Record source := mkSource { srFuel : nat; srBytes : stream; srSigma : float64; srLog : float64 -> float64; srExp : float64 -> float64; srOther : float64 -> Z }.
(** int(6*params.Sigma()), rlwe/keygen.go:79 and rlwe/encryptor.go:93. *)
Definition srBound (src : source) : Z := f64_trunc (f64_mul (f64_of_Z 6) (srSigma src)).
(** rlwe/keygen.go:60-83 [NewKeyGenerator], rlwe/encryptor.go:86-97 [newEncryptorSamplers]: the samplers share one generator (in the
    Gaussian sampler) and the ternary one keeps its weight. *)
Record samplers := mkSm { smGauss : gauss; smHw : nat }.
Definition newSamplers (h : nat) : samplers := mkSm (newGauss newPrng) h.
Definition smGen (st : samplers) : prng := ggen (smGauss st).
Definition setGen (st : samplers) (g : prng) : samplers := mkSm (mkGauss (gbuf (smGauss st)) (gptr (smGauss st)) g) (smHw st).

(** gaussianSampler.ReadLvl, ternarySampler.ReadLvl and uniformSampler.ReadLvl; [Read] of a polynomial with all the rows is the same at
    the last level. *)
Definition read_gauss (src : source) (r : Ring) (level : nat) (pol : rows) (st : samplers) : res (rows * samplers) :=
  let* '(pol, g) := Gauss_ReadLvl (srFuel src) (srLog src) (srExp src) (srOther src) (srBytes src) r (srSigma src) (srBound src) level pol (smGauss st) in
  Ret (pol, mkSm g (smHw st)).
Definition read_ternary (src : source) (r : Ring) (level : nat) (pol : rows) (st : samplers) : res (rows * samplers) :=
  let* '(pol, hw, g) := sampleSparse (srFuel src) (srBytes src) r false (smHw st) level pol (smGen st) in
  let st := setGen st g in Ret (pol, mkSm (smGauss st) hw).
Definition read_uniform (src : source) (r : Ring) (level : nat) (pol : rows) (st : samplers) : res (rows * samplers) :=
  let* '(pol, g) := Uniform_ReadLvl (srFuel src) (srBytes src) r level pol (smGen st) in
  Ret (pol, setGen st g).

(** ** Keys *)

(** rlwe/keygen.go:86-88 [GenSecretKey] and 116-136 [genSecretKeyFromSampler]. *)
Definition DrawSecretKey (src : source) (rQ rP : Ring) (st : samplers) : res ((rows * rows) * samplers) :=
  let* '(s, st) := read_ternary src rQ (maxLevel rQ) (zero_poly rQ) st in
  Ret (genSecretKey rQ rP s, st).
(** rlwe/keygen.go:139-174 [GenPublicKey]. *)
Definition DrawPublicKey (src : source) (rQ rP : Ring) (sk : rows * rows) (st : samplers) : res (((rows * rows) * (rows * rows)) * samplers) :=
  let* '(e, st) := read_gauss src rQ (maxLevel rQ) (zero_poly rQ) st in
  let* '(aQ, st) := read_uniform src rQ (maxLevel rQ) (zero_poly rQ) st in
  let* '(aP, st) := read_uniform src rP (maxLevel rP) (zero_poly rP) st in
  Ret (GenPublicKey rQ rP sk e aQ aP, st).
(** rlwe/keygen.go:177-180 [GenKeyPair]. *)
Definition DrawKeyPair (src : source) (rQ rP : Ring) (st : samplers) : res ((rows * rows) * ((rows * rows) * (rows * rows)) * samplers) :=
  let* '(sk, st) := DrawSecretKey src rQ rP st in
  let* '(pk, st) := DrawPublicKey src rQ rP sk st in
  Ret (sk, pk, st).
(** rlwe/keygen.go:371-381: the polynomials of the digits of a switching key with all the rows, in the order in which they are sampled. *)
Fixpoint draw_digits (src : source) (rQ rP : Ring) (n : nat) (st : samplers) : res (list (rows * rows * rows) * samplers) :=
  match n with
  | O => Ret ([], st)
  | S n =>
      let* '(e, st) := read_gauss src rQ (maxLevel rQ) (zero_poly rQ) st in
      let* '(aQ, st) := read_uniform src rQ (maxLevel rQ) (zero_poly rQ) st in
      let* '(aP, st) := read_uniform src rP (maxLevel rP) (zero_poly rP) st in
      let* '(l, st) := draw_digits src rQ rP n st in
      Ret ((e, aQ, aP) :: l, st)
  end.
Definition key_digits (rQ rP : Ring) : nat := ceil_div (maxLevel rQ + 1) (maxLevel rP + 1).
Definition digit_e (l : list (rows * rows * rows)) (i : nat) : rows := fst (fst (nth i l ([], [], []))).
Definition digit_aQ (l : list (rows * rows * rows)) (i : nat) : rows := snd (fst (nth i l ([], [], []))).
Definition digit_aP (l : list (rows * rows * rows)) (i : nat) : rows := snd (nth i l ([], [], [])).
(** frlwe/keygen.go:93-117 [GenRelinKey] with rlwe/keygen.go:183-206 and 345-411.  [poolQP], [poolQ], [pool0], [pool1]: see Fckks.v. *)
Definition DrawRelinKey (src : source) (conv : list BasisExt.BasisExtender) (p : FParams) (sk : rows * rows) (poolQP poolQ : rows) (pool0 pool1 : list (list rows))
    (st : samplers) : res (fkey * samplers) :=
  let* '(l, st) := draw_digits src (fpQ p) (fpP p) (key_digits (fpQ p) (fpP p)) st in
  Ret (GenRelinKey conv p sk (fun _ => digit_e l) (fun _ => digit_aQ l) (fun _ => digit_aP l) poolQP poolQ pool0 pool1, st).
(** frlwe/keygen.go:119-145 [GenRotKey] with rlwe/keygen.go:218-223, 256-267 and 345-411. *)
Definition DrawRotKey (src : source) (conv : list BasisExt.BasisExtender) (p : FParams) (rotidx : Z) (sk : rows * rows) (poolQP : rows * rows) (poolQ : rows)
    (pool0 pool1 : list (list rows)) (st : samplers) : res (RotKey * samplers) :=
  let* '(l, st) := draw_digits src (fpQ p) (fpP p) (key_digits (fpQ p) (fpP p)) st in
  Ret (GenRotKey conv p rotidx sk (digit_e l) (digit_aQ l) (digit_aP l) poolQP poolQ pool0 pool1, st).

(** ** Encryption *)

(** The state of an encryptor: enc.ptxtPool (fckks/encryptor.go:8-13), poolQ[0] and the samplers (rlwe/encryptor.go:80-118). *)
Record FEncryptor := mkEnc { fePt : Pt; fePool : rows; feSm : samplers }.
(** fckks/encryptor.go:15-23 [NewEncryptor]. *)
Definition NewFEncryptor (rQ : Ring) (h : nat) (defaultScale : float64) : FEncryptor :=
  mkEnc (NewPlaintext rQ (maxLevel rQ) defaultScale) (zero_poly rQ) (newSamplers h).

(** rlwe/encryptor.go:126-134 [pkEncryptor.Encrypt] and 196-277: the uniform polynomial written to ct.Value[1], then u, e0, e1, all three
    in poolQ[0] (u is transformed in place before e0 is sampled, which overwrites the same rows). *)
Definition draw_encryption (src : source) (rQ : Ring) (level : nat) (ct1 pool : rows) (st : samplers) : res (rows * rows * rows * rows * samplers) :=
  let* '(ct1, st) := read_uniform src rQ level ct1 st in
  let* '(u, st) := read_ternary src rQ level pool st in
  let* '(e0, st) := read_gauss src rQ level u st in
  let* '(e1, st) := read_gauss src rQ level e0 st in
  Ret (ct1, u, e0, e1, st).
(** fckks/encryptor.go:29-32 [EncryptMsg] with ckks/encryptor.go:47-50 and rlwe/encryptor.go:126-134, 196-277.  [buf] is the value buffer of
    the encoder, [pool], [poolP0], [poolP1] what the buffers hold when they are written (the result does not depend on them).
    The code encodes before it samples: the order matters only if Encode panics. *)
Definition DrawEncryptMsg (src : source) (rQ rP : Ring) (pk : (rows * rows) * (rows * rows)) (roots buf : list complex128) (logSlots : nat)
    (msg : list complex128) (out : Ct) (pool poolP0 poolP1 : rows) (enc : FEncryptor) : res (Ct * FEncryptor) :=
  let level := Nat.min (length (ptV (fePt enc)) - 1) (length (comp out 0) - 1) in
  let* '(ct1, u, e0, e1, st) := draw_encryption src rQ level (comp out 1) (fePool enc) (feSm enc) in
  match EncryptMsg rQ rP pk roots buf (fePt enc) logSlots msg (mkCt [comp out 0; ct1] (ctScale out) (ctNTT out)) u e0 e1 pool poolP0 poolP1 with
  | None => Codec.Panic
  | Some (c, pt) => Ret (c, mkEnc pt e1 st)
  end.
(** fckks/encryptor.go:38-44 [EncryptMsgNew]. *)
Definition DrawEncryptMsgNew (src : source) (rQ rP : Ring) (pk : (rows * rows) * (rows * rows)) (roots buf : list complex128) (logSlots : nat)
    (defaultScale : float64) (msg : list complex128) (pool poolP0 poolP1 : rows) (enc : FEncryptor) : res (Ct * FEncryptor) :=
  DrawEncryptMsg src rQ rP pk roots buf logSlots msg (NewCiphertext (rN rQ) 1 (maxLevel rQ) defaultScale) pool poolP0 poolP1 enc.
