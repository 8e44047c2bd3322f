(** Encryption from a polynomial shared by several parties: EncryptFromCRP of rlwe/encryptor.go and of ckks/encryptor.go. *)
From Flocq Require Import IEEE754.BinarySingleNaN.
From Verif Require Import Word Ring RingOps Scaling Float64 Codec Ckks Gauss Gadget Rlwe Frlwe Draw.

(** The key of an encryptor, rlwe/encryptor.go:39-47 [pkEncryptor], [skEncryptor] (the rows of Value.Q). *)
Inductive enc_key := PkKey (pk : rows * rows) | SkKey (sk : rows).

(** ring/ring_poly.go:86-89 [CopyValues]: as many rows as the smaller of the two has.  Both have at least one row. *)
Definition CopyValues (p0 p1 : rows) : rows := CopyValuesLvl (Nat.min (length p0 - 1) (length p1 - 1)) p0 p1.

(** rlwe/encryptor.go:137-139 and 151-155 [EncryptFromCRP], with 342-394 [encrypt]; [pool] is poolQ[0].  Outside of the NTT domain the
    error is added as it is sampled; here it is sampled (over the pool) and then added, see [skEncrypt].  The polynomials of the receiver
    after the second one are kept. *)
Definition rlwe_EncryptFromCRP (src : source) (rQ : Ring) (key : enc_key) (pt : rows) (ptNTT : bool) (crp : rows) (ct : Ct) (pool : rows) (st : samplers)
  : res (Ct * samplers) :=
  match key with
  | PkKey _ => Codec.Panic
  | SkKey sk =>
      let ct1 := CopyValues crp (comp ct 1) in
      let* '(e, st) := read_gauss src rQ (Nat.min (length pt - 1) (ctLevel ct)) pool st in
      let '(c0, c1) := skEncrypt rQ sk pt ptNTT (comp ct 0) ct1 (ctNTT ct) e in
      Ret (mkCt (c0 :: c1 :: skipn 2 (ctV ct)) (ctScale ct) (ctNTT ct), st)
  end.
(** ckks/encryptor.go:65-68 [EncryptFromCRP]; [scale] is that of the plaintext. *)
Definition EncryptFromCRP (src : source) (rQ : Ring) (key : enc_key) (pt : rows) (ptNTT : bool) (scale : float64) (crp : rows) (ct : Ct) (pool : rows) (st : samplers)
  : res (Ct * samplers) :=
  let* '(c, st) := rlwe_EncryptFromCRP src rQ key pt ptNTT crp ct pool st in Ret (mkCt (ctV c) scale (ctNTT c), st).
(** ckks/encryptor.go:75-79 [EncryptFromCRPNew]. *)
Definition EncryptFromCRPNew (src : source) (rQ : Ring) (key : enc_key) (pt : rows) (ptNTT : bool) (scale : float64) (crp : rows) (pool : rows) (st : samplers)
  : res (Ct * samplers) :=
  rlwe_EncryptFromCRP src rQ key pt ptNTT crp (NewCiphertext (rN rQ) 1 (length pt - 1) scale) pool st.
