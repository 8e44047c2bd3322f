(** fckks: encryption and decryption of messages. *)
From Verif Require Import Word Ring RingOps Float64 Rlwe Ckks Fckks Encoder.

(** fckks/decryptor.go:29-32 [DecryptToMsg] (34-38 [DecryptToMsgNew] is the same with a new message): the values and the decryptor
    afterwards.  [roots], [buf] and [pool] are the table, the value buffer and the polynomial buffer of dec.encoder ([buf] and [pool]
    hold what earlier calls left in them). *)
Definition DecryptToMsg (roots buf : list complex128) (pool : rows) (logSlots : nat) (d : FDecryptor) (c : Ct) : option (list complex128) * FDecryptor :=
  let '(pt, scale, d') := decrypt_pooled d c in
  (Decode (fdRing d) roots buf pool (mkPt pt scale true) logSlots, d').

(** fckks/encryptor.go:29-32 [EncryptMsg], ckks/encryptor.go:47-50: the ciphertext written to [out] and enc.ptxtPool afterwards.  [pt] is
    enc.ptxtPool with what earlier calls left in it; [u], [e0], [e1] are what the samplers return, [pool], [poolP0], [poolP1] the buffers
    of the rlwe encryptor. *)
Definition EncryptMsg (rQ rP : Ring) (pk : (rows * rows) * (rows * rows)) (roots buf : list complex128) (pt : Pt) (logSlots : nat)
    (msg : list complex128) (out : Ct) (u e0 e1 pool poolP0 poolP1 : rows) : option (Ct * Pt) :=
  match Encode rQ roots buf msg pt logSlots with
  | None => None
  | Some pt =>
      let '(c0, c1) := pkEncrypt rQ rP pk (ptV pt) (ptNTT pt) (comp out 0) (comp out 1) (ctNTT out) u e0 e1 pool poolP0 poolP1 in
      Some (mkCt [c0; c1] (ptScale pt) (ctNTT out), pt)
  end.
