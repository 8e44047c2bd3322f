(** Model of /repo/fckks/evaluator.go and /repo/fckks/decryptor.go, and of the generation of relinearization
    and rotation keys in /repo/frlwe/keygen.go.

    As before, the new content of the receiver is returned, scratch polynomials are arguments and a panic is
    [None]. *)
From Verif Require Import Word ModRed Ring NTT RingOps Scaling BasisExt Automorphism Gadget Frlwe Rlwe Float64 Ckks.

(** ** Keys *)

(** frlwe/keys.go:12-14 [RelinKey]: Value[0] and Value[1], each a list of T-polynomials for each digit. *)
Definition fkey : Type := list (list rows) * list (list rows).

(** frlwe/keygen.go:93-117 [GenRelinKey]: the first key of rlwe's GenRelinearizationKey(sk, 1), converted.
    The randomness and the scratch polynomials of rlwe's key generator are arguments (see Rlwe.v). *)
Definition GenRelinKey (conv : list BasisExtender) (p : FParams) (sk : rows * rows) (e aQ aP : nat -> nat -> rows) (poolQP poolQ : rows) (pool0 pool1 : list (list rows)) : fkey :=
  let '(key0, key1) := nth 0 (GenRelinearizationKey (fpQ p) (fpP p) sk 1 e aQ aP poolQP poolQ) ([], []) in
  (convertKey conv p key0 pool0, convertKey conv p key1 pool1).

(** frlwe/keys.go:16-19 [RotationKey]. *)
Record RotKey := mkRotKey { rkValue : fkey; rkRotidx : Z }.
(** Go's conversions between int and uint64. *)
Definition to_uint64 (x : Z) : Z := x mod W.
Definition to_int (x : Z) : Z := if x <? 2 ^ 63 then x else x - W.

(** frlwe/keygen.go:119-145 [GenRotKey]; [%] truncates, as [Z.rem]. *)
Definition GenRotKey (conv : list BasisExtender) (p : FParams) (rotidx : Z) (sk : rows * rows) (e aQ aP : nat -> rows) (poolQP : rows * rows) (poolQ : rows) (pool0 pool1 : list (list rows)) : RotKey :=
  let rotidx := Z.rem rotidx (Z.of_nat (rN (fpQ p)) / 2) in
  let '(key0, key1) := GenSwitchingKeyForRotationBy (fpQ p) (fpP p) rotidx sk e aQ aP poolQP poolQ in
  mkRotKey (convertKey conv p key0 pool0, convertKey conv p key1 pool1) (to_uint64 rotidx).

(** ** Evaluator *)

(** The scratch polynomials: those of the ckks evaluator, those of the key switcher and polyQPool. *)
Record FScratch := mkFS { fsC : Scratch; fsT1 : list rows; fsT2 : list rows; fsT2' : list rows; fsR : rows; fsR' : rows;
  fsQ : rows; fsQ' : rows; fsP : rows; fsP' : rows; fsPool0 : rows; fsPool1 : rows; fsPool2 : rows }.

(** The calls of ksw.SwitchKey, with polyQPool[1] and polyQPool[2] as receivers. *)
Definition switch_pools (ks : KeySwitcher) (level : nat) (a : rows) (isNTT : bool) (key : fkey) (s : FScratch) : option (rows * rows) :=
  SwitchKey ks level a isNTT (fst key) (snd key) (fsT1 s) (fsT2 s) (fsT2' s) (fsR s) (fsR' s) (fsQ s) (fsQ' s) (fsP s) (fsP' s) (fsPool1 s) (fsPool2 s).

(** fckks/evaluator.go:55-70 [MulRelin].  polyQPool[0] is a polynomial of NewPoly, so its IsNTT flag is false.
    A product of degree 1 has no Value[2] (panic). *)
Definition FMulRelin (ks : KeySwitcher) (rlk : fkey) (square : bool) (ct0 ct1 ctOut : Ct) (s : FScratch) : option Ct :=
  let rQ := fpQ (ksParams ks) in
  match Mul rQ square ct0 ct1 ctOut (fsC s) with
  | None => None
  | Some out =>
      if Nat.leb (length (ctV out)) 2 then None
      else
        let level := ctLevel out in
        let c2 := InvNTTLvl rQ level (comp out 2) (fsPool0 s) in
        match switch_pools ks level c2 false rlk s with
        | None => None
        | Some (p1, p2) =>
            let p1 := NTTLvl rQ level p1 p1 in
            let p2 := NTTLvl rQ level p2 p2 in
            Some (mkCt [AddLvl rQ level p1 (comp out 0) (comp out 0); AddLvl rQ level p2 (comp out 1) (comp out 1)] (ctScale out) (ctNTT out))
        end
  end.

(** fckks/evaluator.go:49-53 [MulRelinNew]. *)
Definition FMulRelinNew (ks : KeySwitcher) (rlk : fkey) (square : bool) (ct0 ct1 : Ct) (s : FScratch) : option Ct :=
  FMulRelin ks rlk square ct0 ct1 (NewCiphertext (rN (fpQ (ksParams ks))) 2 (Nat.min (ctLevel ct0) (ctLevel ct1)) f64_zero) s.

(** fckks/evaluator.go:78-96 [Rotate].  An operand of smaller level or of degree 0, or a receiver of degree 0, makes the code panic. *)
Definition FRotate (ks : KeySwitcher) (rtk : RotKey) (ctIn ctOut : Ct) (s : FScratch) : option Ct :=
  let rQ := fpQ (ksParams ks) in
  let level := ctLevel ctOut in
  if Nat.ltb (ctLevel ctIn) level || Nat.ltb (length (ctV ctIn)) 2 || Nat.ltb (length (ctV ctOut)) 2 then None
  else
    let c1 := InvNTTLvl rQ level (comp ctIn 1) (fsPool0 s) in
    match switch_pools ks level c1 false (rkValue rtk) s with
    | None => None
    | Some (p1, p2) =>
        let p1 := NTTLvl rQ level p1 p1 in
        let p2 := NTTLvl rQ level p2 p2 in
        let p1 := AddLvl rQ level (comp ctIn 0) p1 p1 in
        let galEl := GaloisElementForColumnRotationBy rQ (to_int (rkRotidx rtk)) in
        Some (mkCt ([PermuteNTTLvl rQ level p1 galEl (comp ctOut 0); PermuteNTTLvl rQ level p2 galEl (comp ctOut 1)] ++ skipn 2 (ctV ctOut))
                   (ctScale ctOut) (ctNTT ctOut))
    end.
(** fckks/evaluator.go:72-76 [RotateNew]. *)
Definition FRotateNew (ks : KeySwitcher) (rtk : RotKey) (ctIn : Ct) (s : FScratch) : option Ct :=
  FRotate ks rtk ctIn (NewCiphertext (rN (fpQ (ksParams ks))) 1 (ctLevel ctIn) (ctScale ctIn)) s.

(** fckks/evaluator.go:98-109 [SwitchKeys]. *)
Definition FSwitchKeys (ks : KeySwitcher) (swk : fkey) (ct0 ctOut : Ct) (s : FScratch) : option Ct :=
  let rQ := fpQ (ksParams ks) in
  let level := Nat.min (ctLevel ct0) (ctLevel ctOut) in
  match switch_pools ks level (comp ct0 1) (ctNTT ct0) swk s with
  | None => None
  | Some (p1, p2) =>
      Some (mkCt ([AddLvl rQ level (comp ct0 0) p1 (comp ctOut 0); CopyValuesLvl level p2 (comp ctOut 1)] ++ skipn 2 (ctV ctOut)) (ctScale ct0) (ctNTT ctOut))
  end.
(** fckks/evaluator.go:111-115 [SwitchKeysNew]. *)
Definition FSwitchKeysNew (ks : KeySwitcher) (swk : fkey) (ct0 : Ct) (s : FScratch) : option Ct :=
  FSwitchKeys ks swk ct0 (NewCiphertext (rN (fpQ (ksParams ks))) (ctDegree ct0) (ctLevel ct0) (ctScale ct0)) s.

(** ** Decryptor *)

(** fckks/decryptor.go:8-13 [Decryptor]: the content of ptxtPool and of the pool of the rlwe decryptor. *)
Record FDecryptor := mkFD { fdRing : Ring; fdSk : rows; fdPt : rows; fdPool : rows }.
(** fckks/decryptor.go:15-23 [NewDecryptor]. *)
Definition NewFDecryptor (r : Ring) (sk : rows) : FDecryptor :=
  mkFD r sk (zero_rows (rN r) (length (rmods r))) (zero_rows (rN r) (length (rmods r))).
(** fckks/decryptor.go:29-32 [DecryptToMsg] up to the decoding: the plaintext that is decoded (of the NTT domain, as ckks.NewPlaintext
    makes it; ckks/decryptor.go copies the scale) and the decryptor afterwards.  The final content of the scratch
    polynomial of the rlwe decryptor, which Decrypt writes before it reads it, is not followed. *)
Definition decrypt_pooled (d : FDecryptor) (c : Ct) : rows * float64 * FDecryptor :=
  let pt := Decrypt (fdRing d) (fdSk d) (ctV c) (ctNTT c) (fdPt d) true (fdPool d) in
  (pt, ctScale c, mkFD (fdRing d) (fdSk d) pt (fdPool d)).
(** A decryptor after a list of decryptions. *)
Definition decrypt_all (d : FDecryptor) (cs : list Ct) : FDecryptor := fold_left (fun d c => snd (decrypt_pooled d c)) cs d.
