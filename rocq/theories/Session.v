(** fckks, used from start to end: keys, encryption of messages, a straight-line program of evaluator calls, decryption. *)
From Flocq Require Import IEEE754.BinarySingleNaN.
From Verif Require Import Word Ring RingOps Float64 Codec BasisExt Frlwe Rlwe Ckks Fckks Encoder Msg Draw.

(** The calls of a program, on numbered ciphertexts (the inputs first); each call makes a new ciphertext, numbered next. *)
Inductive instr :=
| IAdd (i j : nat)       (* eval.AddNew(ct[i], ct[j]) *)
| ISub (i j : nat)       (* eval.SubNew(ct[i], ct[j]) *)
| IMul (i j : nat)       (* eval.MulRelinNew(ct[i], ct[j], rlk) *)
| IRot (t i : nat)       (* eval.RotateNew(ct[i], rtk[t]) *)
| IRescale (i : nat).    (* eval.Rescale(ct[i].CopyNew(), minScale, the same copy) *)

(** What an evaluator works with: fckks/evaluator.go:12-47; [evScratch] and [evPool] give what its buffers hold at the call that makes the
    ciphertext of that number. *)
Record Eval := mkEval { evKs : KeySwitcher; evRlk : fkey; evRtks : list RotKey; evMin : float64; evScratch : nat -> FScratch; evPool : nat -> Ct }.
Definition evQ (ev : Eval) : Ring := fpQ (ksParams (evKs ev)).

(** The methods of fckks/evaluator.go:33-96 and of the embedded ckks.Evaluator (ckks/evaluator.go:264-268, 312-316, 1054-1097); [None]: panic
    or error.  The code takes the shorter path for squares when both operands are the same object, here i = j. *)
Definition exec (ev : Eval) (cts : list Ct) (op : instr) : option Ct :=
  let n := length cts in
  let unary (i : nat) (f : Ct -> option Ct) := match nth_error cts i with Some c => f c | None => None end in
  let binary (i j : nat) (f : Ct -> Ct -> option Ct) := unary i (fun c0 => unary j (fun c1 => f c0 c1)) in
  match op with
  | IAdd i j => binary i j (fun c0 c1 => AddNew (evQ ev) c0 c1 (evPool ev n))
  | ISub i j => binary i j (fun c0 c1 => SubNew (evQ ev) c0 c1 (evPool ev n))
  | IMul i j => binary i j (fun c0 c1 => FMulRelinNew (evKs ev) (evRlk ev) (Nat.eqb i j) c0 c1 (evScratch ev n))
  | IRot t i => match nth_error (evRtks ev) t with None => None | Some rtk => unary i (fun c => FRotateNew (evKs ev) rtk c (evScratch ev n)) end
  | IRescale i => unary i (fun c => match Rescale (evQ ev) true c (evMin ev) c with Done c' => Some c' | _ => None end)
  end.
Fixpoint run (ev : Eval) (cts : list Ct) (prog : list instr) : option (list Ct) :=
  match prog with
  | [] => Some cts
  | op :: prog => match exec ev cts op with Some c => run ev (cts ++ [c]) prog | None => None end
  end.

(** What the buffers of the key generator hold when a switching key is made, and those of the encryptor (with its encoder) at an encryption. *)
Record KeyPools := mkKP { kpQP : rows * rows; kpQ : rows; kp0 : list (list rows); kp1 : list (list rows) }.
Record EncPools := mkEP { epBuf : list complex128; epPool : rows; epP0 : rows; epP1 : rows }.

Fixpoint draw_rot_keys (src : source) (conv : list BasisExtender) (p : FParams) (sk : rows * rows) (pools : nat -> KeyPools) (ks : list Z) (st : samplers) : res (list RotKey * samplers) :=
  match ks with
  | [] => Ret ([], st)
  | k :: ks =>
      let kp := pools (length ks) in
      let* '(rtk, st) := DrawRotKey src conv p k sk (kpQP kp) (kpQ kp) (kp0 kp) (kp1 kp) st in
      let* '(l, st) := draw_rot_keys src conv p sk pools ks st in
      Ret (rtk :: l, st)
  end.
Fixpoint encrypt_all (src : source) (rQ rP : Ring) (pk : (rows * rows) * (rows * rows)) (roots : list complex128) (pools : nat -> EncPools) (logSlots : nat) (scale : float64)
    (msgs : list (list complex128)) (enc : FEncryptor) : res (list Ct * FEncryptor) :=
  match msgs with
  | [] => Ret ([], enc)
  | msg :: msgs =>
      let ep := pools (length msgs) in
      let* '(c, enc) := DrawEncryptMsgNew src rQ rP pk roots (epBuf ep) logSlots scale msg (epPool ep) (epP0 ep) (epP1 ep) enc in
      let* '(l, enc) := encrypt_all src rQ rP pk roots pools logSlots scale msgs enc in
      Ret (c :: l, enc)
  end.

(** A session: kg := NewKeyGenerator, kg.GenKeyPair, kg.GenRelinKey, kg.GenRotKey for every rotation in [rots]; enc := NewEncryptor,
    enc.EncryptMsgNew for every message; the program; dec := NewDecryptor, dec.DecryptToMsgNew of the ciphertext numbered [out].
    The key generator and the encryptor have generators of their own ([ksrc] and [esrc]); [h] is the weight of ternary polynomials
    (params.HammingWeight). *)
Definition session (ksrc esrc : source) (h : nat) (p : FParams) (ks : KeySwitcher) (conv : list BasisExtender) (roots : list complex128) (kpools : nat -> KeyPools) (epools : nat -> EncPools)
    (scratch : nat -> FScratch) (pool : nat -> Ct) (dbuf : list complex128) (dpool : rows) (logSlots : nat) (scale minScale : float64)
    (rots : list Z) (msgs : list (list complex128)) (prog : list instr) (out : nat) : res (list complex128) :=
  let rQ := fpQ p in let rP := fpP p in
  let* '(sk, pk, st) := DrawKeyPair ksrc rQ rP (newSamplers h) in
  let kp := kpools (length rots) in
  let* '(rlk, st) := DrawRelinKey ksrc conv p sk (fst (kpQP kp)) (kpQ kp) (kp0 kp) (kp1 kp) st in
  let* '(rtks, st) := draw_rot_keys ksrc conv p sk kpools rots st in
  let* '(cts, enc) := encrypt_all esrc rQ rP pk roots epools logSlots scale msgs (NewFEncryptor rQ h scale) in
  match run (mkEval ks rlk rtks minScale scratch pool) cts prog with
  | None => Codec.Panic
  | Some cts =>
      match nth_error cts out with
      | None => Codec.Panic
      | Some c => match fst (DecryptToMsg roots dbuf dpool logSlots (NewFDecryptor rQ (fst sk)) c) with None => Codec.Panic | Some vals => Ret vals end
      end
  end.
