(** The values that parameters answer with, the constants for dividing switching keys by P, uniform polynomials modulo Q and P, and
    random elements: /repo/rlwe/params.go:183-322, /repo/ckks/params.go:410-476, /repo/ckks/utils.go:332-352, /repo/rlwe/ring_qp.go:421-448,
    /repo/rlwe/elements.go and /repo/ckks/ciphertext.go:45-48. *)
From Flocq Require Import IEEE754.BinarySingleNaN.
From Verif Require Import Word ModRed Ring RingOps Float64 Ckks Codec Params Sampler.

(** ** Parameters *)

(** rlwe/params.go:228-232 [Q], 254-258 [P], 275-280 [QP], 240-242, 261-263, 283-285 [QCount], [PCount], [QPCount]: copies of the chains. *)
Definition pQ (p : Params) : list Z := qi p.
Definition pP (p : Params) : list Z := pi p.
Definition pQP (p : Params) : list Z := qi p ++ pi p.
Definition QCount (p : Params) : nat := length (qi p).
Definition PCount (p : Params) : nat := length (pi p).
Definition QPCount (p : Params) : nat := length (qi p) + length (pi p).
(** rlwe/params.go:223-225 and ckks/params.go:425-427 [MaxLevel]. *)
Definition MaxLevel (p : Params) : Z := Z.of_nat (QCount p) - 1.
(** The loops of rlwe/params.go:246-249 and the others: tmp.Mul(tmp, x) for each x. *)
Definition mul_all (tmp : Z) (l : list Z) : Z := fold_left Z.mul l tmp.
(** rlwe/params.go:245-251 [QBigInt], 266-272 [PBigInt], 288-292 [QPBigInt]. *)
Definition QBigInt (p : Params) : Z := mul_all 1 (qi p).
Definition PBigInt (p : Params) : Z := mul_all 1 (pi p).
Definition QPBigInt (p : Params) : Z := QBigInt p * PBigInt p.
(** math/big: the length of the absolute value in bits, 0 for 0. *)
Definition BitLen (x : Z) : Z := if x =? 0 then 0 else Z.log2 (Z.abs x) + 1.
(** rlwe/params.go:295-301 [LogQ], 304-310 [LogP], 313-322 [LogQP]. *)
Definition LogQ (p : Params) : Z := BitLen (mul_all 1 (qi p)).
Definition LogP (p : Params) : Z := BitLen (mul_all 1 (pi p)).
Definition LogQP (p : Params) : Z := BitLen (mul_all (mul_all 1 (qi p)) (pi p)).
(** ckks/params.go:470-476 [QLvl]: p.Q()[:level+1] panics outside of the slice, which has no spare capacity; 464-467 [LogQLvl]. *)
Definition QLvl (p : Params) (level : Z) : res Z :=
  if (level + 1 <? 0) || (Z.of_nat (QCount p) <? level + 1) then Panic else Ret (mul_all 1 (firstn (Z.to_nat (level + 1)) (pQ p))).
Definition LogQLvl (p : Params) (level : Z) : res Z := let* q := QLvl p level in Ret (BitLen q).
(** rlwe/params.go:183-185 [N] (for LogN below 63; negative panics), ckks/params.go:430-432 [Slots]. *)
Definition shift_one (n : Z) : res Z := if n <? 0 then Panic else Ret (int_wrap (Z.shiftl 1 n)).
Definition pN (p : Params) : res Z := shift_one (logN p).
Definition Slots (p : CkksParams) : res Z := shift_one (cLogSlots p).
(** ckks/params.go:435-444 [MaxSlots], 447-456 [MaxLogSlots]. *)
Definition MaxSlots (p : CkksParams) : res Z :=
  let t := ringType (cRlwe p) in
  if t =? Standard then let* n := pN (cRlwe p) in Ret (Z.shiftr n 1)
  else if t =? ConjugateInvariant then pN (cRlwe p) else Panic.
Definition MaxLogSlots (p : CkksParams) : res Z :=
  let t := ringType (cRlwe p) in
  if t =? Standard then Ret (logN (cRlwe p) - 1) else if t =? ConjugateInvariant then Ret (logN (cRlwe p)) else Panic.

(** ckks/utils.go:333-352 [GenSwitchkeysRescalingParams]. *)
Definition GenSwitchkeysRescalingParams (Q P : list Z) : list Z :=
  let PBig := mul_all 1 P in
  map (fun q => MForm (ModExp (PBig mod q) (wsub q 2) q) q (BRedParams q)) Q.

(** ** Uniform polynomials modulo Q and P *)

(** rlwe/ring_qp.go:427-437 [NewUniformSamplerQP] and 440-448 [Read]: the two samplers read from one generator; [None] is a nil ring or a
    nil polynomial. *)
Definition read_opt (fuel : nat) (s : stream) (r : option Ring) (pol : option rows) (g : prng) : res (option rows * prng) :=
  match pol, r with
  | Some pol, Some r => let* '(pol, g) := Uniform_Read fuel s r pol g in Ret (Some pol, g)
  | _, _ => Ret (pol, g)
  end.
Definition UniformQP_Read (fuel : nat) (s : stream) (rQ rP : option Ring) (pQ pP : option rows) (g : prng) : res ((option rows * option rows) * prng) :=
  let* '(pQ, g) := read_opt fuel s rQ pQ g in
  let* '(pP, g) := read_opt fuel s rP pP g in
  Ret ((pQ, pP), g).

(** ** Elements *)

(** rlwe/elements.go:97-104 [NewCiphertext]: the NTT flags are not set; 107-115 [NewCiphertextNTT].  An element of rlwe has no scale. *)
Definition rlwe_NewCiphertext (N degree level : nat) : Ct := mkCt (repeat (zero_rows N (S level)) (S degree)) f64_zero false.
(** rlwe/elements.go:256-261 [PopulateElementRandom]: the sampler is read into each polynomial. *)
Fixpoint populate (fuel : nat) (s : stream) (r : Ring) (v : list rows) (g : prng) : res (list rows * prng) :=
  match v with
  | [] => Ret ([], g)
  | pol :: v => let* '(pol, g) := Uniform_Read fuel s r pol g in let* '(v, g) := populate fuel s r v g in Ret (pol :: v, g)
  end.
(** rlwe/elements.go:118-122 and ckks/ciphertext.go:46-48 [NewCiphertextRandom]. *)
Definition NewCiphertextRandom (fuel : nat) (s : stream) (r : Ring) (degree level : nat) (scale : float64) (g : prng) : res (Ct * prng) :=
  let c := rlwe_NewCiphertext (rN r) degree level in
  let* '(v, g) := populate fuel s r (ctV c) g in
  Ret (mkCt v scale (ctNTT c), g).
(** rlwe/elements.go:49-51 [NewAdditiveShare], 55-57 [NewAdditiveShareAtLevel]. *)
Definition NewAdditiveShare (r : Ring) : rows := zero_rows (rN r) 1.
Definition NewAdditiveShareAtLevel (r : Ring) (level : nat) : rows := zero_rows (rN r) (S level).
(** rlwe/elements.go:245-253 [GetSmallestLargest]. *)
Definition GetSmallestLargest (el0 el1 : Ct) : Ct * Ct * bool :=
  if Nat.ltb (ctDegree el1) (ctDegree el0) then (el1, el0, false)
  else if Nat.ltb (ctDegree el0) (ctDegree el1) then (el0, el1, false) else (el0, el1, true).
