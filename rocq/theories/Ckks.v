(** Model of /repo/ckks/evaluator.go, /repo/ckks/ciphertext.go, the scaling helpers of
    /repo/ckks/utils.go and the ciphertext type of /repo/rlwe/elements.go.

    As before, the new content of the receiver is returned, scratch polynomials are arguments and a panic is
    [None].  A receiver that is also an operand has that operand's content; where the code reads an operand
    after writing the receiver, the aliased case has its own definition. *)
From Verif Require Import Word ModRed Ring NTT RingOps Scaling BasisExt Automorphism Gadget Rlwe Float64.
From Flocq Require Import IEEE754.BinarySingleNaN.

(** ** float64 *)
Definition f64_zero : float64 := f64_of_Z 0.
Definition f64_half : float64 := f64_div (f64_of_Z 1) (f64_of_Z 2).
Definition f64_sub (x y : float64) : float64 := Bminus mode_NE x y.
Definition f64_opp (x : float64) : float64 := Bopp x.
Definition f64_lt (x y : float64) : bool := Bltb x y.
Definition f64_le (x y : float64) : bool := Bleb x y.
Definition f64_eq (x y : float64) : bool := Beqb x y.
(** math.Floor. *)
Definition f64_floor (x : float64) : float64 := Bnearbyint mode_DN x.
(** math.Round: half away from zero. *)
Definition f64_round (x : float64) : float64 := Bnearbyint mode_NA x.
(** utils/utils.go:125-130 [MaxFloat64]. *)
Definition MaxFloat64 (a b : float64) : float64 := if f64_le b a then a else b.

(** ** Ciphertexts: rlwe/elements.go:34-36, ckks/ciphertext.go:30-33.  A plaintext is an element with
    one polynomial.  [ctNTT] is the IsNTT flag of its polynomials. *)
Record Ct := mkCt { ctV : list rows; ctScale : float64; ctNTT : bool }.
Definition comp (c : Ct) (i : nat) : rows := nth i (ctV c) [].
(** rlwe/elements.go:130-132 [Degree], 135-137 [Level]. *)
Definition ctDegree (c : Ct) : nat := (length (ctV c) - 1)%nat.
Definition ctLevel (c : Ct) : nat := (length (comp c 0) - 1)%nat.

(** ring/ring_poly.go:35-42 [NewPoly]. *)
Definition zero_rows (N cnt : nat) : rows := repeat (repeat 0 N) cnt.
(** rlwe/elements.go:142-155 [Resize]. *)
Definition Resize (N degree : nat) (c : Ct) : Ct :=
  mkCt (if Nat.ltb degree (ctDegree c) then firstn (S degree) (ctV c)
        else ctV c ++ repeat (zero_rows N (S (ctLevel c))) (degree - ctDegree c)) (ctScale c) (ctNTT c).
(** rlwe/elements.go:97-104 [NewCiphertext], ckks/ciphertext.go:36-43. *)
Definition NewCiphertext (N degree level : nat) (scale : float64) : Ct := mkCt (repeat (zero_rows N (S level)) (S degree)) scale true.
(** ckks/evaluator.go:1028-1033 [DropLevel]. *)
Definition DropLevel (c : Ct) (levels : nat) : Ct := mkCt (map (firstn (ctLevel c + 1 - levels)) (ctV c)) (ctScale c) (ctNTT c).
(** The call [if ctOut.Level() > level { DropLevel(ctOut, ctOut.Level()-level) }]. *)
Definition drop_to (level : nat) (c : Ct) : Ct := if Nat.ltb level (ctLevel c) then DropLevel c (ctLevel c - level) else c.

(** ckks/evaluator.go:214-240 [checkBinary] ([false] is the panic; nil operands are not modelled). *)
Definition checkBinary (op0 op1 opOut : Ct) (minDegree : nat) : bool :=
  negb (Nat.eqb (ctDegree op0 + ctDegree op1) 0) && Nat.leb minDegree (ctDegree opOut) && ctNTT op0 && ctNTT op1.

(** ** Multiplication by constants *)

(** ckks/utils.go:199-226 [scaleUpExact].  The big.Float has the 53 bits of [big.NewFloat], so its addition of 0.5
    rounds as float64 does (the exponent ranges differ, which matters only beyond 2^1023). *)
Definition scaled_abs (value n : float64) : Z :=
  f64_trunc (f64_add (if f64_lt value f64_zero then f64_mul (f64_opp n) value else f64_mul n value) f64_half).
Definition scaleUpExact (value n : float64) (q : Z) : Z :=
  let res := scaled_abs value n mod q in
  if f64_lt value f64_zero then wsub q res else res.

(** The constants accepted by MultByConst; [CInt] is uint64, int64 or int. *)
Inductive const := CComplex (re im : float64) | CFloat (x : float64) | CInt (x : Z).
(** ckks/evaluator.go:468-526 [getConstAndScale], standard ring type.  [int64(x)] is the truncation (for values outside
    int64 it is implementation-specific in Go). *)
Definition needs_scale (x : float64) : bool :=
  negb (f64_eq x f64_zero) && negb (f64_eq (f64_sub x (f64_of_Z (f64_trunc x))) f64_zero).
Definition getConstAndScale (r : Ring) (level : nat) (c : const) : float64 * float64 * float64 :=
  let qf := f64_of_Z (mq (rmod r level)) in let one := f64_of_Z 1 in
  match c with
  | CComplex re im => (re, im, if needs_scale re || needs_scale im then qf else one)
  | CFloat x => (x, f64_zero, if needs_scale x then qf else one)
  | CInt x => (f64_of_Z x, f64_zero, one)
  end.

(** The two scalars of ckks/evaluator.go:708-731 (also 640-664 and, with integers, 763-789), in Montgomery form: the
    first half of a row is multiplied by the first, the second half by the second.  [real] and [imag] are the
    words [scaledConstReal] and [scaledConstImag] before the product with NttPsi[i][1]; [None] stands for the
    skipped branches cReal == 0, cImag == 0. *)
Definition const_words (m : modp) (real imag : option Z) : Z * Z :=
  let q := mq m in
  let re := match real with Some x => x | None => 0 end in
  let mf x := MForm x q (mbred m) in
  match imag with
  | None => (mf re, mf re)
  | Some y =>
      let im := MRed y (nth 1 (mpsi m) 0) q (mqinv m) in
      (mf (CRed (wadd re im) q), mf (CRed (wadd re (wsub q im)) q))
  end.
(** ring/ring_vector_ops.go:496-511 [MulScalarMontgomeryVec] on the two halves of a row. *)
Definition mul_halves (N : nat) (m : modp) (c : Z * Z) (row : list Z) : list Z :=
  map (fun x => MRed x (fst c) (mq m) (mqinv m)) (firstn (N / 2) row) ++
  map (fun x => MRed x (snd c) (mq m) (mqinv m)) (skipn (N / 2) row).
Definition mul_const_poly (r : Ring) (level : nat) (words : modp -> option Z * option Z) (p out : rows) : rows :=
  lvl (S level) (fun i => let m := rmod r i in
    let '(re, im) := words m in mul_halves (rN r) m (const_words m re im) (prow p i)) out.
Definition float_words (re im scale : float64) (m : modp) : option Z * option Z :=
  let w x := if f64_eq x f64_zero then None else Some (scaleUpExact x scale (mq m)) in (w re, w im).

(** The first [length vs] polynomials of [out] rewritten by [f]. *)
Definition rewrite_comps (f : rows -> rows -> rows) (vs out : list rows) : list rows :=
  map (fun i => f (nth i vs []) (nth i out [])) (seq 0 (length vs)) ++ skipn (length vs) out.

(** ckks/evaluator.go:689-743 [MultByConst]. *)
Definition MultByConst (r : Ring) (ct0 : Ct) (c : const) (ctOut : Ct) : Ct :=
  let level := Nat.min (ctLevel ct0) (ctLevel ctOut) in
  let '(re, im, scale) := getConstAndScale r level c in
  mkCt (rewrite_comps (mul_const_poly r level (float_words re im scale)) (ctV ct0) (ctV ctOut))
       (f64_mul (ctScale ct0) scale) (ctNTT ctOut).

(** ckks/evaluator.go:860-895 [MultByi], 912-948 [DivByi], standard ring type. *)
Definition mul_i_poly (r : Ring) (level : nat) (inverse : bool) (p out : rows) : rows :=
  lvl (S level) (fun i => let m := rmod r i in
    let psi := nth 1 (mpsi m) 0 in let neg := wsub (mq m) psi in
    mul_halves (rN r) m (if inverse then (neg, psi) else (psi, neg)) (prow p i)) out.
Definition MultByi (r : Ring) (inverse : bool) (ct0 ctOut : Ct) : Ct :=
  let level := Nat.min (ctLevel ct0) (ctLevel ctOut) in
  mkCt (map (fun i => mul_i_poly r level inverse (comp ct0 i) (comp ctOut i)) (seq 0 (length (ctV ctOut)))) (ctScale ct0) (ctNTT ctOut).

(** ckks/evaluator.go:529-569 [AddConst]. *)
Definition add_const_poly (r : Ring) (level : nat) (re im scale : float64) (p out : rows) : rows :=
  lvl (S level) (fun i => let m := rmod r i in let q := mq m in
    let real := if f64_eq re f64_zero then 0 else scaleUpExact re scale q in
    let '(c1, c2) := if f64_eq im f64_zero then (real, real)
      else let y := MRed (scaleUpExact im scale q) (nth 1 (mpsi m) 0) q (mqinv m) in (CRed (wadd real y) q, CRed (wadd real (wsub q y)) q) in
    map (fun x => CRed (wadd x c1) q) (firstn (rN r / 2) (prow p i)) ++ map (fun x => CRed (wadd x c2) q) (skipn (rN r / 2) (prow p i))) out.
Definition AddConst (r : Ring) (ct0 : Ct) (c : const) (ctOut : Ct) : Ct :=
  let level := Nat.min (ctLevel ct0) (ctLevel ctOut) in
  let '(re, im, _) := getConstAndScale r level c in
  mkCt (rewrite_comps (add_const_poly r level re im (ctScale ct0)) [comp ct0 0] (ctV ctOut)) (ctScale ct0) (ctNTT ctOut).

(** ** Addition and subtraction *)

(** [math.Floor(a/b)] when a > b and this is more than 1. *)
Definition scale_ratio (a b : float64) : option float64 :=
  let f := f64_floor (f64_div a b) in if f64_lt b a && f64_lt (f64_of_Z 1) f then Some f else None.
(** An operand brought to the larger scale (ckks/evaluator.go:350-412); [pool] is the content of eval.ctxpool.  The
    code writes the product to ctxpool, or over the operand if that is the receiver; the words are the same. *)
Definition matched (r : Ring) (c : Ct) (otherScale : float64) (pool : Ct) : list rows :=
  match scale_ratio otherScale (ctScale c) with
  | Some f => ctV (MultByConst r c (CFloat f) pool)
  | None => ctV c
  end.
(** ckks/evaluator.go:325-436 [evaluateInPlace].  The receiver is written component by component, from the same
    component of the operands, so that it may be one of them. *)
Definition evaluateInPlace (r : Ring) (evaluate : nat -> rows -> rows -> rows -> rows) (c0 c1 ctOut pool : Ct) : Ct :=
  let level := Nat.min (Nat.min (ctLevel c0) (ctLevel c1)) (ctLevel ctOut) in
  let maxDegree := Nat.max (ctDegree c0) (ctDegree c1) in
  let minDegree := Nat.min (ctDegree c0) (ctDegree c1) in
  let out := Resize (rN r) maxDegree ctOut in
  let out := if Nat.ltb level (ctLevel out) then DropLevel out (ctLevel out - Nat.min (ctLevel c0) (ctLevel c1)) else out in
  let tmp0 := matched r c0 (ctScale c1) pool in
  let tmp1 := matched r c1 (ctScale c0) pool in
  let longer := if Nat.ltb (ctDegree c1) (ctDegree c0) then tmp0 else tmp1 in
  mkCt (map (fun i => if Nat.leb i minDegree then evaluate level (nth i tmp0 []) (nth i tmp1 []) (comp out i)
                      else CopyValuesLvl level (nth i longer []) (comp out i)) (seq 0 (S maxDegree)))
       (MaxFloat64 (ctScale c0) (ctScale c1)) (ctNTT ctOut).

(** The pool has as many polynomials as an operand that is multiplied into it (else the code panics; if that
    operand is the receiver the code does not use the pool, a case where the model may panic alone). *)
Definition pool_fits (c : Ct) (otherScale : float64) (pool : Ct) : bool :=
  match scale_ratio otherScale (ctScale c) with Some _ => Nat.leb (length (ctV c)) (length (ctV pool)) | None => true end.
Definition pools_fit (op0 op1 pool : Ct) : bool := pool_fits op0 (ctScale op1) pool && pool_fits op1 (ctScale op0) pool.
(** ckks/evaluator.go:252-255 [Add]; [AddNew] (264-268) allocates the receiver with 242-249. *)
Definition Add (r : Ring) (op0 op1 ctOut pool : Ct) : option Ct :=
  if checkBinary op0 op1 ctOut (Nat.max (ctDegree op0) (ctDegree op1)) && pools_fit op0 op1 pool
  then Some (evaluateInPlace r (AddLvl r) op0 op1 ctOut pool) else None.
(** ckks/evaluator.go:278-292 [Sub].  The level of line 284 is computed after the receiver was cut. *)
Definition Sub (r : Ring) (op0 op1 ctOut pool : Ct) : option Ct :=
  if checkBinary op0 op1 ctOut (Nat.max (ctDegree op0) (ctDegree op1)) && pools_fit op0 op1 pool then
    let out := evaluateInPlace r (SubLvl r) op0 op1 ctOut pool in
    let level := Nat.min (Nat.min (ctLevel op0) (ctLevel op1)) (ctLevel out) in
    Some (mkCt (map (fun i => if Nat.ltb (ctDegree op0) i then NegLvl r level (comp out i) (comp out i) else comp out i) (seq 0 (length (ctV out))))
               (ctScale out) (ctNTT out))
  else None.
Definition newCiphertextBinary (r : Ring) (op0 op1 : Ct) : Ct :=
  NewCiphertext (rN r) (Nat.max (ctDegree op0) (ctDegree op1)) (Nat.min (ctLevel op0) (ctLevel op1)) (MaxFloat64 (ctScale op0) (ctScale op1)).
Definition AddNew (r : Ring) (op0 op1 pool : Ct) : option Ct := Add r op0 op1 (newCiphertextBinary r op0 op1) pool.
Definition SubNew (r : Ring) (op0 op1 pool : Ct) : option Ct := Sub r op0 op1 (newCiphertextBinary r op0 op1) pool.

(** ckks/evaluator.go:439-452 [Neg] ([None]: panic). *)
Definition Neg (r : Ring) (ct0 ctOut : Ct) : option Ct :=
  if negb (Nat.eqb (ctDegree ct0) (ctDegree ctOut)) then None
  else
    let level := Nat.min (ctLevel ct0) (ctLevel ctOut) in
    Some (mkCt (rewrite_comps (NegLvl r level) (ctV ct0) (ctV ctOut)) (ctScale ct0) (ctNTT ctOut)).

(** ** Scratch: rlwe/keyswitch.go:36-58 (PoolInvNTT, Pool[0..2]), ckks/evaluator.go:143-151 (poolQMul). *)
Record Scratch := mkScratch { sInv : rows; s0 : rows * rows; s1Q : rows; s1P : rows; s2Q : rows; s2P : rows; sMul0 : rows; sMul1 : rows; sMul2 : rows }.

(** A switching key: the first and the second polynomials of its digits. *)
Definition swkey : Type := (list (rows * rows) * list (rows * rows))%type.
(** Pool[1].Q and Pool[2].Q receive the result. *)
Definition switch_into_pools (rQ rP : Ring) (levelQ levelP : nat) (cx : rows) (isNTT : bool) (key : swkey) (s : Scratch) : option (rows * rows) :=
  SwitchKeysInPlace rQ rP levelQ levelP cx isNTT (fst key) (snd key) (sInv s) (s0 s) (s1P s) (s2P s) (s1Q s) (s2Q s).

(** ** Products *)

(** ckks/evaluator.go:1159-1187: the three polynomials of the product of two elements of degree 1; [c0], [c1],
    [c2] are the destinations.  [square] is op0 == op1.  (If the second operand is the receiver the code
    exchanges the operands before; every product below is symmetric in them up to the order of the factors.) *)
Definition tensor (r : Ring) (level : nat) (square : bool) (a b : Ct) (s : Scratch) (c0 c1 c2 : rows) : rows * rows * rows :=
  let c00 := MFormLvl r level (comp a 0) (sMul0 s) in
  let c01 := MFormLvl r level (comp a 1) (sMul1 s) in
  let c0 := MulCoeffsMontgomeryLvl r level c00 (comp b 0) c0 in
  let c2 := MulCoeffsMontgomeryLvl r level c01 (comp b 1) c2 in
  let c1 := MulCoeffsMontgomeryLvl r level c00 (comp b 1) c1 in
  let c1 := if square then AddLvl r level c1 c1 c1 else MulCoeffsMontgomeryAndAddLvl r level c01 (comp b 0) c1 in
  (c0, c1, c2).

(** ckks/evaluator.go:1214-1221: plaintext times ciphertext. *)
Definition plain_times (r : Ring) (level : nat) (p c : Ct) (s : Scratch) (out : list rows) : list rows :=
  let c00 := MFormLvl r level (comp p 0) (sMul0 s) in
  [MulCoeffsMontgomeryLvl r level c00 (comp c 0) (nth 0 out []); MulCoeffsMontgomeryLvl r level c00 (comp c 1) (nth 1 out [])] ++ skipn 2 out.

(** The common beginning of ckks/evaluator.go:1131-1146 and 1243-1255. *)
Definition mul_prelude (op0 op1 ctOut : Ct) : option (nat * Ct) :=
  if checkBinary op0 op1 ctOut (Nat.max (ctDegree op0) (ctDegree op1)) then
    let level := Nat.min (Nat.min (ctLevel op0) (ctLevel op1)) (ctLevel ctOut) in
    if Nat.ltb 1 (ctDegree op0) || Nat.ltb 1 (ctDegree op1) then None else Some (level, drop_to level ctOut)
  else None.

(** ckks/evaluator.go:1131-1222 [mulRelin] with relin = false: [Mul] (1110-1112), [MulNew] (1101-1105). *)
Definition Mul (r : Ring) (square : bool) (op0 op1 ctOut : Ct) (s : Scratch) : option Ct :=
  match mul_prelude op0 op1 ctOut with
  | None => None
  | Some (level, out) =>
      let scale := f64_mul (ctScale op0) (ctScale op1) in
      if Nat.eqb (ctDegree op0 + ctDegree op1) 2 then
        let out := if Nat.ltb (ctDegree out) 2 then Resize (rN r) 2 out else out in
        let '(c0, c1, c2) := tensor r level square op0 op1 s (comp out 0) (comp out 1) (comp out 2) in
        Some (mkCt ([c0; c1; c2] ++ skipn 3 (ctV out)) scale (ctNTT ctOut))
      else
        let '(p, c) := if Nat.eqb (ctDegree op0) 1 then (op1, op0) else (op0, op1) in
        Some (mkCt (plain_times r level p c s (ctV out)) scale (ctNTT ctOut))
  end.

(** [mulRelin] with relin = true: [MulRelin] (1127-1129), [MulRelinNew] (1117-1121); [levelP] and [rlk] are
    those of eval.rlk.Keys[0]. *)
Definition MulRelin (rQ rP : Ring) (levelP : nat) (rlk : swkey) (square : bool) (op0 op1 ctOut : Ct) (s : Scratch) : option Ct :=
  match mul_prelude op0 op1 ctOut with
  | None => None
  | Some (level, out) =>
      let scale := f64_mul (ctScale op0) (ctScale op1) in
      if Nat.eqb (ctDegree op0 + ctDegree op1) 2 then
        let '(c0, c1, c2) := tensor rQ level square op0 op1 s (comp out 0) (comp out 1) (sMul2 s) in
        let c2 := InvNTTLvl rQ level c2 c2 in
        match switch_into_pools rQ rP level levelP c2 false rlk s with
        | None => None
        | Some (p1, p2) =>
            let p1 := NTTLazyLvl rQ level p1 p1 in
            let p2 := NTTLazyLvl rQ level p2 p2 in
            Some (mkCt ([AddLvl rQ level c0 p1 c0; AddLvl rQ level c1 p2 c1] ++ skipn 2 (ctV out)) scale (ctNTT ctOut))
        end
      else
        let '(p, c) := if Nat.eqb (ctDegree op0) 1 then (op1, op0) else (op0, op1) in
        Some (mkCt (plain_times rQ level p c s (ctV out)) scale (ctNTT ctOut))
  end.

(** ckks/evaluator.go:1281-1306, the case of two elements of degree 1 without relinearization: [MulAndAdd]
    (1229-1231) on a receiver of degree 2 whose scale is not below the product of the scales (otherwise the code
    first multiplies the receiver by the rounded quotient). *)
Definition add_tensor (r : Ring) (level : nat) (a b : Ct) (s : Scratch) (c0 c1 : rows) : rows * rows * rows :=
  let c00 := MFormLvl r level (comp a 0) (sMul0 s) in
  let c01 := MFormLvl r level (comp a 1) (sMul1 s) in
  let c0 := MulCoeffsMontgomeryAndAddLvl r level c00 (comp b 0) c0 in
  let c1 := MulCoeffsMontgomeryAndAddLvl r level c00 (comp b 1) c1 in
  let c1 := MulCoeffsMontgomeryAndAddLvl r level c00 (comp b 1) c1 in
  (c0, c1, c01).
Definition MulAndAdd (r : Ring) (op0 op1 ctOut : Ct) (s : Scratch) : option Ct :=
  match mul_prelude op0 op1 ctOut with
  | None => None
  | Some (level, out) =>
      let resScale := f64_mul (ctScale op0) (ctScale op1) in
      let out := if f64_lt (ctScale out) resScale
        then let o := MultByConst r out (CFloat (f64_round (f64_div resScale (ctScale out)))) out in mkCt (ctV o) resScale (ctNTT o) else out in
      if Nat.eqb (ctDegree op0 + ctDegree op1) 2 then
        let out := if Nat.ltb (ctDegree out) 2 then Resize (rN r) 2 out else out in
        let '(c0, c1, c01) := add_tensor r level op0 op1 s (comp out 0) (comp out 1) in
        let c2 := MulCoeffsMontgomeryAndAddLvl r level c01 (comp op1 1) (comp out 2) in
        Some (mkCt ([c0; c1; c2] ++ skipn 3 (ctV out)) (ctScale out) (ctNTT out))
      else
        let '(p, c) := if Nat.eqb (ctDegree op0) 1 then (op1, op0) else (op0, op1) in
        let c00 := MFormLvl r level (comp p 0) (sMul0 s) in
        Some (mkCt ([MulCoeffsMontgomeryAndAddLvl r level c00 (comp c 0) (comp out 0);
                     MulCoeffsMontgomeryAndAddLvl r level c00 (comp c 1) (comp out 1)] ++ skipn 2 (ctV out)) (ctScale out) (ctNTT out))
  end.

(** ** Key switching, relinearization, rotations *)

(** ckks/evaluator.go:1339-1359 [Relinearize]. *)
Definition Relinearize (rQ rP : Ring) (levelP : nat) (rlk : swkey) (ct0 ctOut : Ct) (s : Scratch) : option Ct :=
  if negb (Nat.eqb (ctDegree ct0) 2) then None
  else
    let out := drop_to (ctLevel ct0) ctOut in
    let level := Nat.min (ctLevel ct0) (ctLevel out) in
    match switch_into_pools rQ rP level levelP (comp ct0 2) (ctNTT ct0) rlk s with
    | None => None
    | Some (p1, p2) =>
        Some (Resize (rN rQ) 1 (mkCt ([AddLvl rQ level (comp ct0 0) p1 (comp out 0); AddLvl rQ level (comp ct0 1) p2 (comp out 1)] ++ skipn 2 (ctV out))
                (ctScale ct0) (ctNTT out)))
    end.

(** ckks/evaluator.go:1373-1388 [SwitchKeys]. *)
Definition SwitchKeys (rQ rP : Ring) (levelP : nat) (key : swkey) (ct0 ctOut : Ct) (s : Scratch) : option Ct :=
  if negb (Nat.eqb (ctDegree ct0) 1) || negb (Nat.eqb (ctDegree ctOut) 1) then None
  else
    let level := Nat.min (ctLevel ct0) (ctLevel ctOut) in
    match switch_into_pools rQ rP level levelP (comp ct0 1) (ctNTT ct0) key s with
    | None => None
    | Some (p1, p2) =>
        Some (mkCt [AddLvl rQ level (comp ct0 0) p1 (comp ctOut 0); CopyValuesLvl level p2 (comp ctOut 1)] (ctScale ct0) (ctNTT ctOut))
    end.

(** ckks/evaluator.go:1449-1472 [permuteNTT] with the key of galEl; [inplace] is ct0 == ctOut: the polynomial
    ct0.Value[0] read at 1467 has then been overwritten at 1462. *)
Definition permuteNTT (rQ rP : Ring) (levelP : nat) (key : swkey) (galEl : Z) (inplace : bool) (ct0 ctOut : Ct) (s : Scratch) : option Ct :=
  let level := Nat.min (ctLevel ct0) (ctLevel ctOut) in
  let pool2 := InvNTTLvl rQ level (comp ct0 1) (s1Q s) in
  match SwitchKeysInPlace rQ rP level levelP pool2 false (fst key) (snd key) (sInv s) (s0 s) (s1P s) (s2P s) (comp ctOut 0) (comp ctOut 1) with
  | None => None
  | Some (o0, o1) =>
      let pool2 := NTTLvl rQ level o0 pool2 in
      let pool3 := NTTLvl rQ level o1 (s2Q s) in
      let pool2 := AddLvl rQ level pool2 (if inplace then o0 else comp ct0 0) pool2 in
      Some (mkCt ([PermuteNTTLvl rQ level pool2 galEl o0; PermuteNTTLvl rQ level pool3 galEl o1] ++ skipn 2 (ctV ctOut)) (ctScale ct0) (ctNTT ctOut))
  end.

(** rlwe/elements.go:223-230 [Copy], ring/ring_poly.go:121-129, 134-138. *)
Definition CopyCt (src dst : Ct) : Ct :=
  mkCt (rewrite_comps (fun p o => CopyValuesLvl (Nat.min (length p - 1) (length o - 1)) p o) (ctV src) (ctV dst)) (ctScale src) (ctNTT src).

(** ckks/evaluator.go:1400-1416 [Rotate], 1434-1447 [Conjugate] (standard ring type); [rtks] is the map of rotation
    keys (rlwe/keys.go:86-94). *)
Definition Rotate (rQ rP : Ring) (levelP : nat) (rtks : Z -> option swkey) (k : Z) (inplace : bool) (ct0 ctOut : Ct) (s : Scratch) : option Ct :=
  if negb (Nat.eqb (ctDegree ct0) 1) || negb (Nat.eqb (ctDegree ctOut) 1) then None
  else if k =? 0 then Some (CopyCt ct0 ctOut)
  else
    let galEl := GaloisElementForColumnRotationBy rQ k in
    match rtks galEl with None => None | Some key => permuteNTT rQ rP levelP key galEl inplace ct0 ctOut s end.
Definition Conjugate (rQ rP : Ring) (levelP : nat) (rtks : Z -> option swkey) (inplace : bool) (ct0 ctOut : Ct) (s : Scratch) : option Ct :=
  if negb (Nat.eqb (ctDegree ct0) 1) || negb (Nat.eqb (ctDegree ctOut) 1) then None
  else
    let galEl := GaloisElementForRowRotation rQ in
    match rtks galEl with None => None | Some key => permuteNTT rQ rP levelP key galEl inplace ct0 ctOut s end.

(** ** Rescaling *)

(** A value, a returned error, a run-time panic. *)
Inductive outcome (A : Type) := Done (x : A) | Error | Panic.
Arguments Done {A} x. Arguments Error {A}. Arguments Panic {A}.

(** ckks/evaluator.go:1079-1082: the loop, [fuel] iterations at most; [level] is ctIn.Level().  The condition indexes
    the moduli before it compares the index with 0, so that running past modulus 0 panics ([None]).  Result: the
    number of divisions and the scale. *)
Fixpoint rescale_loop (fuel : nat) (r : Ring) (level nb : nat) (scale minScale : float64) : option (nat * float64) :=
  match fuel with
  | O => None
  | S f =>
      if Nat.ltb level nb then None
      else
        let q := f64_of_Z (mq (rmod r (level - nb))) in
        if f64_le (f64_div minScale (f64_of_Z 2)) (f64_div scale q) then rescale_loop f r level (S nb) (f64_div scale q) minScale
        else Some (nb, scale)
  end.

(** ckks/evaluator.go:1054-1097 [Rescale]; [same] is ctIn == ctOut. *)
Definition Rescale (r : Ring) (same : bool) (ctIn : Ct) (minScale : float64) (ctOut : Ct) : outcome Ct :=
  if f64_le minScale f64_zero then Error
  else if f64_eq (ctScale ctIn) f64_zero then Error
  else if Nat.eqb (ctLevel ctIn) 0 then Error
  else if negb (Nat.eqb (ctDegree ctOut) (ctDegree ctIn)) then Error
  else
    let level := ctLevel ctIn in
    match rescale_loop (S (S level)) r level 0 (ctScale ctIn) minScale with
    | None => Panic
    | Some (nb, scale) =>
        if Nat.eqb nb 0 then Done (if same then ctOut else CopyCt ctIn ctOut)
        else Done (mkCt (map (fun i => firstn (level + 1 - nb) (DivRoundByLastModulusManyNTTLvl r level nb (comp ctIn i) (comp ctOut i))) (seq 0 (length (ctV ctOut))))
                        scale (ctNTT ctOut))
    end.
