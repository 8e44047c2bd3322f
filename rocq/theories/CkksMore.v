(** Model of the remaining functions of /repo/ckks/evaluator.go: products added to the receiver, Gaussian integers,
    scale changes, unreduced sums, hoisted rotations.  Conventions of Ckks.v. *)
From Verif Require Import Word ModRed Ring NTT RingOps Scaling BasisExt Automorphism Gadget Rlwe Float64 Ckks.

(** ** Products added to the receiver *)

(** ring/ring_vector_ops.go:532-547 [MulScalarMontgomeryAndAddVec] on the two halves of a row. *)
Definition mad_halves (N : nat) (m : modp) (c : Z * Z) (row out : list Z) : list Z :=
  map (fun k => CRed (wadd (nth k out 0) (MRed (nth k row 0) (if Nat.ltb k (N / 2) then fst c else snd c) (mq m) (mqinv m))) (mq m)) (seq 0 N).
(** [scalars] gives the two scalars of a modulus, in Montgomery form. *)
Definition mad_poly (r : Ring) (level : nat) (scalars : modp -> Z * Z) (p out : rows) : rows :=
  lvl (S level) (fun i => let m := rmod r i in mad_halves (rN r) m (scalars m) (prow p i) (prow out i)) out.
Definition mul_poly (r : Ring) (level : nat) (scalars : modp -> Z * Z) (p out : rows) : rows :=
  lvl (S level) (fun i => let m := rmod r i in mul_halves (rN r) m (scalars m) (prow p i)) out.

(** ckks/evaluator.go:576-675 [MultByConstAndAdd]; [None] is the index panic of 654 when the receiver has fewer polynomials
    than ct0.  The receiver is not ct0. *)
Definition with_scale (c : Ct) (scale : float64) : Ct := mkCt (ctV c) scale (ctNTT c).
(** 592-632: the receiver, multiplied by an integer if its scale is too small, and the scale for the constant. *)
Definition mad_scales (r : Ring) (ct0 ctOut : Ct) (scale : float64) : Ct * float64 :=
  let raise (target : float64) :=
    let f := f64_floor (f64_div target (ctScale ctOut)) in
    with_scale (if f64_lt (f64_of_Z 1) f then MultByConst r ctOut (CFloat f) ctOut else ctOut) target in
  if negb (f64_eq scale (f64_of_Z 1)) then
    if f64_lt (ctScale ctOut) (f64_mul (ctScale ct0) scale) then (raise (f64_mul scale (ctScale ct0)), scale)
    else if f64_lt (f64_mul (ctScale ct0) scale) (ctScale ctOut) then (ctOut, f64_div (ctScale ctOut) (ctScale ct0))
    else (ctOut, scale)
  else
    if f64_lt (ctScale ct0) (ctScale ctOut) then (ctOut, f64_div (ctScale ctOut) (ctScale ct0))
    else if f64_lt (ctScale ctOut) (ctScale ct0) then (raise (ctScale ct0), scale)
    else (ctOut, scale).
Definition MultByConstAndAdd (r : Ring) (ct0 : Ct) (c : const) (ctOut : Ct) : option Ct :=
  if Nat.ltb (length (ctV ctOut)) (length (ctV ct0)) then None
  else
    let level := Nat.min (ctLevel ct0) (ctLevel ctOut) in
    let '(re, im, scale) := getConstAndScale r level c in
    let '(out, scale) := mad_scales r ct0 (drop_to level ctOut) scale in
    let scalars m := let '(x, y) := float_words re im scale m in const_words m x y in
    Some (mkCt (rewrite_comps (mad_poly r level scalars) (ctV ct0) (ctV out)) (ctScale out) (ctNTT out)).

(** ** Gaussian integers *)

(** The accepted types of the parts. *)
Inductive gint := GUint (x : Z) | GInt (x : Z) | GBig (x : Z).
(** ckks/utils.go:93-120 [interfaceMod]; Go's [%] on int64 truncates ([Z.rem]). *)
Definition interfaceMod (x : gint) (q : Z) : Z :=
  match x with
  | GUint x => x mod q
  | GInt x => if 0 <? x then x else if x <? 0 then w64 (q + Z.rem x q) else 0
  | GBig x => if x =? 0 then 0 else x mod q
  end.
(** ckks/evaluator.go:763-789 (also 812-838), standard ring type.  The test [cImag != 0] of 784 compares an interface holding a
    uint64, an int64 or a *big.Int with the int 0 and is always true. *)
Definition gauss_scalars (re im : gint) (m : modp) : Z * Z :=
  let q := mq m in
  let a := interfaceMod re q in
  let b := interfaceMod im q in
  let b := if b =? 0 then b else MRed b (nth 1 (mpsi m) 0) q (mqinv m) in
  let c := if interfaceMod im q =? 0 then a else CRed (wadd a b) q in
  (MForm c q (mbred m), MForm (CRed (wadd a (wsub q b)) q) q (mbred m)).
(** ckks/evaluator.go:747-794 [MultByGaussianInteger], 798-843 [MultByGaussianIntegerAndAdd]. *)
Definition MultByGaussianInteger (r : Ring) (ct0 : Ct) (re im : gint) (ctOut : Ct) : Ct :=
  let level := Nat.min (ctLevel ct0) (ctLevel ctOut) in
  mkCt (rewrite_comps (mul_poly r level (gauss_scalars re im)) (ctV ct0) (ctV ctOut)) (ctScale ct0) (ctNTT ctOut).
Definition MultByGaussianIntegerAndAdd (r : Ring) (ct0 : Ct) (re im : gint) (ctOut : Ct) : Ct :=
  let level := Nat.min (ctLevel ct0) (ctLevel ctOut) in
  mkCt (rewrite_comps (mad_poly r level (gauss_scalars re im)) (ctV ct0) (ctV ctOut)) (ctScale ctOut) (ctNTT ctOut).

(** ** Scales and levels *)

(** ckks/evaluator.go:960-963 [ScaleUp]; [uint64(scale)] is the truncation (outside [0, 2^64) it is implementation-specific). *)
Definition ScaleUp (r : Ring) (ct0 : Ct) (scale : float64) (ctOut : Ct) : Ct :=
  with_scale (MultByConst r ct0 (CInt (f64_trunc scale)) ctOut) (f64_mul (ctScale ct0) scale).
(** ckks/evaluator.go:966-972 [SetScale]: a returned error becomes a panic. *)
Definition SetScale (r : Ring) (ct : Ct) (scale : float64) : outcome Ct :=
  let ct := MultByConst r ct (CFloat (f64_div scale (ctScale ct))) ct in
  match Rescale r true ct scale ct with
  | Done c => Done (with_scale c scale)
  | Error => Panic
  | Panic => Panic
  end.
(** ckks/evaluator.go:982-988 [MulByPow2], to another receiver (975-979: [MulByPow2New]) and in place. *)
Definition MulByPow2 (r : Ring) (ct0 : Ct) (pow2 : Z) (ctOut : Ct) : Ct :=
  let level := Nat.min (ctLevel ct0) (ctLevel ctOut) in
  mkCt (map (fun i => MulByPow2Lvl r pow2 level (comp ct0 i) (comp ctOut i)) (seq 0 (length (ctV ctOut)))) (ctScale ct0) (ctNTT ctOut).
Definition MulByPow2_inplace (r : Ring) (ct : Ct) (pow2 : Z) : Ct :=
  mkCt (map (MulByPow2Lvl_inplace r pow2 (ctLevel ct)) (ctV ct)) (ctScale ct) (ctNTT ct).
(** ckks/evaluator.go:1003-1016 [Reduce] ([None]: the returned error), 992-999 [ReduceNew]. *)
Definition Reduce (r : Ring) (ct0 ctOut : Ct) : option Ct :=
  if negb (Nat.eqb (ctDegree ct0) (ctDegree ctOut)) then None
  else
    let level := Nat.min (ctLevel ct0) (ctLevel ctOut) in
    Some (mkCt (rewrite_comps (ReduceLvl r level) (ctV ct0) (ctV ctOut)) (ctScale ct0) (ctNTT ctOut)).

(** ** Sums without reduction: ckks/evaluator.go:258-261 [AddNoMod], 295-309 [SubNoMod] *)
Definition AddNoMod (r : Ring) (op0 op1 ctOut pool : Ct) : option Ct :=
  if checkBinary op0 op1 ctOut (Nat.max (ctDegree op0) (ctDegree op1)) && pools_fit op0 op1 pool
  then Some (evaluateInPlace r (AddNoModLvl r) op0 op1 ctOut pool) else None.
Definition SubNoMod (r : Ring) (op0 op1 ctOut pool : Ct) : option Ct :=
  if checkBinary op0 op1 ctOut (Nat.max (ctDegree op0) (ctDegree op1)) && pools_fit op0 op1 pool then
    let out := evaluateInPlace r (SubNoModLvl r) op0 op1 ctOut pool in
    let level := Nat.min (Nat.min (ctLevel op0) (ctLevel op1)) (ctLevel out) in
    Some (mkCt (map (fun i => if Nat.ltb (ctDegree op0) i then NegLvl r level (comp out i) (comp out i) else comp out i) (seq 0 (length (ctV out))))
               (ctScale out) (ctNTT out))
  else None.

(** ** Receivers of degree 1: ckks/evaluator.go:847-856 [MultByiNew], 899-908 [DivByiNew] *)
Definition MultByiNew (r : Ring) (inverse : bool) (ct0 : Ct) : Ct := MultByi r inverse ct0 (NewCiphertext (rN r) 1 (ctLevel ct0) (ctScale ct0)).

(** ** Hoisted rotations *)

(** ckks/evaluator.go:1523-1553 [PermuteNTTHoisted], k <> 0: [dig] is the decomposition of c1 (C32), [p0], [p1], [p0P], [p1P] the
    pools.  eval.permuteNTTIndex[galEl] is PermuteNTTIndex(galEl) (198-207). *)
Definition PermuteNTTHoisted (rQ rP : Ring) (levelQ levelP : nat) (c0 : rows) (dig : list (rows * rows)) (key : swkey) (galEl : Z)
    (p0 p1 p0P p1P out0 out1 : rows) : option (rows * rows) :=
  match KeyswitchHoisted rQ rP levelQ levelP dig (fst key) (snd key) p0 p1 p0P p1P with
  | None => None
  | Some (p0, p1) =>
      let p0 := AddLvl rQ levelQ p0 c0 p0 in
      Some (PermuteNTTLvl rQ levelQ p0 galEl out0, PermuteNTTLvl rQ levelQ p1 galEl out1)
  end.
(** With k as the argument: 1525-1529 for k = 0, 1531-1535 for a missing key. *)
Definition RotateHoisted (rQ rP : Ring) (levelQ levelP : nat) (rtks : Z -> option swkey) (k : Z) (c0 c1 : rows) (dig : list (rows * rows))
    (p0 p1 p0P p1P out0 out1 : rows) : option (rows * rows) :=
  if k =? 0 then
    let copy p o := CopyValuesLvl (Nat.min (length p - 1) (length o - 1)) p o in Some (copy c0 out0, copy c1 out1)
  else
    let galEl := GaloisElementForColumnRotationBy rQ k in
    match rtks galEl with
    | None => None
    | Some key => PermuteNTTHoisted rQ rP levelQ levelP c0 dig key galEl p0 p1 p0P p1P out0 out1
    end.
