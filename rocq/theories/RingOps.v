(** Model of /repo/ring/ring_operations.go, /repo/ring/ring_vector_ops.go and of
    the per-polynomial transforms of /repo/ring/ring_ntt.go:24-96 and
    /repo/ring/ring_ntt_interface.go:36-125.

    A polynomial is the list of its rows ([Poly.Coeffs], ring_poly.go:24-28), one
    row of N words per modulus.  An operation "up to level l" rewrites rows
    0..l of the destination and leaves its other rows alone; in the model the
    new value of the destination is returned.  The 8-way unrolling of the vector
    loops is not modelled (all eight lanes perform the same statement).
    Operands with too few rows make the code panic; the model reads empty rows
    instead, and the theorems ask for enough rows. *)
From Verif Require Import Word ModRed Ring NTT.

(** ring/ring_poly.go:27-31: the field [Coeffs] of a [Poly]. *)
Definition rows := list (list Z).

(** Default value for list accesses (helper; never reached within the level). *)
Definition modp0 : modp := mkModp 0 (0, 0) 0 0 0 0 [] [] 0.
Definition rmod (r : Ring) (i : nat) : modp := nth i (rmods r) modp0.
Definition prow (p : rows) (i : nat) : list Z := nth i p [].

(** The loops [for i := 0; i < level+1; i++] of ring/ring_operations.go. *)
Definition lvl (cnt : nat) (f : nat -> list Z) (out : rows) : rows :=
  map f (seq 0 cnt) ++ skipn cnt out.

(** Loops over three slices of equal length (helper). *)
Definition map3 (f : Z -> Z -> Z -> Z) (x y z : list Z) : list Z :=
  map2 (fun p c => f (fst p) (snd p) c) (combine x y) z.

(** Row-wise application of a word operation with one, two or three operands
    (the third one being the previous content of the destination). *)
Definition op1 (r : Ring) (f : modp -> Z -> Z) (level : nat) (p1 p2 : rows) : rows :=
  lvl (S level) (fun i => map (f (rmod r i)) (prow p1 i)) p2.
Definition op2 (r : Ring) (f : modp -> Z -> Z -> Z) (level : nat) (p1 p2 p3 : rows) : rows :=
  lvl (S level) (fun i => map2 (f (rmod r i)) (prow p1 i) (prow p2 i)) p3.
Definition op3 (r : Ring) (f : modp -> Z -> Z -> Z -> Z) (level : nat) (p1 p2 p3 : rows) : rows :=
  lvl (S level) (fun i => map3 (f (rmod r i)) (prow p1 i) (prow p2 i) (prow p3 i)) p3.

(** ring/ring_operations.go:41-45 [AddLvl], ring/ring_vector_ops.go:24-39 [AddVec]; 55-59/42-57 [AddNoModLvl];
    67-71/60-75 [SubLvl]; 81-85/78-93 [SubNoModLvl]; 94-98/96-110 [NegLvl]. *)
Definition AddLvl r := op2 r (fun m x y => CRed (wadd x y) (mq m)).
Definition AddNoModLvl r := op2 r (fun m x y => wadd x y).
Definition SubLvl r := op2 r (fun m x y => CRed (wsub (wadd x (mq m)) y) (mq m)).
Definition SubNoModLvl r := op2 r (fun m x y => wsub (wadd x (mq m)) y).
Definition NegLvl r := op1 r (fun m x => wsub (mq m) x).

(** ring/ring_operations.go:107-111, ring/ring_vector_ops.go:113-127 [ReduceLvl]; 122-126/130-145
    [ReduceConstantLvl]; 134-139/148-163 [ModLvl]. *)
Definition ReduceLvl r := op1 r (fun m x => BRedAdd x (mq m) (mbred m)).
Definition ReduceConstantLvl r := op1 r (fun m x => BRedAddConstant x (mq m) (mbred m)).
Definition ModLvl r (k : Z) := op1 r (fun m x => BRedAdd x k (BRedParams k)).

(** ring/ring_operations.go:149-153, ring/ring_vector_ops.go:166-182 [MulCoeffsLvl]; 163-167/185-201
    [MulCoeffsAndAddLvl]; 177-181/204-220 [MulCoeffsAndAddNoModLvl]; 308-312/388-404 [MulCoeffsConstantLvl]. *)
Definition MulCoeffsLvl r := op2 r (fun m x y => BRed x y (mq m) (mbred m)).
Definition MulCoeffsAndAddLvl r := op3 r (fun m x y z => CRed (wadd z (BRed x y (mq m) (mbred m))) (mq m)).
Definition MulCoeffsAndAddNoModLvl r := op3 r (fun m x y z => wadd z (BRed x y (mq m) (mbred m))).
Definition MulCoeffsConstantLvl r := op2 r (fun m x y => BRedConstant x y (mq m) (mbred m)).

(** ring/ring_operations.go:191-195, ring/ring_vector_ops.go:223-238 [MulCoeffsMontgomeryLvl]; 205-209/241-257
    [MulCoeffsMontgomeryConstantLvl]; 213-217/369-385 [MulCoeffsMontgomeryConstantAndNegLvl]; 227-231/260-275
    [MulCoeffsMontgomeryAndAddLvl]; 241-245/278-293 [MulCoeffsMontgomeryAndAddNoModLvl]; 257-261/296-311
    [MulCoeffsMontgomeryConstantAndAddNoModLvl]; 271-275/314-329 [MulCoeffsMontgomeryAndSubLvl]; 285-289/332-347
    [MulCoeffsMontgomeryAndSubNoModLvl]; 294-298/350-366 [MulCoeffsMontgomeryConstantAndSubNoModLvl]. *)
Definition MulCoeffsMontgomeryLvl r := op2 r (fun m x y => MRed x y (mq m) (mqinv m)).
Definition MulCoeffsMontgomeryConstantLvl r := op2 r (fun m x y => MRedConstant x y (mq m) (mqinv m)).
Definition MulCoeffsMontgomeryConstantAndNegLvl r :=
  op2 r (fun m x y => wsub (wshl (mq m) 1) (MRedConstant x y (mq m) (mqinv m))).
Definition MulCoeffsMontgomeryAndAddLvl r :=
  op3 r (fun m x y z => CRed (wadd z (MRed x y (mq m) (mqinv m))) (mq m)).
Definition MulCoeffsMontgomeryAndAddNoModLvl r :=
  op3 r (fun m x y z => wadd z (MRed x y (mq m) (mqinv m))).
Definition MulCoeffsMontgomeryConstantAndAddNoModLvl r :=
  op3 r (fun m x y z => wadd z (MRedConstant x y (mq m) (mqinv m))).
Definition MulCoeffsMontgomeryAndSubLvl r :=
  op3 r (fun m x y z => CRed (wadd z (wsub (mq m) (MRed x y (mq m) (mqinv m)))) (mq m)).
Definition MulCoeffsMontgomeryAndSubNoModLvl r :=
  op3 r (fun m x y z => wadd z (wsub (mq m) (MRed x y (mq m) (mqinv m)))).
Definition MulCoeffsMontgomeryConstantAndSubNoModLvl r :=
  op3 r (fun m x y z => wadd z (wsub (wshl (mq m) 1) (MRedConstant x y (mq m) (mqinv m)))).

(** ring/ring_operations.go:320-324 [AddScalarLvl]: the vector call is
    [AddScalarVec(p1.Coeffs[i], p1.Coeffs[i], ...)], so the new value of the
    *source* is what is computed; the destination is returned unchanged.
    Result: (new p1, new p2).  332-337 [AddScalarBigintLvl], 345-349
    [SubScalarLvl], 357-362 [SubScalarBigintLvl] are alike.  The vector
    operations are ring/ring_vector_ops.go:426-440 and 478-493. *)
Definition AddScalarLvl r (level : nat) (p1 : rows) (scalar : Z) (p2 : rows) : rows * rows :=
  (op1 r (fun m x => CRed (wadd x scalar) (mq m)) level p1 p1, p2).
Definition AddScalarBigintLvl r (level : nat) (p1 : rows) (scalar : Z) (p2 : rows) : rows * rows :=
  (op1 r (fun m x => CRed (wadd x (scalar mod mq m)) (mq m)) level p1 p1, p2).
Definition SubScalarLvl r (level : nat) (p1 : rows) (scalar : Z) (p2 : rows) : rows * rows :=
  (op1 r (fun m x => CRed (wsub (wadd x (mq m)) scalar) (mq m)) level p1 p1, p2).
Definition SubScalarBigintLvl r (level : nat) (p1 : rows) (scalar : Z) (p2 : rows) : rows * rows :=
  (op1 r (fun m x => CRed (wsub (wadd x (mq m)) (scalar mod mq m)) (mq m)) level p1 p1, p2).

(** ring/ring_operations.go:370-374 [MulScalarLvl], 383-389 [MulScalarBigintLvl];
    ring/ring_vector_ops.go:496-511 [MulScalarMontgomeryVec]. *)
Definition MulScalarLvl r (scalar : Z) :=
  op1 r (fun m x => MRed x (MForm (BRedAdd scalar (mq m) (mbred m)) (mq m) (mbred m)) (mq m) (mqinv m)).
Definition MulScalarBigintLvl r (scalar : Z) :=
  op1 r (fun m x => MRed x (MForm (BRedAdd (scalar mod mq m) (mq m) (mbred m)) (mq m) (mbred m)) (mq m) (mqinv m)).

(** ring/ring_operations.go:405-409 [MFormLvl], 413-417 [MFormConstantLvl], 425-429 [InvMFormLvl];
    ring/ring_vector_ops.go:571-620. *)
Definition MFormLvl r := op1 r (fun m x => MForm x (mq m) (mbred m)).
Definition MFormConstantLvl r := op1 r (fun m x => MFormConstant x (mq m) (mbred m)).
Definition InvMFormLvl r := op1 r (fun m x => InvMForm x (mq m) (mqinv m)).

(** ring/ring_operations.go:444-449 [MulByPow2Lvl], ring/ring_vector_ops.go:623-638 [MulByPow2Vec]: the
    Montgomery form computed into p2 by the first statement is overwritten by
    a pass that reads p1 again. *)
Definition MulByPow2Lvl r (pow2 : Z) (level : nat) (p1 p2 : rows) : rows :=
  let p2 := MFormLvl r level p1 p2 in
  op1 r (fun m x => PowerOf2 x pow2 (mq m) (mqinv m)) level p1 p2.
(** The same call when p1 and p2 are the same polynomial. *)
Definition MulByPow2Lvl_inplace r (pow2 : Z) (level : nat) (p : rows) : rows :=
  let p := MFormLvl r level p p in
  op1 r (fun m x => PowerOf2 x pow2 (mq m) (mqinv m)) level p p.

(** ring/ring_operations.go:459-512 [MultByMonomial].  [monomialDeg % (r.N << 1)] is
    Go's truncated remainder ([Z.rem]); a negative shift makes the slice indices
    negative (panic) and is the [None] result.  All rows of the ring are processed. *)
Definition mono_row (q : Z) (N shift : nat) (x : list Z) : list Z :=
  if Nat.eqb shift 0 then x
  else
    let tmpx := if Nat.ltb shift N then x else map (fun c => wsub q c) x in
    let s := (shift mod N)%nat in
    map (fun c => wsub q c) (skipn (N - s) tmpx) ++ firstn (N - s) tmpx.
Definition MultByMonomial r (p1 : rows) (monomialDeg : Z) (p2 : rows) : option rows :=
  let shift := Z.rem monomialDeg (2 * Z.of_nat (rN r)) in
  if shift <? 0 then None
  else Some (lvl (length (rmods r))
              (fun i => mono_row (mq (rmod r i)) (rN r) (Z.to_nat shift) (prow p1 i)) p2).

(** ring/ring_operations.go:520-524 [MulByVectorMontgomeryLvl], 532-536 [MulByVectorMontgomeryAndAddNoModLvl]. *)
Definition MulByVectorMontgomeryLvl r (level : nat) (p1 : rows) (v : list Z) (p2 : rows) : rows :=
  lvl (S level) (fun i => map2 (fun x y => MRed x y (mq (rmod r i)) (mqinv (rmod r i))) (prow p1 i) v) p2.
Definition MulByVectorMontgomeryAndAddNoModLvl r (level : nat) (p1 : rows) (v : list Z) (p2 : rows) : rows :=
  lvl (S level) (fun i => map3 (fun x y z => wadd z (MRed x y (mq (rmod r i)) (mqinv (rmod r i)))) (prow p1 i) v (prow p2 i)) p2.

(** ring/ring_ntt.go:30-32, 44-46, 68-70, 82-84 and ring/ring_ntt_interface.go:49-101. *)
Definition NTTLvl r (level : nat) (p1 p2 : rows) : rows :=
  lvl (S level) (fun i => ntt_row (rN r) (rmod r i) (prow p1 i)) p2.
Definition NTTLazyLvl r (level : nat) (p1 p2 : rows) : rows :=
  lvl (S level) (fun i => nttlazy_row (rN r) (rmod r i) (prow p1 i)) p2.
Definition InvNTTLvl r (level : nat) (p1 p2 : rows) : rows :=
  lvl (S level) (fun i => invntt_row (rN r) (rmod r i) (prow p1 i)) p2.
Definition InvNTTLazyLvl r (level : nat) (p1 p2 : rows) : rows :=
  lvl (S level) (fun i => invnttlazy_row (rN r) (rmod r i) (prow p1 i)) p2.

(** ring/ring_operations.go:26-32 [minLevelTernary], [minLevelBinary]; the variants
    without "Lvl" call the leveled one with these. [Level] is ring/ring_poly.go's
    len(Coeffs)-1. *)
Definition Level (p : rows) : nat := length p - 1.
Definition minLevelTernary r (p1 p2 p3 : rows) : nat :=
  Nat.min (Nat.min (length (rmods r) - 1) (Level p1)) (Nat.min (Level p2) (Level p3)).
Definition minLevelBinary r (p1 p2 : rows) : nat :=
  Nat.min (Nat.min (length (rmods r) - 1) (Level p1)) (Level p2).
