(** Model of /repo/ring/modular_reduction.go and of the exponentiation part of
    /repo/ring/utils.go.  One definition per Go function, same names. *)
From Verif Require Import Word.

(** ring/modular_reduction.go:97-105 [BRedParams]: the two words of floor(2^128/q).
    math/big values are modelled by [Z]; [Uint64()] takes the low 64 bits. *)
Definition BRedParams (q : Z) : Z * Z :=
  let bigR := (W * W) / q in
  (w64 (bigR / W), w64 bigR).

(** ring/modular_reduction.go:66-73 [MRedParams]: 63 rounds of
    [qInv *= q; q *= q] starting from 1. *)
Fixpoint MRedParams_loop (n : nat) (qInv q : Z) : Z :=
  match n with
  | O => qInv
  | S n' => MRedParams_loop n' (wmul qInv q) (wmul q q)
  end.
Definition MRedParams (q : Z) : Z := MRedParams_loop 63 1 q.

(** ring/modular_reduction.go:38-42 [MFormConstant]. *)
Definition MFormConstant (a q : Z) (u : Z * Z) : Z :=
  let mhi := mul_hi a (snd u) in
  wmul (wneg (wadd (wmul a (fst u)) mhi)) q.

(** ring/modular_reduction.go:26-33 [MForm]. *)
Definition MForm (a q : Z) (u : Z * Z) : Z :=
  csub (MFormConstant a q u) q.

(** ring/modular_reduction.go:58-62 [InvMFormConstant]. *)
Definition InvMFormConstant (a q qInv : Z) : Z :=
  wsub q (mul_hi (wmul a qInv) q).

(** ring/modular_reduction.go:46-53 [InvMForm]. *)
Definition InvMForm (a q qInv : Z) : Z :=
  csub (InvMFormConstant a q qInv) q.

(** ring/modular_reduction.go:88-93 [MRedConstant]. *)
Definition MRedConstant (x y q qInv : Z) : Z :=
  let ahi := mul_hi x y in
  let alo := mul_lo x y in
  let H := mul_hi (wmul alo qInv) q in
  wadd (wsub ahi H) q.

(** ring/modular_reduction.go:76-84 [MRed]. *)
Definition MRed (x y q qInv : Z) : Z := csub (MRedConstant x y q qInv) q.

(** ring/modular_reduction.go:119-122 [BRedAddConstant]. *)
Definition BRedAddConstant (x q : Z) (u : Z * Z) : Z :=
  wsub x (wmul (mul_hi x (fst u)) q).

(** ring/modular_reduction.go:108-115 [BRedAdd]. *)
Definition BRedAdd (a q : Z) (u : Z * Z) : Z :=
  csub (BRedAddConstant a q u) q.

(** ring/modular_reduction.go:164-195 [BRedConstant]: the carry chain is transcribed
    statement by statement. *)
Definition BRedConstant (x y q : Z) (u : Z * Z) : Z :=
  let mhi := mul_hi x y in
  let mlo := mul_lo x y in
  let r := wmul mhi (fst u) in
  let hhi := mul_hi mlo (fst u) in
  let hlo := mul_lo mlo (fst u) in
  let r := wadd r hhi in
  let lhi := mul_hi mlo (snd u) in
  let s0 := add_lo hlo lhi in
  let carry := add_carry hlo lhi in
  let r := wadd r carry in
  let hhi := mul_hi mhi (snd u) in
  let hlo := mul_lo mhi (snd u) in
  let r := wadd r hhi in
  let carry := add_carry hlo s0 in
  let r := wadd r carry in
  wsub mlo (wmul r q).

(** ring/modular_reduction.go:125-160 [BRed]. *)
Definition BRed (x y q : Z) (u : Z * Z) : Z := csub (BRedConstant x y q u) q.

(** ring/modular_reduction.go:198-203 [CRed]. *)
Definition CRed (a q : Z) : Z := csub a q.

(** ring/utils.go:33-42 [PowerOf2], for 0 <= n <= 64. *)
Definition PowerOf2 (x n q qInv : Z) : Z :=
  let ahi := wshr x (64 - n) in
  let alo := wshl x n in
  let R := wmul alo qInv in
  let H := mul_hi R q in
  csub (wadd (wsub ahi H) q) q.

(** ring/utils.go:46-56 [ModExp].  The loop [for i := e; i > 0; i >>= 1] consumes the
    bits of the exponent, least significant first, and is modelled by recursion
    on the binary representation of [e]. *)
Fixpoint ModExp_loop (result x p : Z) (params : Z * Z) (e : positive) : Z :=
  match e with
  | xH => BRed result x p params
  | xO e' => ModExp_loop result (BRed x x p params) p params e'
  | xI e' => ModExp_loop (BRed result x p params) (BRed x x p params) p params e'
  end.
Definition ModExp (x e p : Z) : Z :=
  match e with
  | Zpos e' => ModExp_loop 1 x p (BRedParams p) e'
  | _ => 1
  end.

(** ring/utils.go:60-71 [ModexpMontgomery]; a Go [int] exponent that is not positive
    leaves the loop immediately. *)
Fixpoint ModexpMontgomery_loop (result x q qInv : Z) (e : positive) : Z :=
  match e with
  | xH => MRed result x q qInv
  | xO e' => ModexpMontgomery_loop result (MRed x x q qInv) q qInv e'
  | xI e' => ModexpMontgomery_loop (MRed result x q qInv) (MRed x x q qInv) q qInv e'
  end.
Definition ModexpMontgomery (x e q qInv : Z) (bredParams : Z * Z) : Z :=
  match e with
  | Zpos e' => ModexpMontgomery_loop (MForm 1 q bredParams) x q qInv e'
  | _ => MForm 1 q bredParams
  end.

(** ring/utils.go:24-30 [Min]. *)
Definition Min (x y : Z) : Z := if y <? x then y else x.
