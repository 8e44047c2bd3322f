(** The float64 operations used by the code, from Flocq's binary64 (round to
    nearest, ties to even, as in the Go specification / IEEE 754). *)
From Coq Require Import ZArith.
From Flocq Require Import Core.Core IEEE754.BinarySingleNaN.
Open Scope Z_scope.

(** The format of float64: 53 bits of precision, exponents up to 1024. *)
Definition prec64 : Z := 53.
Definition emax64 : Z := 1024.
Global Instance prec64_gt_0 : Prec_gt_0 prec64.
Proof. reflexivity. Qed.
Global Instance prec64_lt_emax : Prec_lt_emax prec64 emax64.
Proof. reflexivity. Qed.

(** Go float64. *)
Definition float64 : Type := binary_float prec64 emax64.

(** Go [float64(x)] of an integer. *)
Definition f64_of_Z (x : Z) : float64 := binary_normalize prec64 emax64 _ _ mode_NE x 0 false.
(** Go [x + y], [x / y], [x * y]. *)
Definition f64_add (x y : float64) : float64 := Bplus mode_NE x y.
Definition f64_div (x y : float64) : float64 := Bdiv mode_NE x y.
Definition f64_mul (x y : float64) : float64 := Bmult mode_NE x y.
(** Go [uint64(x)], [int(x)]: truncation towards zero (for values in the range of
    the target type; other values are implementation-specific in Go). *)
Definition f64_trunc (x : float64) : Z := Btrunc x.
