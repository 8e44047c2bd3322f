(** 64-bit machine words.  A Go [uint64] is modelled by a [Z]; every operation
    that can wrap around reduces modulo 2^64 explicitly.  Go's language
    specification (unsigned integers: arithmetic modulo 2^n) and the
    documentation of math/bits are the source; the functions below are the
    building blocks for all of /repo/ring. *)
From Coq Require Export ZArith List Bool Lia.
From Coq Require Export ZifyBool ZifyNat ZifyN.
Export ListNotations.
Open Scope Z_scope.

(** 2^64, the size of a machine word. *)
Definition W : Z := 18446744073709551616.

(** Reduction of a mathematical integer to a uint64 (Go: unsigned overflow wraps). *)
Definition w64 (x : Z) : Z := x mod W.

(** A value that fits a uint64. *)
Definition u64 (x : Z) : Prop := 0 <= x < W.

(** Go [x + y], [x - y], [x * y], [-x] on uint64. *)
Definition wadd (x y : Z) : Z := w64 (x + y).
Definition wsub (x y : Z) : Z := w64 (x - y).
Definition wmul (x y : Z) : Z := w64 (x * y).
Definition wneg (x : Z) : Z := w64 (- x).

(** math/bits: [hi, lo = Mul64(x, y)]. *)
Definition mul_hi (x y : Z) : Z := (x * y) / W.
Definition mul_lo (x y : Z) : Z := (x * y) mod W.

(** math/bits: [sum, carryOut = Add64(x, y, 0)]. *)
Definition add_lo (x y : Z) : Z := (x + y) mod W.
Definition add_carry (x y : Z) : Z := (x + y) / W.

(** Go [x << n] and [x >> n] on uint64 for a non-negative shift count
    (counts of 64 and more give 0, as the Go specification requires). *)
Definition wshl (x n : Z) : Z := w64 (x * 2 ^ n).
Definition wshr (x n : Z) : Z := x / 2 ^ n.

(** Go [if a >= q { a -= q }]. *)
Definition csub (a q : Z) : Z := if q <=? a then wsub a q else a.

(** Congruence modulo [q]. *)
Definition eqm (q a b : Z) : Prop := a mod q = b mod q.
