(** Vocabulary for the properties of the encoder. *)
From Coq Require Import ZArith Reals.
From Flocq Require IEEE754.BinarySingleNaN.
From Coquelicot Require Import Complex.
From Verif Require Import Float64 Word PolySpec Ring RingOps RNSSpec Encoder SlotSpec.
Open Scope Z_scope.

(** The polynomial p(X^gap). *)
Definition inflate (gap : nat) (p : poly) : poly := fun k => if Nat.eqb (k mod gap) 0 then p (k / gap)%nat else 0.

(** The first n words of the rows 0..level, below [B q_i], represent p; the rows have N words. *)
Definition prefix_repr (r : Ring) (n level : nat) (B : Z -> Z) (rs : rows) (p : poly) : Prop :=
  (level < length (rmods r))%nat /\ (level < length rs)%nat /\ forall i, (i <= level)%nat -> length (nth i rs []) = rN r /\
  row_repr n (mq (rmod r i)) (B (mq (rmod r i))) (firstn n (nth i rs [])) p.

Notation fval := BinarySingleNaN.B2R.
Notation ffinite x := (BinarySingleNaN.is_finite x = true).
(** A value that can be encoded at a scale: its product with the scale is at most 2^1000 and is not within 2^12 of 2^64 (where the code
    converts 2^64 to uint64, which Go leaves open). *)
Definition encodable (x scale : float64) : Prop :=
  ffinite x /\ let v := Rabs (fval x * fval scale) in
  (v <= IZR (2 ^ 1000) /\ (v < IZR (2 ^ 64 - 2 ^ 12) \/ IZR (2 ^ 64 + 2 ^ 12) < v))%R.
(** x is a over the scale, up to the accuracy of float64. *)
Definition near_quotient (a : Z) (scale x : float64) : Prop :=
  ffinite x /\ let v := (IZR a / fval scale)%R in (Rabs (fval x - v) <= Rabs v * / 2 ^ 51 + / IZR (2 ^ 1000))%R.
(** An integer that can be decoded at a scale, from a modulus Q. *)
Definition decodable (Q a : Z) (scale : float64) : Prop :=
  - Q < 2 * a < Q - 1 /\ (Rabs (IZR a) <= IZR (2 ^ 1000) /\ Rabs (IZR a / fval scale) <= IZR (2 ^ 1000))%R.
(** A scale: a number, not negative. *)
Definition scale_ok (s : float64) : Prop := ffinite s /\ (0 < fval s)%R.
(** A plaintext of a level: its rows have N words. *)
Definition pt_shape (r : Ring) (level : nat) (pt : Pt) : Prop :=
  (level < length (rmods r))%nat /\ length (ptV pt) = S level /\ forall i, (i <= level)%nat -> length (nth i (ptV pt) []) = rN r.
(** The encoder's polynomial buffer: a row for every modulus. *)
Definition pool_shape (r : Ring) (pool : rows) : Prop := length pool = length (rmods r).
(** A value that survives encoding at a scale and decoding from a modulus Q: the scaled value takes at most a quarter of Q. *)
Definition recoverable (Q : Z) (x scale : float64) : Prop :=
  (4 * (Rabs (fval x * fval scale) + 1) <= IZR Q /\ Rabs (fval x * fval scale) <= IZR (2 ^ 999) /\ Rabs (fval x) <= IZR (2 ^ 999))%R.
(** The complex number that a complex128 is. *)
Definition cnum (z : complex128) : C := (fval (fst z), fval (snd z)).
Definition cfinite (z : complex128) : Prop := ffinite (fst z) /\ ffinite (snd z).
(** A table of the M-th roots of unity, each with an error of at most delta. *)
Definition roots_near (M : nat) (delta : R) (roots : list complex128) : Prop :=
  (0 <= delta <= / 4)%R /\ forall i, (i <= M)%nat -> cfinite (nth i roots c_zero) /\ (Cmod (cnum (nth i roots c_zero) - nth i (exact_roots M) (RtoC 0))%C <= delta)%R.
(** What n rounds of relative error delta + 2^-49 can add to 1. *)
Definition growth (delta : R) (n : nat) : R := ((1 + (delta + / 2 ^ 49)) ^ n - 1)%R.
(** Values that can be put into 2^L slots: numbers of modulus at most A. *)
Definition values_ok (L : nat) (A : R) (vals : list complex128) : Prop :=
  (length vals <= 2 ^ L)%nat /\ (forall z, In z vals -> cfinite z /\ Cmod (cnum z) <= A)%R /\ (1 <= A /\ 2 ^ L * A <= IZR (2 ^ 900))%R.
(** The value of slot k: 0 beyond the end. *)
Definition value_at (vals : list complex128) (k : nat) : C := cnum (nth k vals c_zero).
(** The buffers of an encoder for a ring of degree N = 2^(m+1). *)
Definition encoder_shape (m L : nat) (r : Ring) (delta : R) (roots buf : list complex128) : Prop :=
  rN r = (2 ^ (m + 1))%nat /\ (L <= m)%nat /\ length buf = (2 ^ m)%nat /\ roots_near (2 ^ (m + 2)) delta roots.
