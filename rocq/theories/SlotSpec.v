(** The slots of an integer polynomial: what a ckks plaintext means. *)
From Coq Require Import Reals ZArith List.
From Coquelicot Require Import Complex.
From Verif Require Import PolySpec FftSpec.
Import ListNotations.
Local Open Scope R_scope.

(** exp(i x) *)
Definition cis (x : R) : C := (cos x, sin x).

(** f 0 + ... + f (n-1) *)
Definition csum (n : nat) (f : nat -> C) : C := bsum (RtoC 0) Cplus n f.

(** Slot k of an integer polynomial modulo X^N + 1: its value at exp(i pi 5^k / N). *)
Definition slot (N : nat) (p : poly) (k : nat) : C :=
  csum N (fun i => Cmult (RtoC (IZR (p i))) (cis (PI * INR (5 ^ k * i) / INR N))).

(** The table of the M-th roots of unity, exp(2 i pi j / M) for j = 0, ..., M. *)
Definition exact_roots (M : nat) : list C := map (fun j => cis (2 * PI * INR j / INR M)) (seq 0 (S M)).

(** A polynomial in X^gap. *)
Definition sparse (N gap : nat) (p : poly) : Prop := forall i, (i < N)%nat -> (i mod gap <> 0)%nat -> p i = 0%Z.

(** The part of a polynomial in X^gap. *)
Definition in_gap (gap : nat) (p : poly) : poly := fun i => if Nat.eqb (i mod gap) 0 then p i else 0%Z.

(** The complex vector that holds a polynomial modulo X^N+1 in X^gap, gap = N/(2n): its lower half in the real parts, its upper half
    in the imaginary parts (ckks/encoder.go:396-420 and 424-466, utils.go:120-133). *)
Definition packed (N n : nat) (p : poly) : list C :=
  map (fun i => (IZR (p (i * (N / (2 * n)))%nat), IZR (p (N / 2 + i * (N / (2 * n)))%nat))) (seq 0 n).
