(** What the special transforms of Fft.v are meant to compute, over a commutative ring. *)
From Coq Require Import ZArith List.
Import ListNotations.
Local Open Scope nat_scope.

Section Ring.
  Context {T : Type}.
  Variables (r0 r1 : T) (radd rmul : T -> T -> T) (ropp : T -> T).

  (** x^n *)
  Fixpoint rpow (x : T) (n : nat) : T := match n with O => r1 | S m => rmul x (rpow x m) end.
  (** f 0 + ... + f (n-1) *)
  Fixpoint bsum (n : nat) (f : nat -> T) : T := match n with O => r0 | S m => radd (bsum m f) (f m) end.
  (** 1 + ... + 1, n times *)
  Fixpoint of_nat (n : nat) : T := match n with O => r0 | S m => radd r1 (of_nat m) end.
  (** The polynomial a[0] + a[1] X + ... + a[n-1] X^(n-1) at x. *)
  Definition eval_poly (n : nat) (a : list T) (x : T) : T := bsum n (fun t => rmul (nth t a r0) (rpow x t)).

  (** A table of the powers of a primitive root zeta of order M. *)
  Definition root_table (zeta : T) (M : nat) (roots : list T) : Prop :=
    (forall i, i <= M -> nth i roots r0 = rpow zeta i) /\ rpow zeta (Nat.div2 M) = ropp r1.
End Ring.
