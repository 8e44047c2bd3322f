(** Specification of the ring Z[X]/(X^N+1), independent of the code.

    A polynomial is its coefficient function [nat -> Z]; only the coefficients
    of index below [N] matter.  [peq N q a b] says that two polynomials are
    equal modulo [q]; with [q = 0] it is plain equality of coefficients. *)
From Verif Require Import Word Arith.

Definition poly := nat -> Z.

(** Sum of [f 0 + ... + f (n-1)]. *)
Fixpoint bigsum (n : nat) (f : nat -> Z) : Z :=
  match n with
  | O => 0
  | S n' => bigsum n' f + f n'
  end.

Definition padd (a b : poly) : poly := fun k => a k + b k.
Definition psub (a b : poly) : poly := fun k => a k - b k.
Definition popp (a : poly) : poly := fun k => - a k.
Definition pscale (c : Z) (a : poly) : poly := fun k => c * a k.
Definition pzero : poly := fun _ => 0.
Definition pone : poly := fun k => if Nat.eqb k 0 then 1 else 0.

(** The schoolbook negacyclic product: X^N = -1. *)
Definition pmul (N : nat) (a b : poly) : poly := fun k =>
  bigsum N (fun i => a i * (if Nat.leb i k then b (k - i)%nat else - b (N + k - i)%nat)).

(** The monomial X^m in Z[X]/(X^N+1): coefficient (-1)^(m/N) at m mod N. *)
Definition pmono (N m : nat) : poly := fun k =>
  if Nat.eqb k (m mod N) then (if Nat.even (m / N) then 1 else -1) else 0.

(** The ring automorphism a(X) |-> a(X^g) (for odd g). *)
Definition pauto (N g : nat) (a : poly) : poly := fun k =>
  bigsum N (fun i => a i * pmono N (g * i) k).

(** Value of the polynomial at a point. *)
Definition peval (N : nat) (a : poly) (r : Z) : Z :=
  bigsum N (fun k => a k * r ^ Z.of_nat k).

(** Equality of polynomials modulo q (coefficient-wise, below N). *)
Definition peq (N : nat) (q : Z) (a b : poly) : Prop :=
  forall k, (k < N)%nat -> eqm q (a k) (b k).

(** The polynomial whose coefficients are listed in a row. *)
Definition co (l : list Z) : poly := fun k => nth k l 0.

(** Infinity norm at most B. *)
Definition pbound (N : nat) (B : Z) (a : poly) : Prop :=
  forall k, (k < N)%nat -> Z.abs (a k) <= B.

(** Sum of a list-indexed family of polynomials. *)
Definition psum (n : nat) (F : nat -> poly) : poly := fun k => bigsum n (fun j => F j k).
