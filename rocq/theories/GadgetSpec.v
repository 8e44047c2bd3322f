(** Switching keys and what switching a key must do, independently of the code. *)
From Verif Require Import Word Arith PolySpec.

Definition product (l : list Z) : Z := fold_right Z.mul 1 l.

(** A switching key from s' to s: for each digit i a pair (b0_i, b1_i) with
    b0_i + b1_i*s = e_i                    modulo the special moduli,
    b0_i + b1_i*s = e_i + P*s'             modulo the alpha moduli of block i of Q,
    b0_i + b1_i*s = e_i                    modulo the other moduli of Q,
    where P is the product of the special moduli. *)
Definition gadget_key (n alpha nb : nat) (Qs Ps : list Z) (b0 b1 e : nat -> poly) (s s' : poly) : Prop :=
  forall i, (i < nb)%nat ->
  (forall q, In q Ps -> peq n q (padd (b0 i) (pmul n (b1 i) s)) (e i)) /\
  (forall j, (j < length Qs)%nat ->
     peq n (nth j Qs 0) (padd (b0 i) (pmul n (b1 i) s)) (padd (e i) (if Nat.eqb (j / alpha) i then pscale (product Ps) s' else pzero))).

(** (c0, c1) re-encrypts A under s: c0 + c1*s = A*s' + E modulo the moduli 0..levelQ of Q, where the
    error satisfies P*E = sum_i d_i*e_i - rho0 - rho1*s exactly; the d_i are the digits of A and rho0, rho1
    the remainders of the division by P, which lie in [0,P) up to 2^-42 P. *)
Definition switched (n nb levelQ : nat) (Qs Ps : list Z) (c0 c1 A s s' : poly) (d e : nat -> poly) (rho0 rho1 E : poly) : Prop :=
  (forall j, (j <= levelQ)%nat -> peq n (nth j Qs 0) (padd c0 (pmul n c1 s)) (padd (pmul n A s') E)) /\
  (forall k, (k < n)%nat ->
     product Ps * E k = psum nb (fun i => pmul n (d i) (e i)) k - rho0 k - pmul n rho1 s k /\
     - product Ps < 2 ^ 42 * rho0 k /\ 2 ^ 42 * (rho0 k - product Ps) < product Ps /\
     - product Ps < 2 ^ 42 * rho1 k /\ 2 ^ 42 * (rho1 k - product Ps) < product Ps).
