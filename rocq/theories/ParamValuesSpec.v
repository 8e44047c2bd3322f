(** What the values of parameters are. *)
From Verif Require Import Word.

(** x is written with exactly n bits. *)
Definition has_bits (x n : Z) : Prop := 2 ^ (n - 1) <= x < 2 ^ n.
