(** What the properties of the parameter sets say. *)
From Coq Require Import Znumtheory.
From Verif Require Import Word Ring Float64 Codec Params.

(** 64-bit words and Go integers. *)
Definition word (x : Z) : Prop := 0 <= x < 2 ^ 64.
Definition go_int (x : Z) : Prop := - 2 ^ 63 <= x < 2 ^ 63.

(** The binary format: three bytes (log N, number of moduli of Q and P), 8 bytes for H, 8 for sigma, one for the type of
    the ring, then the moduli; integers are written most significant byte first. *)
Definition params_bytes (logn : Z) (q p : list Z) (hh : Z) (sg : float64) (ty : Z) : bytes :=
  [logn; Z.of_nat (length q); Z.of_nat (length p)] ++ be_bytes 8 (hh mod 2 ^ 64) ++ be_bytes 8 (Float64bits sg) ++ [ty] ++
  flat_map (be_bytes 8) q ++ flat_map (be_bytes 8) p.

(** The moduli of one ring of degree N, with roots of unity of order M. *)
Definition good_moduli (M B : Z) (q : list Z) : Prop := NoDup q /\ forall x, In x q -> prime x /\ x mod M = 1 /\ 2 <= x < B.

(** a is a prefix of b. *)
Definition prefix {A} (a b : list A) : Prop := exists c, b = a ++ c.
