(** What the properties of the Gaussian sampler say. *)
From Flocq Require Import IEEE754.BinarySingleNaN.
From Verif Require Import Word Ring RingOps Float64 Codec Sampler Gauss.

(** A stream of bytes; a conversion that yields a word. *)
Definition byte_stream (s : stream) : Prop := forall j, 0 <= s j < 256.
Definition word_valued (other : float64 -> Z) : Prop := forall x, u64 (other x).
(** The states of a sampler: a buffer of 1024 bytes, read up to a multiple of 8. *)
Definition gauss_state (st : gauss) : Prop :=
  length (gbuf st) = 1024%nat /\ Forall (fun b => 0 <= b < 256) (gbuf st) /\ exists k, (k <= 128)%nat /\ gptr st = (8 * k)%nat.
(** Rows 0..level of pol' are given entrywise from the rows of pol; the others are kept. *)
Definition mapped_rows (r : Ring) (level : nat) (f : Z -> nat -> Z -> Z) (pol pol' : rows) : Prop :=
  length pol' = length pol /\ (forall k, (level < k)%nat -> nth k pol' [] = nth k pol []) /\
  forall k, (k <= level)%nat -> nth k pol' [] = map (fun i => f (mq (rmod r k)) i (nth i (nth k pol []) 0)) (seq 0 (rN r)).
(** The stream with the top bit of every 8-byte word flipped. *)
Definition flipped (s : stream) : stream := fun j => if Nat.eqb (j mod 8) 0 then (s j + 128) mod 256 else s j.
