(** What division by the last moduli means. *)
From Verif Require Import Word Ring RingOps.

(** The integer nearest to a/q: the floor of a/q + 1/2. *)
Definition nearest (q a : Z) : Z := (2 * a + q) / (2 * q).

(** The last n moduli at a level, the last one first. *)
Definition last_moduli (r : Ring) (level n : nat) : list Z := map (fun i => mq (rmod r (level - i))) (seq 0 n).

(** Dividing by each of a list of moduli in turn, rounding every time. *)
Definition rounds (qs : list Z) (a : Z) : Z := fold_left (fun a q => nearest q a) qs a.
