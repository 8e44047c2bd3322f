(** What the properties of the prime generators say. *)
From Coq Require Export Znumtheory Sorted.
From Verif Require Import Word.

(** l consists of the n first members of P in the given order. *)
Definition first_of (P : Z -> Prop) (before : Z -> Z -> Prop) (n : Z) (l : list Z) : Prop :=
  1 <= n /\ Z.of_nat (length l) = n /\ Forall P l /\ StronglySorted before l /\ forall c d, In c l -> P d -> ~ In d l -> before c d.
(** c is nearer to x than d; at equal distance the greater is first. *)
Definition nearer (x c d : Z) : Prop := Z.abs (c - x) < Z.abs (d - x) \/ (Z.abs (c - x) = Z.abs (d - x) /\ d < c).
Definition above (c d : Z) : Prop := d < c.
(** The primes of the residue class of x modulo R, x itself excluded, that fit a word. *)
Definition class_prime (x R c : Z) : Prop := 0 <= c < W /\ c <> x /\ (R | c - x) /\ prime c.
(** The primes of that class below x. *)
Definition lower_prime (x R c : Z) : Prop := 0 < c < x /\ (R | c - x) /\ prime c.
(** The next and the previous prime of the class of q. *)
Definition follows (q R p : Z) : Prop := prime p /\ q < p /\ (R | p - q) /\ forall c, q < c < p -> (R | c - q) -> ~ prime c.
Definition precedes (q R p : Z) : Prop := prime p /\ p < q /\ (R | q - p) /\ forall c, p < c < q -> (R | q - c) -> ~ prime c.
(** The primes chosen for size s and root order R. *)
Definition chosen (s R n : Z) (l : list Z) : Prop :=
  if s =? 61 then first_of (lower_prime (2 ^ 61 + 1) R) above n l else first_of (class_prime (2 ^ s + 1) R) (nearer (2 ^ s + 1)) n l.
(** The entries of l at the places where the list of sizes has s. *)
Definition entries (s : Z) (sizes l : list Z) : list Z := map snd (filter (fun e => fst e =? s) (combine sizes l)).
Definition valid_sizes (logn : Z) (logQ logP : list Z) : Prop :=
  4 <= logn <= 17 /\ (length logQ <= 100)%nat /\ (length logP <= 100)%nat /\ Forall (fun s => 1 <= s <= 60) logQ /\ Forall (fun s => 1 <= s <= 61) logP.
