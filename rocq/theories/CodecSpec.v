(** The formats of the serialized objects, and what it takes for an object to fit them. *)
From Verif Require Import Word Ring NTT RingOps Float64 Codec.

(** The w bytes of an integer below 256^w, most significant first, are the digits of its expansion in base 256:
    [be_bytes] of Codec.v (see C20_integers). *)

(** A polynomial that fits the format: 1 to 255 rows of 2^k words, k at most 62, words of w bytes. *)
Definition fits_poly (w : nat) (p : Poly) : Prop :=
  (1 <= length (pCoeffs p) <= 255)%nat /\
  exists k, (k <= 62)%nat /\ Forall (fun r => length r = (2 ^ k)%nat /\ Forall (fun x => 0 <= x < 256 ^ Z.of_nat w) r) (pCoeffs p).
Definition flag (b : bool) : Z := if b then 1 else 0.
(** Four bytes (the logarithm of the degree, the number of rows, the two flags), then the words row by row. *)
Definition poly_bytes (w : nat) (p : Poly) : bytes :=
  [Z.log2 (Z.of_nat (length (nth 0 (pCoeffs p) []))); Z.of_nat (length (pCoeffs p)); flag (pNTT p); flag (pMForm p)] ++
  flat_map (be_bytes w) (concat (pCoeffs p)).

(** A pair of polynomials: two marks, then the polynomials that are present. *)
Definition opt {A B} (f : A -> list B) (x : option A) : list B := match x with Some a => f a | None => [] end.
Definition mark {A} (x : option A) : Z := match x with Some _ => 1 | None => 0 end.
Definition qp_bytes (p : PolyQP) : bytes := [mark (qpQ p); mark (qpP p)] ++ opt (poly_bytes 8) (qpQ p) ++ opt (poly_bytes 8) (qpP p).
Definition fits_opt (x : option Poly) : Prop := match x with Some p => fits_poly 8 p | None => True end.
Definition fits_qp (p : PolyQP) : Prop := fits_opt (qpQ p) /\ fits_opt (qpP p).

(** A ciphertext: the number of polynomials, then the polynomials. *)
Definition ct_bytes (v : list Poly) : bytes := Z.of_nat (length v) :: flat_map (poly_bytes 8) v.
Definition fits_ct (v : list Poly) : Prop := (1 <= length v <= 255)%nat /\ Forall (fits_poly 8) v.

(** A switching key: the number of pairs, then the pairs. *)
Definition swk_bytes (k : swk) : bytes := Z.of_nat (length k) :: flat_map (fun v => qp_bytes (fst v) ++ qp_bytes (snd v)) k.
(** The keys of schemes with special primes: all polynomials are present. *)
Definition full_qp (p : PolyQP) : Prop := exists q r, p = mkQP (Some q) (Some r) /\ fits_poly 8 q /\ fits_poly 8 r.
Definition fits_swk (k : swk) : Prop := (length k <= 255)%nat /\ Forall (fun v => full_qp (fst v) /\ full_qp (snd v)) k.

Definition rlk_bytes (ks : list swk) : bytes := Z.of_nat (length ks) :: flat_map swk_bytes ks.
Definition rtk_bytes (ks : list (Z * swk)) : bytes := flat_map (fun e => be_bytes 4 (fst e) ++ swk_bytes (snd e)) ks.
(** The entries of a map of rotation keys: distinct Galois elements below 2^32. *)
Definition fits_rtk (ks : list (Z * swk)) : Prop := NoDup (map fst ks) /\ Forall (fun e => 0 <= fst e < 2 ^ 32 /\ fits_swk (snd e)) ks.

Definition is_byte (b : Z) : Prop := 0 <= b < 256.
