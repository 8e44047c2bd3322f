(** Model of the construction of a ring: /repo/ring/ring.go, the number-theoretic
    helpers of /repo/ring/utils.go and /repo/ring/primes.go, and the bit helpers
    of /repo/utils/utils.go. *)
From Verif Require Import Word ModRed SmallPrimes.

(** math/bits [Len64]: the number of bits of x. *)
Definition Len64 (x : Z) : Z := if x =? 0 then 0 else Z.log2 x + 1.

(** The n lowest bits of x, in reverse order. *)
Fixpoint rev_bits (n : nat) (x : Z) : Z :=
  match n with
  | O => 0
  | S n' => (x mod 2) * 2 ^ Z.of_nat n' + rev_bits n' (x / 2)
  end.

(** math/bits [Reverse64]. *)
Definition Reverse64 (x : Z) : Z := rev_bits 64 x.

(** utils/utils.go:141-143 [BitReverse64]. *)
Definition BitReverse64 (index bitLen : Z) : Z := wshr (Reverse64 index) (64 - bitLen).

(** utils/utils.go:154-163 [AllDistinct]. The map of seen values is a list. *)
Fixpoint AllDistinct_loop (seen s : list Z) : bool :=
  match s with
  | [] => true
  | si :: s' => if existsb (Z.eqb si) seen then false else AllDistinct_loop (si :: seen) s'
  end.
Definition AllDistinct (s : list Z) : bool := AllDistinct_loop [] s.

(** ring/primes.go:25-27 [IsPrime].  [big.Int.ProbablyPrime(0)] is Baillie-PSW,
    documented exact below 2^64; simplification: modelled by trial division,
    i.e. by exact primality. *)
Fixpoint trial (fuel : nat) (d q : Z) : bool :=
  match fuel with
  | O => true
  | S f => if q <? d * d then true else if q mod d =? 0 then false else trial f (d + 1) q
  end.
Definition IsPrime (q : Z) : bool := (2 <=? q) && trial (Z.to_nat (Z.sqrt q)) 2 q.

(** ring/utils.go:74-82 [gcd]; on positive inputs the loop computes the greatest
    common divisor (Euclid); simplification: the loop is Coq's [Z.gcd]. *)
Definition gcd (a b : Z) : Z := if (a =? 0) || (b =? 0) then 0 else Z.gcd a b.

(** ring/utils.go:110-115 [polynomialPollardsRho]. *)
Definition polynomialPollardsRho (x1 x2 c : Z) : Z := (wadd (ModExp x1 2 x2) c) mod x2.

(** ring/utils.go:119-147 [factorizationPollardsRho].  Inner loop with fuel;
    [None] is out of fuel, [Some d] the value of d when the loop is left. *)
Fixpoint rho_walk (fuel : nat) (x y m c : Z) : option Z :=
  match fuel with
  | O => None
  | S f =>
      let x := polynomialPollardsRho x m c in
      let y := polynomialPollardsRho (polynomialPollardsRho y m c) m c in
      let '(x, y) := if x <? y then (y, x) else (x, y) in
      let d := gcd (wsub x y) m in
      if 1 <? d then Some d
      else if d =? 0 then Some 0
      else rho_walk f x y m c
  end.
Fixpoint rho_retry (fuel : nat) (tries : nat) (c m : Z) : option Z :=
  match tries with
  | O => Some 0
  | S t =>
      match rho_walk fuel 2 2 m c with
      | None => None
      | Some d => if 1 <? d then Some d else rho_retry fuel t (c + 1) m
      end
  end.
Definition factorizationPollardsRho (fuel : nat) (m : Z) : option Z := rho_retry fuel 9 1 m.

(** ring/utils.go:150-185 [getFactors]. *)
Fixpoint divide_out (fuel : nat) (m p : Z) : Z :=
  match fuel with
  | O => m
  | S f => if m mod p =? 0 then divide_out f (m / p) p else m
  end.
Fixpoint small_factors (ps : list Z) (m : Z) (factors : list Z) : Z * list Z :=
  match ps with
  | [] => (m, factors)
  | p :: ps' =>
      if m mod p =? 0 then small_factors ps' (divide_out 64 m p) (factors ++ [p])
      else small_factors ps' m factors
  end.
Fixpoint large_factors (fuel : nat) (m : Z) (factors : list Z) : option (list Z) :=
  match fuel with
  | O => None
  | S f =>
      match factorizationPollardsRho fuel m with
      | None => None
      | Some factor =>
          if factor =? 0 then Some (factors ++ [m])
          else
            let m := m / factor in
            if negb (Nat.eqb (length factors) 0) && (factor =? last factors 0)
            then large_factors f m factors
            else large_factors f m (factors ++ [factor])
      end
  end.
Definition getFactors (fuel : nat) (n : Z) : option (list Z) :=
  let '(m, factors) := small_factors smallPrimes n [] in
  if m =? 1 then Some factors else large_factors fuel m factors.

(** ring/utils.go:85-107 [primitiveRoot].  The inner loop over the factors ends
    with [notFoundPrimitiveRoot = false] exactly when there is at least one
    factor and no factor f has g^((q-1)/f) = 1. *)
Definition root_ok (q g : Z) (factors : list Z) : bool :=
  negb (Nat.eqb (length factors) 0)
  && forallb (fun f => negb (ModExp g ((q - 1) / f) q =? 1)) factors.
Fixpoint primitiveRoot_loop (fuel : nat) (q g : Z) (factors : list Z) : option Z :=
  match fuel with
  | O => None
  | S f =>
      let g := wadd g 1 in
      if root_ok q g factors then Some g else primitiveRoot_loop f q g factors
  end.
Definition primitiveRoot (fuel : nat) (q : Z) : option Z :=
  match getFactors fuel (q - 1) with
  | None => None
  | Some factors => primitiveRoot_loop fuel q 2 factors
  end.

(** Go [l[i] = v]. *)
Fixpoint upd {A} (l : list A) (i : nat) (v : A) : list A :=
  match l, i with
  | [], _ => []
  | _ :: l', O => v :: l'
  | x :: l', S i' => x :: upd l' i' v
  end.

(** The fields of ring/ring.go:78-110 [Ring] that belong to one modulus:
    Modulus, BredParams, MredParams, Mask, PsiMont, PsiInvMont, NttPsi,
    NttPsiInv, NttNInv. *)
Record modp := mkModp {
  mq : Z; mbred : Z * Z; mqinv : Z; mmask : Z;
  mpsiMont : Z; mpsiInvMont : Z; mpsi : list Z; mpsiInv : list Z; mninv : Z }.

(** ring/ring.go:330-338 (inside genNTTParams): the table of the powers of the
    root, in bit-reversed order. *)
Definition ntt_table (half : nat) (logNthRoot q qInv : Z) (bred : Z * Z) (root : Z) : list Z :=
  fold_left (fun tbl j =>
      let prev := Z.to_nat (BitReverse64 (Z.of_nat j - 1) logNthRoot) in
      let next := Z.to_nat (BitReverse64 (Z.of_nat j) logNthRoot) in
      upd tbl next (MRed (nth prev tbl 0) root q qInv))
    (seq 1 (half - 1))
    (upd (repeat 0 half) 0 (MForm 1 q bred)).

(** ring/ring.go:221-250 (setParameters) and 295-339 (genNTTParams), for one modulus. *)
Definition gen_modp (fuel : nat) (NthRoot qi : Z) : option modp :=
  let bred := BRedParams qi in
  let qInv := MRedParams qi in
  let logNthRoot := Len64 (wshr NthRoot 1) - 1 in
  let half := Z.to_nat (wshr NthRoot 1) in
  match primitiveRoot fuel qi with
  | None => None
  | Some g =>
      let power := (qi - 1) / NthRoot in
      let powerInv := (qi - 1) - power in
      let PsiMont := MForm (ModExp g power qi) qi bred in
      let PsiInvMont := MForm (ModExp g powerInv qi) qi bred in
      Some (mkModp qi bred qInv (wsub (wshl 1 (Len64 qi)) 1) PsiMont PsiInvMont
              (ntt_table half logNthRoot qi qInv bred PsiMont)
              (ntt_table half logNthRoot qi qInv bred PsiInvMont)
              (MForm (ModExp (wshr NthRoot 1) (qi - 2) qi) qi bred))
  end.

(** ring/ring.go:283-293 [RescaleParams]: entry j-1 holds, for each i < j,
    MForm(q_i - q_j^(q_i-2) mod q_i). *)
Definition rescale_params (moduli : list Z) : list (list Z) :=
  map (fun j =>
         map (fun qi => MForm (qi - ModExp (nth j moduli 0) (qi - 2) qi) qi (BRedParams qi))
             (firstn j moduli))
      (seq 1 (length moduli - 1)).

(** ring/ring.go:78-110 [Ring]. *)
Record Ring := mkRing {
  rN : nat; rNthRoot : Z; rmods : list modp; rbigQ : Z; rrescale : list (list Z) }.

(** ring/ring.go:78-108: the field [Modulus] of a ring. *)
Definition moduli (r : Ring) : list Z := map mq (rmods r).

(** All the results, if none of them is an error (helper). *)
Fixpoint sequence {A} (l : list (option A)) : option (list A) :=
  match l with
  | [] => Some []
  | None :: _ => None
  | Some x :: l' => match sequence l' with None => None | Some xs => Some (x :: xs) end
  end.

(** Why construction can fail. *)
Inductive ring_error := BadDegree | NoModulus | NotDistinct | NotPrime | NotNTTFriendly | OutOfFuel.

(** ring/ring.go:145-160 [NewRingWithCustomNTT] = 205-255 [setParameters] then
    260-343 [genNTTParams].  The integers N and NthRoot are Go ints.
    Simplification: on a genNTTParams error the code returns the half-built
    ring together with the error; the model returns only the error. *)
Definition NewRingWithCustomNTT (fuel : nat) (N : Z) (ms : list Z) (NthRoot : Z) : Ring + ring_error :=
  if (N <? 16) || negb (Z.land N (N - 1) =? 0) then inr BadDegree
  else if Nat.eqb (length ms) 0 then inr NoModulus
  else if negb (AllDistinct ms) then inr NotDistinct
  else if negb (forallb IsPrime ms) then inr NotPrime
  else if negb (forallb (fun qi => Z.land qi (NthRoot - 1) =? 1) ms) then inr NotNTTFriendly
  else match sequence (map (gen_modp fuel NthRoot) ms) with
       | None => inr OutOfFuel
       | Some mps => inl (mkRing (Z.to_nat N) NthRoot mps (fold_left Z.mul ms 1) (rescale_params ms))
       end.

(** ring/ring.go:115-117 [NewRing]. *)
Definition NewRing (fuel : nat) (N : Z) (ms : list Z) : Ring + ring_error :=
  NewRingWithCustomNTT fuel N ms (2 * N).

(** ring/ring.go:122-124 [NewRingConjugateInvariant]. *)
Definition NewRingConjugateInvariant (fuel : nat) (N : Z) (ms : list Z) : Ring + ring_error :=
  NewRingWithCustomNTT fuel N ms (4 * N).
