(** Model of the conjugate-invariant transforms of /repo/ring/ring_ntt.go:502-922, of the rows of
    /repo/ring/ring_ntt_interface.go:136-217 that use them, and of /repo/ring/conjugate_invariant.go.

    A polynomial of the ring Z[X+X^-1]/(X^2N+1) is kept as its N words c_0, ..., c_(N-1), standing for
    c_0 + sum over j >= 1 of c_j (X^j + X^-j).  As elsewhere, the unrolled loops are modelled by the butterflies
    they perform; the pairs (j, N-j) are read before they are written. *)
From Verif Require Import Word ModRed Ring NTT RingOps Automorphism.

(** ring/ring_ntt.go:520-564: the first round; word j meets word N-j, word 0 is copied. *)
Definition ci_first (F Q QInv : Z) (N : nat) (xs : list Z) : list Z :=
  let twoQ := wmul 2 Q in
  map (fun j => match j with
                | O => nth 0 xs 0
                | _ => wsub (wadd (nth j xs 0) twoQ) (MRedConstant (nth (N - j) xs 0) F Q QInv)
                end) (seq 0 N).

(** ring/ring_ntt.go:566-758: rounds m = 2, 4, ..., N with t = N/m and h = m/2 blocks of 2t words, block i using
    nttPsi[m+i]; a round reduces when bits.Len64(m) is odd, the last one included.  [k] rounds are left, so t = 2^(k-1). *)
Fixpoint ci_rounds (k m : nat) (nttPsi : list Z) (Q QInv : Z) (xs : list Z) : list Z :=
  match k with
  | O => xs
  | S k' =>
      let t := (2 ^ k')%nat in
      let h := Nat.div2 m in
      ci_rounds k' (2 * m) nttPsi Q QInv
        (ntt_layer (Z.odd (Len64 (Z.of_nat m))) (firstn h (skipn m nttPsi)) t Q QInv xs)
  end.

(** ring/ring_ntt.go:508-759 [NTTConjugateInvariantLazy] and 502-505 [NTTConjugateInvariant]. *)
Definition NTTConjugateInvariantLazy (xs : list Z) (N : nat) (nttPsi : list Z) (Q QInv : Z) : list Z :=
  ci_rounds (Nat.log2 N) 2 nttPsi Q QInv (ci_first (nth 1 nttPsi 0) Q QInv N xs).
Definition NTTConjugateInvariant (xs : list Z) (N : nat) (nttPsi : list Z) (Q QInv : Z) (bred : Z * Z) : list Z :=
  ReduceVec (NTTConjugateInvariantLazy xs N nttPsi Q QInv) Q bred.

(** ring/ring_ntt.go:775-873: rounds m = N, N/2, ..., 2 with t = N/m and h = m/2 blocks, block i using nttPsiInv[m+i];
    [s] rounds are left, so m = 2^s. *)
Fixpoint ci_inv_rounds (s : nat) (t : nat) (nttPsiInv : list Z) (Q QInv : Z) (xs : list Z) : list Z :=
  match s with
  | O => xs
  | S s' =>
      let h := (2 ^ s')%nat in
      let m := (2 ^ s)%nat in
      ci_inv_rounds s' (2 * t) nttPsiInv Q QInv
        (inv_layer (firstn h (skipn m nttPsiInv)) t Q QInv xs)
  end.

(** ring/ring_ntt.go:875-921: the last round. *)
Definition ci_last (F Q QInv : Z) (N : nat) (xs : list Z) : list Z :=
  let twoQ := wshl Q 1 in
  map (fun j => match j with
                | O => CRed (wshl (nth 0 xs 0) 1) Q
                | _ => wsub (wadd (nth j xs 0) twoQ) (MRedConstant (nth (N - j) xs 0) F Q QInv)
                end) (seq 0 N).

(** ring/ring_ntt.go:773-922 [invNTTConjugateInvariantCore]; 761-764 [InvNTTConjugateInvariant]; 767-770
    [InvNTTConjugateInvariantLazy]. *)
Definition invNTTConjugateInvariantCore (xs : list Z) (N : nat) (nttPsiInv : list Z) (Q QInv : Z) : list Z :=
  ci_last (nth 1 nttPsiInv 0) Q QInv N (ci_inv_rounds (Nat.log2 N) 1 nttPsiInv Q QInv xs).
Definition InvNTTConjugateInvariant (xs : list Z) (N : nat) (nttPsiInv : list Z) (nInv Q QInv : Z) : list Z :=
  MulScalarMontgomeryVec (invNTTConjugateInvariantCore xs N nttPsiInv Q QInv) nInv Q QInv.
Definition InvNTTConjugateInvariantLazy (xs : list Z) (N : nat) (nttPsiInv : list Z) (nInv Q QInv : Z) : list Z :=
  MulScalarMontgomeryConstantVec (invNTTConjugateInvariantCore xs N nttPsiInv Q QInv) nInv Q QInv.

(** ring/ring_ntt_interface.go:136-217, the "Lvl" methods of NumberTheoreticTransformerConjugateInvariant: the transforms of
    the first level+1 rows. *)
Definition CIForwardLvl (r : Ring) (level : nat) (p1 p2 : rows) : rows :=
  lvl (S level) (fun i => let m := rmod r i in
    NTTConjugateInvariant (prow p1 i) (rN r) (mpsi m) (mq m) (mqinv m) (mbred m)) p2.
Definition CIForwardLazyLvl (r : Ring) (level : nat) (p1 p2 : rows) : rows :=
  lvl (S level) (fun i => let m := rmod r i in
    NTTConjugateInvariantLazy (prow p1 i) (rN r) (mpsi m) (mq m) (mqinv m)) p2.
Definition CIBackwardLvl (r : Ring) (level : nat) (p1 p2 : rows) : rows :=
  lvl (S level) (fun i => let m := rmod r i in
    InvNTTConjugateInvariant (prow p1 i) (rN r) (mpsiInv m) (mninv m) (mq m) (mqinv m)) p2.
Definition CIBackwardLazyLvl (r : Ring) (level : nat) (p1 p2 : rows) : rows :=
  lvl (S level) (fun i => let m := rmod r i in
    InvNTTConjugateInvariantLazy (prow p1 i) (rN r) (mpsiInv m) (mninv m) (mq m) (mqinv m)) p2.

(** ring/conjugate_invariant.go:27-43 [UnfoldConjugateInvariantToStandard]; [None] is the panic on the lengths of the
    first rows.  The receiver is not used.  Rows other than the first are taken to have the length of the first. *)
Definition UnfoldConjugateInvariantToStandard (level : nat) (pci pstd : rows) : option rows :=
  if negb (Nat.eqb (2 * length (prow pci 0)) (length (prow pstd 0))) then None
  else
    let N := length (prow pci 0) in
    Some (lvl (S level) (fun i =>
      let tmp1 := prow pci i in
      tmp1 ++ map (fun jdx => nth (N - 1 - (jdx - N)) tmp1 0) (seq N N)) pstd).

(** ring/conjugate_invariant.go:48-59 [FoldStandardToConjugateInvariant]; [index] is permuteNTTIndexInv, of which
    PermuteNTTWithIndexLvl (ring_automorphism.go:80-101) reads the first N entries, N being the degree of the receiver.
    AddVec is ring_vector_ops.go:24-39. *)
Definition FoldStandardToConjugateInvariant (r : Ring) (level : nat) (pstd : rows) (index : list Z) (pci : rows) : option rows :=
  if negb (Nat.eqb (length (prow pstd 0)) (2 * length (prow pci 0))) then None
  else
    let p := PermuteNTTWithIndexLvl r level pstd (firstn (rN r) index) pci in
    Some (lvl (S level) (fun i =>
      map2 (fun x y => CRed (wadd x y) (mq (rmod r i))) (firstn (rN r) (prow p i)) (firstn (rN r) (prow pstd i))) p).

(** ring/conjugate_invariant.go:62-95 [PadDefaultRingToConjuateInvariant] on one row: [tmp] is p2.Coeffs[i] after the copy.
    The loops update tmp as they read it. *)
Definition pad_row (isNTT : bool) (qi : Z) (n : nat) (row out : list Z) : list Z :=
  let tmp := row ++ skipn n out in
  if isNTT then fold_left (fun t j => Automorphism.upd t (n - j - 1) (nth j t 0)) (seq 0 n) tmp
  else fold_left (fun t j => Automorphism.upd t (n - j) (wsub qi (nth j t 0))) (seq 1 (n - 1)) (Automorphism.upd tmp 0 0).
Definition PadDefaultRingToConjuateInvariant (r : Ring) (isNTT : bool) (p1 p2 : rows) : option rows :=
  let level := Nat.min (length p1 - 1) (length p2 - 1) in
  let n := length (prow p1 0) in
  if forallb (fun i => Nat.eqb (length (prow p2 i)) (2 * length (prow p1 i))) (seq 0 (S level))
  then Some (lvl (S level) (fun i => pad_row isNTT (mq (rmod r i)) n (prow p1 i) (prow p2 i)) p2)
  else None.

(** ring/ring.go:162-189 [ConjugateInvariantRing] and [StandardRing]: the other ring on the same moduli, its tables computed
    anew by genNTTParams (260-343).  [None] stands for the error of genNTTParams (a modulus that is not 1 modulo the new
    NthRoot; primality was checked when the receiver was built).  The receiver itself is returned when it already has the wanted type, which the
    model's rings do not record: the functions below are the other branch. *)
Definition regen (fuel : nat) (r : Ring) (N : nat) (NthRoot : Z) : option Ring :=
  if negb (forallb (fun qi => IsPrime qi && (Z.land qi (NthRoot - 1) =? 1)) (moduli r)) then None
  else match sequence (map (gen_modp fuel NthRoot) (moduli r)) with
       | None => None
       | Some mps => Some (mkRing N NthRoot mps (rbigQ r) (rescale_params (moduli r)))
       end.
Definition ConjugateInvariantRing (fuel : nat) (r : Ring) : option Ring :=
  let N := Nat.div2 (rN r) in regen fuel r N (4 * Z.of_nat N).
Definition StandardRing (fuel : nat) (r : Ring) : option Ring :=
  let N := (2 * rN r)%nat in regen fuel r N (2 * Z.of_nat N).
