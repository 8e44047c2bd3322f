(** Model of /repo/ring/ring_basis_extension.go (and of the vector operation
    SubVecAndMulScalarMontgomeryTwoQiVec of /repo/ring/ring_vector_ops.go it uses).

    The loops work on eight coefficients at a time with identical lanes; the
    model treats each coefficient separately.  The code keeps the y's of one
    coefficient in an array of 32 words, so more than 32 source moduli make it
    panic; the model has no such limit and the theorems ask for at most 32. *)
From Verif Require Import Word ModRed Ring NTT RingOps Float64.

(** ring/ring_basis_extension.go:38-46 [modupParams]. *)
Record modupParams := mkModup {
  qoverqiinvqi : list Z; qoverqimodp : list (list Z); vtimesqmodp : list (list Z) }.

(** ring/ring_basis_extension.go:122-128 and 134-139: the product of the MForms of the moduli of Q
    other than the i-th, modulo m. *)
Definition prod_except (i : nat) (init : Z) (Q : list Z) (m : Z) : Z :=
  fold_left (fun acc j =>
      if Nat.eqb j i then acc
      else MRed acc (MForm (nth j Q 0) m (BRedParams m)) m (MRedParams m))
    (seq 0 (length Q)) init.

(** ring/ring_basis_extension.go:152-155. *)
Definition prod_mod (Q : list Z) (m : Z) : Z :=
  fold_left (fun acc qi => MRed acc (MForm qi m (BRedParams m)) m (MRedParams m)) Q 1.

(** ring/ring_basis_extension.go:157-161: entries 1..n of vtimesqmodp[j]. *)
Fixpoint vtimes (n : nat) (prev v p : Z) : list Z :=
  match n with
  | O => []
  | S n' => let c := CRed (wadd prev v) p in c :: vtimes n' c v p
  end.

(** ring/ring_basis_extension.go:98-168 [basisextenderparameters]. *)
Definition basisextenderparameters (Q P : list Z) : modupParams :=
  mkModup
    (map (fun i => let qi := nth i Q 0 in
            ModexpMontgomery (prod_except i (MForm 1 qi (BRedParams qi)) Q qi) (qi - 2) qi (MRedParams qi) (BRedParams qi))
         (seq 0 (length Q)))
    (map (fun pj => map (fun i => MForm (prod_except i 1 Q pj) pj (BRedParams pj)) (seq 0 (length Q))) P)
    (map (fun pj => 0 :: vtimes (length Q) 0 (wsub pj (prod_mod Q pj)) pj) P).

(** ring/ring_basis_extension.go:481-523 [reconstructRNS], for one coefficient: [ms] are the source
    moduli, [xs] the residues; the result is the y's and the index of the
    correction term. *)
Definition reconstructRNS (ms : list modp) (mont xs : list Z) : list Z * Z :=
  let ys := map (fun i => let m := nth i ms modp0 in MRed (nth i xs 0) (nth i mont 0) (mq m) (mqinv m))
                (seq 0 (length ms)) in
  let vi := fold_left (fun vi p => f64_add vi (f64_div (f64_of_Z (fst p)) (f64_of_Z (snd p))))
              (combine ys (map mq ms)) (f64_of_Z 0) in
  (ys, f64_trunc vi).

(** ring/ring_basis_extension.go:526-590 [multSum], for one coefficient. *)
Definition multSum (yv : list Z * Z) (pj qInv : Z) (vtimesq qoverqi : list Z) : Z :=
  let '(rlo, rhi) :=
    fold_left (fun acc yc =>
        let '(rlo, rhi) := acc in
        let mhi := mul_hi (fst yc) (snd yc) in
        let mlo := mul_lo (fst yc) (snd yc) in
        (add_lo rlo mlo, wadd rhi (wadd mhi (add_carry rlo mlo))))
      (combine (fst yv) qoverqi) (0, 0) in
  let hhi := mul_hi (wmul rlo qInv) pj in
  wadd (wadd (wsub rhi hhi) pj) (nth (Z.to_nat (snd yv)) vtimesq 0).

(** ring/ring_basis_extension.go:281-301 [modUpExact]; [cnt1] and [cnt2] are the numbers of rows of the
    two slices. *)
Definition modUpExact (ringQ ringP : Ring) (cnt1 cnt2 : nat) (params : modupParams) (p1 p2 : rows) : rows :=
  let recs := map (fun x =>
      reconstructRNS (firstn cnt1 (rmods ringQ)) (qoverqiinvqi params)
        (map (fun i => nth x (nth i p1 []) 0) (seq 0 cnt1)))
    (seq 0 (length (prow p1 0))) in
  lvl cnt2 (fun j => let m := rmod ringP j in
     map (fun yv => multSum yv (mq m) (mqinv m) (nth j (vtimesqmodp params) []) (nth j (qoverqimodp params) [])) recs) p2.

(** ring/ring_basis_extension.go:49-69 [genModDownParams]; entry j depends on entry j-1. *)
Fixpoint modDownParams_loop (mods : list modp) (ps : list Z) (prev : list Z) (first : bool) : list (list Z) :=
  match ps with
  | [] => []
  | pj :: ps' =>
      let row := map (fun mi => let '(m, pr) := mi in
          let inv := MForm (ModExp pj (mq m - 2) (mq m)) (mq m) (mbred m) in
          if first then inv else MRed inv pr (mq m) (mqinv m)) (combine mods prev) in
      row :: modDownParams_loop mods ps' row false
  end.
Definition genModDownParams (ringQ ringP : Ring) : list (list Z) :=
  modDownParams_loop (rmods ringQ) (moduli ringP) (repeat 0 (length (rmods ringQ))) true.

(** ring/ring_basis_extension.go:27-36 [BasisExtender] and 72-96 [NewBasisExtender].  The two scratch
    polynomials polypoolQ, polypoolP are always written before they are read, so
    they are local values of the operations below. *)
Record BasisExtender := mkBE {
  beQ : Ring; beP : Ring;
  paramsQtoP : list modupParams; paramsPtoQ : list modupParams;
  modDownparamsPtoQ : list (list Z); modDownparamsQtoP : list (list Z) }.
Definition NewBasisExtender (ringQ ringP : Ring) : BasisExtender :=
  mkBE ringQ ringP
    (map (fun i => basisextenderparameters (firstn (S i) (moduli ringQ)) (moduli ringP)) (seq 0 (length (rmods ringQ))))
    (map (fun i => basisextenderparameters (firstn (S i) (moduli ringP)) (moduli ringQ)) (seq 0 (length (rmods ringP))))
    (genModDownParams ringQ ringP) (genModDownParams ringP ringQ).

(** Default value for list accesses (helper). *)
Definition modup0 : modupParams := mkModup [] [] [].

(** ring/ring_basis_extension.go:192-194, 199-201. *)
Definition ModUpQtoP (be : BasisExtender) (levelQ levelP : nat) (polQ polP : rows) : rows :=
  modUpExact (beQ be) (beP be) (S levelQ) (S levelP) (nth levelQ (paramsQtoP be) modup0) polQ polP.
Definition ModUpPtoQ (be : BasisExtender) (levelP levelQ : nat) (polP polQ : rows) : rows :=
  modUpExact (beP be) (beQ be) (S levelP) (S levelQ) (nth levelP (paramsPtoQ be) modup0) polP polQ.

(** ring/ring_vector_ops.go:550-568 [SubVecAndMulScalarMontgomeryTwoQiVec]. *)
Definition SubMulTwoQi (x y : list Z) (scalar q qInv : Z) : list Z :=
  map2 (fun x y => MRed (wadd (wsub (wshl q 1) y) x) scalar q qInv) x y.

(** ring/ring_basis_extension.go:207-223 [ModDownQPtoQ]. *)
Definition ModDownQPtoQ (be : BasisExtender) (levelQ levelP : nat) (p1Q p1P p2Q : rows) : rows :=
  let polypool := ModUpPtoQ be levelP levelQ p1P [] in
  lvl (S levelQ) (fun i => let m := rmod (beQ be) i in
     SubMulTwoQi (prow polypool i) (prow p1Q i)
       (wsub (mq m) (nth i (nth levelP (modDownparamsPtoQ be) []) 0)) (mq m) (mqinv m)) p2Q.

(** ring/ring_basis_extension.go:230-255 [ModDownQPtoQNTT]. *)
Definition ModDownQPtoQNTT (be : BasisExtender) (levelQ levelP : nat) (p1Q p1P p2Q : rows) : rows :=
  let polypoolP := InvNTTLazyLvl (beP be) levelP p1P [] in
  let polypoolQ := ModUpPtoQ be levelP levelQ polypoolP [] in
  let polypoolQ := NTTLazyLvl (beQ be) levelQ polypoolQ polypoolQ in
  lvl (S levelQ) (fun i => let m := rmod (beQ be) i in
     SubMulTwoQi (prow polypoolQ i) (prow p1Q i)
       (wsub (mq m) (nth i (nth levelP (modDownparamsPtoQ be) []) 0)) (mq m) (mqinv m)) p2Q.

(** ring/ring_basis_extension.go:261-278 [ModDownQPtoP]: the constants are indexed by levelP, although
    they are the inverses of prefixes of Q.  An index outside the table makes
    the code panic ([None]). *)
Definition ModDownQPtoP (be : BasisExtender) (levelQ levelP : nat) (p1Q p1P p2P : rows) : option rows :=
  let polypool := ModUpQtoP be levelQ levelP p1Q [] in
  match nth_error (modDownparamsQtoP be) levelP with
  | None => None
  | Some params =>
      Some (lvl (S levelP) (fun i => let m := rmod (beP be) i in
        SubMulTwoQi (prow polypool i) (prow p1P i) (wsub (mq m) (nth i params 0)) (mq m) (mqinv m)) p2P)
  end.

(** ring/ring_basis_extension.go:306-368 [Decomposer], [NewDecomposer]: the parameters for a prefix of
    alpha special primes, block [b] of alpha moduli of Q, and the first [k] moduli of the block are
    [modUpParams[alpha-2][b][k-2]].  The model computes the entry on demand. *)
Record Decomposer := mkDec { dcQ : Ring; dcP : Ring }.
Definition NewDecomposer (ringQ ringP : Ring) : Decomposer := mkDec ringQ ringP.
Definition decomposer_params (d : Decomposer) (alpha beta k : nat) : modupParams :=
  basisextenderparameters (firstn k (skipn (beta * alpha) (moduli (dcQ d))))
    (moduli (dcQ d) ++ firstn alpha (moduli (dcP d))).

(** ring/ring_basis_extension.go:372-479 [DecomposeAndSplit].  Result: (p1Q, p1P).  [decompLvl] + 1 is
    [dl] here, so that the special case -1 is 0.  The loop at 460-463, documented as covering the
    rows above the block, starts at the block itself and overwrites the rows copied at 419-426. *)
Definition DecomposeAndSplit (d : Decomposer) (levelQ levelP alpha beta : nat) (p0Q p1Q p1P : rows) : rows * rows :=
  let lvlQStart := (beta * alpha)%nat in
  let dl := if Nat.ltb (alpha * (beta + 1) - 1) levelQ then (alpha - 1)%nat else (levelQ mod alpha)%nat in
  if Nat.eqb dl 0 then
    (lvl (S levelQ) (fun _ => prow p0Q lvlQStart) p1Q, lvl (S levelP) (fun _ => prow p0Q lvlQStart) p1P)
  else
    let params := decomposer_params d alpha beta (S dl) in
    let recs := map (fun x =>
        reconstructRNS (firstn (S dl) (skipn lvlQStart (rmods (dcQ d)))) (qoverqiinvqi params)
          (map (fun i => nth x (nth (lvlQStart + i) p0Q []) 0) (seq 0 (S dl))))
      (seq 0 (length (prow p0Q 0))) in
    let conv m u := map (fun yv => multSum yv (mq m) (mqinv m)
        (nth u (vtimesqmodp params) []) (nth u (qoverqimodp params) [])) recs in
    (lvl (S levelQ) (fun j => conv (rmod (dcQ d) j) j) p1Q,
     lvl (S levelP) (fun j => conv (rmod (dcP d) j) (length (rmods (dcQ d)) + j)%nat) p1P).
