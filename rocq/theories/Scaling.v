(** Model of ring/ring_scaling.go, of the CRT reconstruction of ring/ring.go and of DivRound of
    ring/int.go.

    Simplifications: the scratch argument [pool] is always written before it is
    read and is a local value here; loops unrolled by eight are maps; math/big
    integers are Z.  Functions that also change their input return it. *)
From Verif Require Import Word ModRed Ring NTT RingOps BasisExt.

(** ring/ring_scaling.go: [r.RescaleParams[level-1][i]]. *)
Definition rescaleConst (r : Ring) (level i : nat) : Z := nth i (nth (level - 1) (rrescale r) []) 0.

(** ring/ring_scaling.go:308-315 [DivFloorByLastModulusNTTLvl]. *)
Definition DivFloorByLastModulusNTTLvl (r : Ring) (level : nat) (p0 p1 : rows) : rows :=
  let pool0 := invnttlazy_row (rN r) (rmod r level) (prow p0 level) in
  lvl level (fun i => let m := rmod r i in
    SubMulTwoQi (nttlazy_row (rN r) m pool0) (prow p0 i) (rescaleConst r level i) (mq m) (mqinv m)) p1.

(** ring/ring_scaling.go:319-323 [DivFloorByLastModulusLvl].  With p1 = p0 the row [level] is only read. *)
Definition DivFloorByLastModulusLvl (r : Ring) (level : nat) (p0 p1 : rows) : rows :=
  lvl level (fun i => let m := rmod r i in
    SubMulTwoQi (prow p0 level) (prow p0 i) (rescaleConst r level i) (mq m) (mqinv m)) p1.

(** ring/ring_poly.go:103-109 [CopyValuesLvl]. *)
Definition CopyValuesLvl (level : nat) (p0 p1 : rows) : rows := lvl (S level) (fun i => prow p0 i) p1.

(** The loops [for i := 0; i < n; i++ { r.DivFloorByLastModulusLvl(level-i, pool, pool) }]. *)
Fixpoint floor_steps (r : Ring) (level n : nat) (pool : rows) : rows :=
  match n with
  | O => pool
  | S n' => floor_steps r (level - 1) n' (DivFloorByLastModulusLvl r level pool pool)
  end.

(** ring/ring_scaling.go:327-345 [DivFloorByLastModulusManyNTTLvl]. *)
Definition DivFloorByLastModulusManyNTTLvl (r : Ring) (level nb : nat) (p0 p1 : rows) : rows :=
  match nb with
  | O => CopyValuesLvl level p0 p1
  | _ => NTTLvl r (level - nb) (floor_steps r level nb (InvNTTLvl r level p0 [])) p1
  end.

(** ring/ring_scaling.go:349-375 [DivFloorByLastModulusManyLvl]: the first step reads p0, the last one
    writes p1. *)
Definition DivFloorByLastModulusManyLvl (r : Ring) (level nb : nat) (p0 p1 : rows) : rows :=
  match nb with
  | O => CopyValuesLvl level p0 p1
  | 1%nat => DivFloorByLastModulusLvl r level p0 p1
  | S (S n) =>
      let pool := DivFloorByLastModulusLvl r level p0 [] in
      let pool := floor_steps r (level - 1) n pool in
      DivFloorByLastModulusLvl r (level - S n) pool p1
  end.

(** [pHalf := (pj - 1) >> 1]. *)
Definition pHalf (r : Ring) (level : nat) : Z := wshr (wsub (mq (rmod r level)) 1) 1.

(** ring/ring_scaling.go:379-395 [DivRoundByLastModulusNTTLvl]; vector operations ring/ring_vector_ops.go:426-457. *)
Definition DivRoundByLastModulusNTTLvl (r : Ring) (level : nat) (p0 p1 : rows) : rows :=
  let pj := mq (rmod r level) in
  let poolL := map (fun x => CRed (wadd x (pHalf r level)) pj)
                   (invnttlazy_row (rN r) (rmod r level) (prow p0 level)) in
  lvl level (fun i => let m := rmod r i in
    let pool := map (fun x => wadd x (wsub (mq m) (BRedAdd (pHalf r level) (mq m) (mbred m)))) poolL in
    SubMulTwoQi (nttlazy_row (rN r) m pool) (prow p0 i) (rescaleConst r level i) (mq m) (mqinv m)) p1.

(** ring/ring_scaling.go:399-412 [DivRoundByLastModulusLvl] with p0 and p1 distinct.  Result: (p0, p1);
    the input is overwritten.  Vector operations ring/ring_vector_ops.go:407-440, 460-475. *)
Definition round_input (r : Ring) (level : nat) (p0 : rows) : rows :=
  lvl (S level) (fun i => let m := rmod r i in
    if Nat.eqb i level then map (fun x => CRed (wadd x (pHalf r level)) (mq m)) (prow p0 i)
    else map (fun x => wsub (wadd (wsub (mq m) (BRedAdd (pHalf r level) (mq m) (mbred m))) (wshl (mq m) 1)) x) (prow p0 i)) p0.
Definition DivRoundByLastModulusLvl (r : Ring) (level : nat) (p0 p1 : rows) : rows * rows :=
  let p0 := round_input r level p0 in
  (p0, lvl level (fun i => let m := rmod r i in
     map2 (fun x y => MRed (wadd x y) (rescaleConst r level i) (mq m) (mqinv m)) (prow p0 level) (prow p0 i)) p1).
(** The same with p1 = p0. *)
Definition DivRoundByLastModulusLvl_inplace (r : Ring) (level : nat) (p : rows) : rows :=
  let p := round_input r level p in
  lvl level (fun i => let m := rmod r i in
     map2 (fun x y => MRed (wadd x y) (rescaleConst r level i) (mq m) (mqinv m)) (prow p level) (prow p i)) p.

(** ring/ring_scaling.go:429-431 (and 456-463): the repeated in-place divisions. *)
Fixpoint round_steps (r : Ring) (level n : nat) (pool : rows) : rows :=
  match n with
  | O => pool
  | S n' => round_steps r (level - 1) n' (DivRoundByLastModulusLvl_inplace r level pool)
  end.

(** ring/ring_scaling.go:416-438 [DivRoundByLastModulusManyNTTLvl]. *)
Definition DivRoundByLastModulusManyNTTLvl (r : Ring) (level nb : nat) (p0 p1 : rows) : rows :=
  match nb with
  | O => CopyValuesLvl level p0 p1
  | 1%nat => DivRoundByLastModulusNTTLvl r level p0 p1
  | _ => NTTLvl r (level - nb) (round_steps r level nb (InvNTTLvl r level p0 [])) p1
  end.

(** ring/ring_scaling.go:442-469 [DivRoundByLastModulusManyLvl].  Result: (p0, p1). *)
Definition DivRoundByLastModulusManyLvl (r : Ring) (level nb : nat) (p0 p1 : rows) : rows * rows :=
  match nb with
  | O => (p0, CopyValuesLvl level p0 p1)
  | 1%nat => DivRoundByLastModulusLvl r level p0 p1
  | S (S n) =>
      let '(p0, pool) := DivRoundByLastModulusLvl r level p0 [] in
      let pool := round_steps r (level - 1) n pool in
      (p0, snd (DivRoundByLastModulusLvl r (level - S n) pool p1))
  end.

(** ring/int.go:54-66 [DivRound].  [Quo] and [Rem] truncate towards zero. *)
Definition DivRound (a b : Z) : Z :=
  let i := Z.quot a b in
  let r2 := 2 * Z.rem a b in
  if Z.abs b <=? Z.abs r2 then (if Z.sgn a =? Z.sgn b then i + 1 else i - 1) else i.

(** big.Int's ModInverse, by Euclid's algorithm: the coefficient s of a in s*a + t*q = gcd(a,q).
    (math/big is not modelled; this is what its documentation promises.)  The
    fuel is the usual bound of two divisions per bit. *)
Fixpoint egcd (fuel : nat) (r0 r1 s0 s1 : Z) : Z :=
  match fuel with
  | O => s0
  | S f => if r1 =? 0 then s0 else egcd f r1 (r0 mod r1) s1 (s0 - (r0 / r1) * s1)
  end.
Definition modInverse (a q : Z) : Z := egcd (2 * Z.to_nat (Z.log2 q + 1) + 1) q (a mod q) 0 1 mod q.

(** ring/ring.go:494-528 [PolyToBigintLvl]: the integers of the coefficients 0, gap, 2*gap, ...
    [gap] = 0 would not terminate; the model uses [gap] = S gap'. The modulus
    divided at 509 is the product of all the ring's moduli, whatever the level. *)
Definition crt_coeff (r : Ring) (i : nat) : Z :=
  let qi := mq (rmod r i) in
  let c := Z.quot (rbigQ r) qi in
  c * (modInverse c qi mod qi).
Definition level_modulus (r : Ring) (level : nat) : Z :=
  fold_left Z.mul (map (fun i => mq (rmod r i)) (seq 0 (S level))) 1.
Definition crt_value (r : Ring) (level : nat) (p : rows) (j : nat) : Z :=
  fold_left Z.add (map (fun k => nth j (prow p k) 0 * crt_coeff r k) (seq 0 (S level))) 0 mod level_modulus r level.
(** The indices j = 0, gap, 2*gap, ... below N. *)
Definition gap_indices (N gap : nat) : list nat :=
  map (fun i => (i * gap)%nat) (seq 0 ((N + gap - 1) / gap)).
Definition PolyToBigintLvl (r : Ring) (level : nat) (p1 : rows) (gap : nat) : list Z :=
  map (crt_value r level p1) (gap_indices (rN r) gap).

(** ring/ring.go:535-580 [PolyToBigintCenteredLvl]. *)
Definition PolyToBigintCenteredLvl (r : Ring) (level : nat) (p1 : rows) (gap : nat) : list Z :=
  let Q := level_modulus r level in
  map (fun j => let c := crt_value r level p1 j in if Z.shiftr Q 1 <=? c then c - Q else c)
      (gap_indices (rN r) gap).

(** ring/ring.go:455-466 [SetCoefficientsBigintLvl], 442-452 [SetCoefficientsBigint] (every modulus),
    420-426 [SetCoefficientsUint64], 411-417 [SetCoefficientsInt64].  The first
    len(coeffs) entries of a row are replaced (more than N would panic; not modelled).
    [%] on int64 truncates; the sum is converted to uint64. *)
Definition set_prefix (new old : list Z) : list Z := new ++ skipn (length new) old.
Definition SetCoefficientsBigintLvl (r : Ring) (level : nat) (coeffs : list Z) (p1 : rows) : rows :=
  lvl (S level) (fun i => set_prefix (map (fun c => w64 (c mod mq (rmod r i))) coeffs) (prow p1 i)) p1.
Definition SetCoefficientsBigint (r : Ring) := SetCoefficientsBigintLvl r (length (rmods r) - 1).
Definition SetCoefficientsUint64 (r : Ring) (coeffs : list Z) (p1 : rows) : rows :=
  lvl (length (rmods r)) (fun i => set_prefix (map (fun c => c mod mq (rmod r i)) coeffs) (prow p1 i)) p1.
Definition SetCoefficientsInt64 (r : Ring) (coeffs : list Z) (p1 : rows) : rows :=
  lvl (length (rmods r)) (fun i => let q := mq (rmod r i) in
    set_prefix (map (fun c => CRed (w64 (Z.rem c q + q)) q) coeffs) (prow p1 i)) p1.

(** ring/ring.go:606-626 [EqualLvl] and 583-603 [Equal] (which uses every modulus); both reduce
    their arguments in place.  Result: (answer, p1, p2).  Row lengths are compared first. *)
Definition EqualLvl (r : Ring) (level : nat) (p1 p2 : rows) : bool * rows * rows :=
  if forallb (fun i => Nat.eqb (length (prow p1 i)) (length (prow p2 i))) (seq 0 (S level)) then
    let p1' := ReduceLvl r level p1 p1 in
    let p2' := ReduceLvl r level p2 p2 in
    (forallb (fun i => forallb (fun j => nth j (prow p1' i) 0 =? nth j (prow p2' i) 0) (seq 0 (rN r))) (seq 0 (S level)),
     p1', p2')
  else (false, p1, p2).
Definition Equal (r : Ring) (p1 p2 : rows) : bool * rows * rows := EqualLvl r (length (rmods r) - 1) p1 p2.

(** ring/ring_scaling.go:33-75 [RNSScaler], [NewRNSScaler].  [qHalf] ends as Q >> 1 (65-70). *)
Record RNSScaler := mkRNSScaler {
  rsQ : Ring; rsT : Ring; rs_qHalf : Z; rs_qHalfModT : Z; rs_qInv : Z; rs_params : modupParams }.
Definition NewRNSScaler (ringQ ringT : Ring) : RNSScaler :=
  let t := mq (rmod ringT 0) in
  let qInv := MForm (ModExp (rbigQ ringQ mod t) (t - 2) t) t (BRedParams t) in
  mkRNSScaler ringQ ringT (Z.shiftr (rbigQ ringQ) 1) (Z.shiftr (rbigQ ringQ) 1 mod t) qInv
    (basisextenderparameters (moduli ringQ) [t]).

(** ring/ring_scaling.go:78-115 [RNSScaler.DivByQOverTRounded].  [polypoolQ] has all the rows of ringQ;
    MulScalar works on the smaller of the two levels, AddScalarBigint on all the
    rows of the pool, so a p1Q of lower level leaves the remaining rows of the
    pool as the previous call left them: [pool] is an argument and the result
    is (new pool, new p2T). *)
Definition RNSScale (s : RNSScaler) (pool p1Q p2T : rows) : rows * rows :=
  let mT := rmod (rsT s) 0 in
  let T := mq mT in
  let pool := MulScalarLvl (rsQ s) T (minLevelBinary (rsQ s) p1Q pool) p1Q pool in
  let pool := fst (AddScalarBigintLvl (rsQ s) (minLevelBinary (rsQ s) pool pool) pool (rs_qHalf s) pool) in
  let poolT := modUpExact (rsQ s) (rsT s) (length pool) 1 (rs_params s) pool [] in
  (pool, lvl 1 (fun _ => map (fun x => MRed (wadd (wsub T (rs_qHalfModT s)) x) (wsub T (rs_qInv s)) T (mqinv mT))
                       (firstn (rN (rsQ s)) (prow poolT 0))) p2T).

(** ring/ring_scaling.go:254-271 [SimpleScaler.reconstructThenScale]: every row of p2 receives the
    same words.  The fields wi, ti and the reduction closures only serve
    reconstructAndScale, which nothing calls; they are not modelled. *)
Definition SimpleScale (ringQ : Ring) (t : Z) (p1 p2 : rows) : rows :=
  let cs := map (fun c => w64 (let n := c * t in
                   let r := Z.rem n (rbigQ ringQ) in
                   if rbigQ ringQ <=? 2 * r then Z.quot n (rbigQ ringQ) + 1 else Z.quot n (rbigQ ringQ)))
                (PolyToBigintLvl ringQ (Level p1) p1 1) in
  map (fun _ => cs) p2.
