(** Model of the change of the ring degree, /repo/ring/ring_operations.go:538-551 and /repo/rlwe/elements.go:157-207, and of the
    switching keys between rings, /repo/rlwe/keygen.go:269-343.

    The rows of one polynomial are taken to have the length of its first row, which is not empty. *)
From Verif Require Import Word ModRed Ring NTT RingOps BasisExt Frlwe Rlwe CI.

(** ring/ring_operations.go:538-551 [MapSmallDimensionToLargerDimensionNTT]: word i of a small row goes to the words
    i*gap, ..., i*gap+gap-1 of the large row; [None] is the panic when the large polynomial has fewer rows. *)
Definition map_large_row (n gap : nat) (small large : list Z) : list Z :=
  map (fun k => if Nat.ltb k (n * gap) then nth (k / gap) small 0 else nth k large 0) (seq 0 (length large)).
Definition MapSmallDimensionToLargerDimensionNTT (polSmall polLarge : rows) : option rows :=
  let n := length (prow polSmall 0) in
  let gap := (length (prow polLarge 0) / n)%nat in
  if Nat.ltb (length polLarge) (length polSmall) then None
  else Some (lvl (length polSmall) (fun j => map_large_row n gap (prow polSmall j) (prow polLarge j)) polLarge).

(** rlwe/elements.go:167-178, the rows of one polynomial from the larger degree to the smaller.  tmpOut is the row of ctIn, as tmpIn
    is.  NTTSingle transforms the first N words of the slice, N the degree of the small ring, and reduces the whole slice
    (ring_ntt.go:121-124, ring_vector_ops.go:113-127). *)
Definition down_ntt_row (rS rL : Ring) (NOut gap j : nat) (row : list Z) : list Z :=
  let pool := invntt_row (rN rL) (rmod rL j) row in
  let tmp := map (fun w => nth (w * gap) pool 0) (seq 0 NOut) ++ skipn NOut row in
  let m := rmod rS j in
  ntt_row (rN rS) m (firstn (rN rS) tmp) ++ ReduceVec (skipn (rN rS) tmp) (mq m) (mbred m).

(** The loops of rlwe/elements.go:169-183 over the polynomials of ctOut; [None] is the panic when ctIn has fewer polynomials. *)
Fixpoint each_poly {A} (f : rows -> rows -> option A) (ctIn ctOut : list rows) : option (list A) :=
  match ctOut with
  | [] => Some []
  | o :: ctOut =>
      match ctIn with
      | [] => None
      | p :: ctIn =>
          match f p o, each_poly f ctIn ctOut with
          | Some x, Some l => Some (x :: l)
          | _, _ => None
          end
      end
  end.

(** rlwe/elements.go:162-184 [SwitchCiphertextRingDegreeNTT].  Result: ctIn and ctOut after the call.  The flags of the ciphertexts are
    not touched. *)
Definition SwitchCiphertextRingDegreeNTT (ctIn : list rows) (rS rL : Ring) (ctOut : list rows) : option (list rows * list rows) :=
  let NIn := length (prow (nth 0 ctIn []) 0) in
  let NOut := length (prow (nth 0 ctOut []) 0) in
  if Nat.ltb NOut NIn then
    let gap := (NIn / NOut)%nat in
    match each_poly (fun p o => if Nat.ltb (length p) (length o) then None
                                else Some (lvl (length o) (fun j => down_ntt_row rS rL NOut gap j (prow p j)) p)) ctIn ctOut with
    | None => None
    | Some l => Some (l ++ skipn (length ctOut) ctIn, ctOut)
    end
  else
    match each_poly MapSmallDimensionToLargerDimensionNTT ctIn ctOut with
    | None => None
    | Some l => Some (ctIn, l)
    end.

(** rlwe/elements.go:190-207 [SwitchCiphertextRingDegree]: tmp0[t*gapIn] = tmp1[t*gapOut] for t*gapIn < NOut.
    Result: ctOut after the call. *)
Definition SwitchCiphertextRingDegree (ctIn ctOut : list rows) : option (list rows) :=
  let NIn := length (prow (nth 0 ctIn []) 0) in
  let NOut := length (prow (nth 0 ctOut []) 0) in
  let '(gapIn, gapOut) := if Nat.ltb NOut NIn then (1, NIn / NOut)%nat else (NOut / NIn, 1)%nat in
  each_poly (fun p o => if Nat.ltb (length p) (length o) then None
                        else Some (lvl (length o) (fun j =>
                               map (fun k => if Nat.eqb (k mod gapIn) 0 then nth (k / gapIn * gapOut) (prow p j) 0 else nth k (prow o j) 0)
                                   (seq 0 (length (prow o j)))) o)) ctIn ctOut.

(** rlwe/keygen.go:308-337: the rows of a secret above its level lI, up to lO, from its first row; [pool] is keygen.poolQ.  The words are
    those of [extend_word] (ring_qp.go uses the same expression). *)
Definition extend_secret (rQ : Ring) (lI lO : nat) (pool poolQP : rows) : rows :=
  let pol := InvMFormLvl rQ 0 (InvNTTLvl rQ 0 pool poolQP) poolQP in
  lvl (S lO) (fun i =>
    if Nat.leb i lI then prow pool i
    else let m := rmod rQ i in
         map (fun x => MForm x (mq m) (mbred m)) (ntt_row (rN rQ) m (map (extend_word (mq (rmod rQ 0)) (mq m)) (prow pol 0)))) pool.

(** rlwe/keygen.go:290-343 [GenSwitchingKey], with the errors [e] and uniform polynomials (aQ, aP) its samplers return; [None]: panic.
    Levels are numbers of rows minus one. *)
Definition GenSwitchingKey (rQ rP : Ring) (skIn : rows) (skOut : rows * rows) (e aQ aP : nat -> rows) (poolQP : rows * rows) (poolQ : rows)
  : option (list (rows * rows) * list (rows * rows)) :=
  let levelQ := (length (fst skOut) - 1)%nat in
  let levelP := (length (snd skOut) - 1)%nat in
  if Nat.eqb (length (rmods rP)) 0 then None
  else if Nat.ltb (length (prow (fst skOut) 0)) (length (prow skIn 0)) then
    match MapSmallDimensionToLargerDimensionNTT (fst skOut) (fst poolQP), MapSmallDimensionToLargerDimensionNTT (snd skOut) (snd poolQP) with
    | Some oQ, Some oP => Some (genSwitchingKey rQ rP levelQ levelP skIn (oQ, oP) e aQ aP poolQ)
    | _, _ => None
    end
  else
    match MapSmallDimensionToLargerDimensionNTT skIn poolQ with
    | None => None
    | Some pool =>
        let lI := (length skIn - 1)%nat in
        let pool := if Nat.ltb lI levelQ then extend_secret rQ lI levelQ pool (fst poolQP) else pool in
        Some (genSwitchingKey rQ rP levelQ levelP pool skOut e aQ aP pool)
    end.

(** rlwe/keygen.go:270-279 [GenSwitchingKeysForRingSwap]: the conjugate-invariant secret is unfolded into keygen.poolQP, both keys are made
    with it (the second one's randomness is [e'], [aQ'], [aP']; [poolQ'] is keygen.poolQ after the first key).  The first call leaves
    poolQP as it is when the standard secret has no more rows than the unfolded one, which the model assumes.
    Result: (standard to conjugate-invariant, conjugate-invariant to standard). *)
Definition GenSwitchingKeysForRingSwap (rQ rP : Ring) (skStd skCI : rows * rows) (e aQ aP e' aQ' aP' : nat -> rows) (poolQP : rows * rows) (poolQ poolQ' : rows) :=
  match UnfoldConjugateInvariantToStandard (length (fst skCI) - 1) (fst skCI) (fst poolQP),
        UnfoldConjugateInvariantToStandard (length (snd skCI) - 1) (snd skCI) (snd poolQP) with
  | Some uQ, Some uP =>
      match GenSwitchingKey rQ rP uQ skStd e aQ aP (uQ, uP) poolQ with
      | None => None
      | Some ciToStd =>
          match GenSwitchingKey rQ rP (fst skStd) (uQ, uP) e' aQ' aP' (uQ, uP) poolQ' with
          | None => None
          | Some stdToCI => Some (stdToCI, ciToStd)
          end
      end
  | _, _ => None
  end.
