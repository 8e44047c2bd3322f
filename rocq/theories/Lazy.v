(** Rotations whose division by P is left to the caller.  Conventions of Ckks.v and CkksMore.v. *)
From Verif Require Import Word ModRed Ring NTT RingOps Scaling BasisExt Automorphism Gadget Rlwe Float64 Ckks.

(** A polynomial modulo Q and P, and a pair of them: rlwe.PolyQP and [2]rlwe.PolyQP. *)
Definition qp : Type := (rows * rows)%type.
Definition qp_pair : Type := (qp * qp)%type.
(** The buffers eval.Pool[0] and eval.Pool[1] and, in the same order, the receivers: Q and P of the first, Q and P of the second. *)
Definition no_pair : qp_pair := (([], []), ([], [])).

(** ckks/evaluator.go:1489-1521 [PermuteNTTHoistedNoModDown]: [None] is the panic for a missing key.  eval.permuteNTTIndex[galEl] is
    PermuteNTTIndex(galEl) (198-207); the index of the ring Q also permutes the rows of P. *)
Definition PermuteNTTHoistedNoModDown (rQ rP : Ring) (levelQ : nat) (rtks : Z -> option swkey) (c0 : rows) (dig : list (rows * rows)) (k : Z)
    (pool out : qp_pair) : option qp_pair :=
  let levelP := maxLevel rP in
  let galEl := GaloisElementForColumnRotationBy rQ k in
  match rtks galEl with
  | None => None
  | Some rtk =>
      let index := PermuteNTTIndex rQ galEl in
      match KeyswitchHoistedNoModDown rQ rP levelQ levelP dig (fst rtk) (snd rtk) (fst (fst pool)) (fst (snd pool)) (snd (fst pool)) (snd (snd pool)) with
      | None => None
      | Some ((pool2Q, pool2P), (pool3Q, pool3P)) =>
          let ct1OutQ := PermuteNTTWithIndexLvl rQ levelQ pool3Q index (fst (snd out)) in
          let ct1OutP := PermuteNTTWithIndexLvl rQ levelP pool3P index (snd (snd out)) in
          let pool3Q := MulScalarBigintLvl rQ (rbigQ rP) levelQ c0 pool3Q in
          let pool2Q := AddLvl rQ levelQ pool2Q pool3Q pool2Q in
          let ct0OutQ := PermuteNTTWithIndexLvl rQ levelQ pool2Q index (fst (fst out)) in
          let ct0OutP := PermuteNTTWithIndexLvl rQ levelP pool2P index (snd (fst out)) in
          Some ((ct0OutQ, ct0OutP), (ct1OutQ, ct1OutP))
      end
  end.

(** ckks/evaluator.go:1474-1487 [RotateHoistedNoModDownNew]: the map as a list of entries in the order in which they are written;
    [pools i] is what the buffers hold when entry i is computed.  The receivers are new polynomials of level+1 and of all P rows. *)
Definition new_pair (rQ rP : Ring) (level : nat) : qp_pair :=
  let p := (zero_rows (rN rQ) (S level), zero_rows (rN rP) (length (rmods rP))) in (p, p).
Fixpoint RotateHoistedNoModDownNew (rQ rP : Ring) (level : nat) (rtks : Z -> option swkey) (rotations : list Z) (c0 : rows) (dig : list (rows * rows))
    (pools : nat -> qp_pair) : option (list (Z * qp_pair)) :=
  match rotations with
  | [] => Some []
  | i :: rest =>
      if i =? 0 then RotateHoistedNoModDownNew rQ rP level rtks rest c0 dig (fun j => pools (S j))
      else
        match PermuteNTTHoistedNoModDown rQ rP level rtks c0 dig i (pools 0%nat) (new_pair rQ rP level) with
        | None => None
        | Some out =>
            match RotateHoistedNoModDownNew rQ rP level rtks rest c0 dig (fun j => pools (S j)) with
            | None => None
            | Some outs => Some ((i, out) :: outs)
            end
        end
  end.

(** What a caller does with the results: sums of pairs (ring.AddLvl on the rows of Q and on those of P) and one division by P
    (ring.BasisExtender.ModDownQPtoQNTT on each polynomial, into its own rows of Q). *)
Definition qp_add (rQ rP : Ring) (levelQ : nat) (x y : qp) : qp :=
  (AddLvl rQ levelQ (fst x) (fst y) (fst x), AddLvl rP (maxLevel rP) (snd x) (snd y) (snd x)).
Definition pair_add (rQ rP : Ring) (levelQ : nat) (x y : qp_pair) : qp_pair :=
  (qp_add rQ rP levelQ (fst x) (fst y), qp_add rQ rP levelQ (snd x) (snd y)).
Definition pair_down (rQ rP : Ring) (levelQ : nat) (x : qp_pair) : rows * rows :=
  let down (p : qp) := ModDownQPtoQNTT (NewBasisExtender rQ rP) levelQ (maxLevel rP) (fst p) (snd p) (fst p) in
  (down (fst x), down (snd x)).
