(** Model of /repo/ring/ring_ntt.go (standard transform) and of the vector
    operations it uses from /repo/ring/ring_vector_ops.go. *)
From Verif Require Import Word ModRed Ring.

(** Loops over two slices of equal length (helper). *)
Definition map2 {A B C} (f : A -> B -> C) (l1 : list A) (l2 : list B) : list C :=
  map (fun p => f (fst p) (snd p)) (combine l1 l2).

(** ring/ring_vector_ops.go:113-127 [ReduceVec]. *)
Definition ReduceVec (p : list Z) (q : Z) (bred : Z * Z) : list Z := map (fun x => BRedAdd x q bred) p.

(** ring/ring_vector_ops.go [MulScalarMontgomeryVec] (496-511) and
    [MulScalarMontgomeryConstantVec] (514-529). *)
Definition MulScalarMontgomeryVec (p : list Z) (s q qInv : Z) : list Z := map (fun x => MRed x s q qInv) p.
Definition MulScalarMontgomeryConstantVec (p : list Z) (s q qInv : Z) : list Z :=
  map (fun x => MRedConstant x s q qInv) p.

(** ring/ring_ntt.go:100-106 [butterfly] when [reduce] is set; without it the
    conditional subtraction is omitted, as in the inlined code at 146-169,
    210-233 and in the non-reducing branches of t = 4 and t = 2. *)
Definition butterfly (reduce : bool) (U V Psi Q QInv : Z) : Z * Z :=
  let twoQ := wmul 2 Q in
  let fourQ := wmul 4 Q in
  let U := if reduce then csub U fourQ else U in
  let V := MRedConstant V Psi Q QInv in
  (wadd U V, wsub (wadd U twoQ) V).

(** One round of NTTLazy: blocks of 2t words, block i uses the i-th entry of
    [psis] = nttPsi[m..2m-1]; within a block, word j meets word j+t. *)
Fixpoint ntt_layer (reduce : bool) (psis : list Z) (t : nat) (Q QInv : Z) (xs : list Z) : list Z :=
  match psis with
  | [] => []
  | F :: psis' =>
      let lo := firstn t xs in
      let hi := firstn t (skipn t xs) in
      map2 (fun x y => fst (butterfly reduce x y F Q QInv)) lo hi
      ++ map2 (fun x y => snd (butterfly reduce x y F Q QInv)) lo hi
      ++ ntt_layer reduce psis' t Q QInv (skipn (2 * t) xs)
  end.

(** ring/ring_ntt.go:125-394: which rounds reduce.  The first round (m = 1) never
    does, the last one (t = 1) always does, the others when bits.Len64(m) is odd. *)
Definition reduce_flag (m t : nat) : bool :=
  if Nat.eqb m 1 then false
  else if Nat.eqb t 1 then true
  else Z.odd (Len64 (Z.of_nat m)).

(** ring/ring_ntt.go:125-394 [NTTLazy]: rounds m = 1, 2, 4, ..., N/2 with t = N/(2m);
    [k] is the number of rounds left, so t = 2^(k-1).  The unrolled loop bodies
    for t >= 8, t = 4, t = 2 and t = 1 perform the same butterflies. *)
Fixpoint ntt_rounds (k m : nat) (nttPsi : list Z) (Q QInv : Z) (xs : list Z) : list Z :=
  match k with
  | O => xs
  | S k' =>
      let t := (2 ^ k')%nat in
      ntt_rounds k' (2 * m) nttPsi Q QInv
        (ntt_layer (reduce_flag m t) (firstn m (skipn m nttPsi)) t Q QInv xs)
  end.
Definition NTTLazy (xs : list Z) (N : nat) (nttPsi : list Z) (Q QInv : Z) : list Z :=
  ntt_rounds (Nat.log2 N) 1 nttPsi Q QInv xs.

(** ring/ring_ntt.go:119-122 [NTT]. *)
Definition NTT (xs : list Z) (N : nat) (nttPsi : list Z) (Q QInv : Z) (bred : Z * Z) : list Z :=
  ReduceVec (NTTLazy xs N nttPsi Q QInv) Q bred.

(** ring/ring_ntt.go:109-116 [invbutterfly]. *)
Definition invbutterfly (U V Psi Q QInv : Z) : Z * Z :=
  let twoQ := wshl Q 1 in
  let fourQ := wshl Q 2 in
  (csub (wadd U V) twoQ, MRedConstant (wsub (wadd U fourQ) V) Psi Q QInv).

(** One round of invNTTCore: blocks of 2t words, block i uses nttPsiInv[h+i]. *)
Fixpoint inv_layer (psis : list Z) (t : nat) (Q QInv : Z) (xs : list Z) : list Z :=
  match psis with
  | [] => []
  | F :: psis' =>
      let lo := firstn t xs in
      let hi := firstn t (skipn t xs) in
      map2 (fun x y => fst (invbutterfly x y F Q QInv)) lo hi
      ++ map2 (fun x y => snd (invbutterfly x y F Q QInv)) lo hi
      ++ inv_layer psis' t Q QInv (skipn (2 * t) xs)
  end.

(** ring/ring_ntt.go:396-487 [invNTTCore]: rounds h = N/2, N/4, ..., 1 with t = N/(2h);
    [s] is the number of rounds left, so h = 2^(s-1). *)
Fixpoint inv_rounds (s : nat) (t : nat) (nttPsiInv : list Z) (Q QInv : Z) (xs : list Z) : list Z :=
  match s with
  | O => xs
  | S s' =>
      let h := (2 ^ s')%nat in
      inv_rounds s' (2 * t) nttPsiInv Q QInv
        (inv_layer (firstn h (skipn h nttPsiInv)) t Q QInv xs)
  end.
Definition invNTTCore (xs : list Z) (N : nat) (nttPsiInv : list Z) (Q QInv : Z) : list Z :=
  inv_rounds (Nat.log2 N) 1 nttPsiInv Q QInv xs.

(** ring/ring_ntt.go:490-493 [InvNTT] and 496-499 [InvNTTLazy]. *)
Definition InvNTT (xs : list Z) (N : nat) (nttPsiInv : list Z) (nInv Q QInv : Z) : list Z :=
  MulScalarMontgomeryVec (invNTTCore xs N nttPsiInv Q QInv) nInv Q QInv.
Definition InvNTTLazy (xs : list Z) (N : nat) (nttPsiInv : list Z) (nInv Q QInv : Z) : list Z :=
  MulScalarMontgomeryConstantVec (invNTTCore xs N nttPsiInv Q QInv) nInv Q QInv.

(** ring/ring_ntt_interface.go:107-124: the transforms of one row, with the constants
    of one modulus of a ring. *)
Definition ntt_row (N : nat) (m : modp) (xs : list Z) : list Z := NTT xs N (mpsi m) (mq m) (mqinv m) (mbred m).
Definition nttlazy_row (N : nat) (m : modp) (xs : list Z) : list Z := NTTLazy xs N (mpsi m) (mq m) (mqinv m).
Definition invntt_row (N : nat) (m : modp) (xs : list Z) : list Z := InvNTT xs N (mpsiInv m) (mninv m) (mq m) (mqinv m).
Definition invnttlazy_row (N : nat) (m : modp) (xs : list Z) : list Z := InvNTTLazy xs N (mpsiInv m) (mninv m) (mq m) (mqinv m).
