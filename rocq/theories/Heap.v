(** Memory model for the copies: /repo/ring/ring_poly.go:20-183, /repo/rlwe/ring_qp.go:33-80, 341-348, /repo/rlwe/elements.go:90-94, 210-230,
    /repo/rlwe/keys.go:69-231, /repo/ring/ring_operations.go:392-397, /repo/ckks/ciphertext.go:50-80, /repo/utils/utils.go:165-178.

    A row []uint64 is a slice of a backing array; a *Poly is an index into the list of Poly values.  The slices of slices Coeffs and
    Value, and the key structures, are held by value: sharing between two such outer slices is not modelled. *)
From Verif Require Import Word.
Open Scope nat_scope.

(** A Go slice: backing array, offset, length, capacity. *)
Record slice := Slice { arr : nat; off : nat; len : nat; cap : nat }.

(** ring/ring_poly.go:28-32 [Poly]. *)
Record poly := Poly { coeffs : list slice; isNTT : bool; isMForm : bool }.

(** The memory: the backing arrays and the Poly values. *)
Record mem := Mem { arrays : list (list Z); polys : list poly }.

Definition nilslice : slice := Slice 0 0 0 0.
Definition nilpoly : poly := Poly [] false false.

Fixpoint put {A} (k : nat) (x : A) (l : list A) : list A :=
  match l with
  | [] => []
  | y :: l => match k with O => x :: l | S k => y :: put k x l end
  end.

(** The words of the array [l] from position [o] on are replaced by those of [w]. *)
Definition overwrite (l : list Z) (o : nat) (w : list Z) : list Z :=
  firstn o l ++ firstn (length l - o) w ++ skipn (o + length w) l.

Definition words (m : mem) (s : slice) : list Z := firstn (len s) (skipn (off s) (nth (arr s) (arrays m) [])).
Definition set_words (m : mem) (s : slice) (w : list Z) : mem :=
  Mem (put (arr s) (overwrite (nth (arr s) (arrays m) []) (off s) w) (arrays m)) (polys m).
Definition deref (m : mem) (p : nat) : poly := nth p (polys m) nilpoly.
Definition set_poly (m : mem) (p : nat) (P : poly) : mem := Mem (arrays m) (put p P (polys m)).

(** make([]uint64, n). *)
Definition gomake (m : mem) (n : nat) : mem * slice :=
  (Mem (arrays m ++ [repeat 0%Z n]) (polys m), Slice (length (arrays m)) 0 n n).

(** copy(dst, src): the smaller of the two lengths. *)
Definition gocopy (m : mem) (dst src : slice) : mem := set_words m dst (firstn (len dst) (words m src)).

(** append(a, b...): in place when the capacity of a suffices, else on a new array, with [g] words of spare capacity (which Go chooses). *)
Definition goappend (g : nat) (m : mem) (a b : slice) : mem * slice :=
  if len a + len b <=? cap a then
    let r := Slice (arr a) (off a) (len a + len b) (cap a) in
    (set_words m (Slice (arr a) (off a + len a) (len b) (len b)) (words m b), r)
  else (Mem (arrays m ++ [words m a ++ words m b ++ repeat 0%Z g]) (polys m), Slice (length (arrays m)) 0 (len a + len b) (len a + len b + g)).

(** new(Poly) with the given fields. *)
Definition gonew (m : mem) (P : poly) : mem * nat := (Mem (arrays m) (polys m ++ [P]), length (polys m)).

(** ring/ring_poly.go:70-81: the rows of [CopyNew]; also ring/ring_poly.go:175-183 [GetCoefficients]. *)
Fixpoint copy_rows (m : mem) (ss : list slice) : mem * list slice :=
  match ss with
  | [] => (m, [])
  | s :: ss =>
      let '(m, s') := gomake m (len s) in
      let m := gocopy m s' s in
      let '(m, ss') := copy_rows m ss in
      (m, s' :: ss')
  end.

(** ring/ring_poly.go:70-81 [CopyNew].  The Poly is made after its rows. *)
Definition Poly_CopyNew (m : mem) (p : nat) : mem * nat :=
  let P := deref m p in
  let '(m, ss) := copy_rows m (coeffs P) in
  gonew m (Poly ss (isNTT P) (isMForm P)).

(** ring/ring_poly.go:124-131 [CopyValues]: p1 on pol.  The comparison of the pointers is left out: a copy of a row on itself changes
    nothing. *)
Fixpoint gocopies (m : mem) (dsts srcs : list slice) : mem :=
  match dsts, srcs with
  | d :: dsts, s :: srcs => gocopies (gocopy m d s) dsts srcs
  | _, _ => m
  end.
Definition Poly_CopyValues (m : mem) (pol p1 : nat) : mem := gocopies m (coeffs (deref m pol)) (coeffs (deref m p1)).

(** ring/ring_poly.go:136-140 [Copy]. *)
Definition Poly_Copy (m : mem) (pol p1 : nat) : mem :=
  let m := Poly_CopyValues m pol p1 in
  set_poly m pol (Poly (coeffs (deref m pol)) (isNTT (deref m p1)) (isMForm (deref m p1))).

(** ring/ring_poly.go:147-165 [Equals]; [None] is the nil pointer.  Equal pointers that are not nil lead to equal contents, so that the
    comparison of the pointers is kept for nil only. *)
Definition row_eqb (a b : list Z) : bool := (length a =? length b) && forallb (fun '(x, y) => (x =? y)%Z) (combine a b).
Definition Poly_Equals (m : mem) (pol other : option nat) : bool :=
  match pol, other with
  | None, None => true
  | Some p, Some o =>
      let cp := coeffs (deref m p) in
      let co := coeffs (deref m o) in
      (length cp =? length co) && forallb (fun '(s, t) => row_eqb (words m s) (words m t)) (combine cp co)
  | _, _ => false
  end.

(** rlwe/ring_qp.go:30-32 [PolyQP]. *)
Record polyQP := QP { pQ : option nat; pP : option nat }.

(** rlwe/ring_qp.go:65-80 [CopyNew]. *)
Definition opt_CopyNew (m : mem) (p : option nat) : mem * option nat :=
  match p with
  | None => (m, None)
  | Some p => let '(m, p') := Poly_CopyNew m p in (m, Some p')
  end.
Definition QP_CopyNew (m : mem) (p : polyQP) : mem * polyQP :=
  let '(m, q') := opt_CopyNew m (pQ p) in
  let '(m, p') := opt_CopyNew m (pP p) in
  (m, QP q' p').

(** rlwe/ring_qp.go:36-50 [Equals].  [other] is passed by value: p == &other never holds. *)
Definition QP_Equals (m : mem) (p other : polyQP) : bool :=
  let v := match pQ p with None => true | Some _ => Poly_Equals m (pQ p) (pQ other) end in
  match pP p with None => v | Some _ => v && Poly_Equals m (pP p) (pP other) end.

(** rlwe/keys.go:24-50.  [None] is a nil pointer to a key. *)
Definition secretKey := polyQP.
Definition publicKey := (polyQP * polyQP)%type.
Definition switchingKey := list publicKey.
Definition relinKey := list (option switchingKey).
Definition rotationKeys := list (N * option switchingKey).

(** rlwe/keys.go:132-137 [PublicKey.CopyNew]. *)
Definition PK_CopyNew (m : mem) (k : publicKey) : mem * publicKey :=
  let '(m, a) := QP_CopyNew m (fst k) in
  let '(m, b) := QP_CopyNew m (snd k) in
  (m, (a, b)).

(** rlwe/keys.go:190-199 [SwitchingKey.CopyNew]. *)
Fixpoint copy_list {A} (f : mem -> A -> mem * A) (m : mem) (l : list A) : mem * list A :=
  match l with
  | [] => (m, [])
  | x :: l =>
      let '(m, x') := f m x in
      let '(m, l') := copy_list f m l in
      (m, x' :: l')
  end.
Definition SWK_CopyNew (m : mem) (k : option switchingKey) : mem * option switchingKey :=
  match k with
  | None | Some [] => (m, None)
  | Some k => let '(m, k') := copy_list PK_CopyNew m k in (m, Some k')
  end.

(** rlwe/keys.go:159-168 [RelinearizationKey.CopyNew]. *)
Definition RLK_CopyNew (m : mem) (k : option relinKey) : mem * option relinKey :=
  match k with
  | None | Some [] => (m, None)
  | Some k => let '(m, k') := copy_list SWK_CopyNew m k in (m, Some k')
  end.

(** rlwe/keys.go:69-74 [PublicKey.Equals]; neither pointer is nil. *)
Definition PK_Equals (m : mem) (k other : publicKey) : bool := QP_Equals m (fst k) (fst other) && QP_Equals m (snd k) (snd other).

(** rlwe/keys.go:171-187 [SwitchingKey.Equals]. *)
Definition SWK_Equals (m : mem) (k other : option switchingKey) : bool :=
  match k, other with
  | None, None => true
  | Some k, Some o => (length k =? length o) && forallb (fun '(a, b) => PK_Equals m a b) (combine k o)
  | _, _ => false
  end.

(** rlwe/keys.go:140-156 [RelinearizationKey.Equals]. *)
Definition RLK_Equals (m : mem) (k other : option relinKey) : bool :=
  match k, other with
  | None, None => true
  | Some k, Some o => (length k =? length o) && forallb (fun '(a, b) => SWK_Equals m a b) (combine k o)
  | _, _ => false
  end.

(** rlwe/keys.go:202-218 [RotationKeySet.Equals] and 221-231 [Includes]; a map is a list with distinct Galois elements. *)
Definition lookup {A} (g : N) (l : list (N * A)) : option A := option_map snd (find (fun e => N.eqb (fst e) g) l).
Definition RTK_Equals (m : mem) (k other : option rotationKeys) : bool :=
  match k, other with
  | None, None => true
  | Some k, Some o =>
      (length k =? length o) &&
      forallb (fun '(g, ok) => match lookup g k with Some key => SWK_Equals m ok key | None => false end) o
  | _, _ => false
  end.
Definition RTK_Includes (k other : option rotationKeys) : bool :=
  match k, other with
  | Some k, Some o => forallb (fun '(g, _) => match lookup g k with Some _ => true | None => false end) o
  | _, _ => false
  end.

(** rlwe/elements.go:210-220 [Ciphertext.CopyNew], which ckks/ciphertext.go:77-80 calls. *)
Definition CT_CopyNew (m : mem) (ct : list nat) : mem * list nat := copy_list Poly_CopyNew m ct.

(** rlwe/elements.go:223-230 [Ciphertext.Copy]: ctxCopy on el; [None] is the panic when el has fewer polynomials. *)
Fixpoint CT_Copy (m : mem) (el ctx : list nat) : option mem :=
  match ctx with
  | [] => Some m
  | c :: ctx =>
      match el with
      | [] => None
      | e :: el => CT_Copy (Poly_Copy m e c) el ctx
      end
  end.

(** ckks/ciphertext.go:53-58 [NewCiphertextAtLevelFromPoly] and ckks/plaintext.go:50-55, one polynomial; [None]: slice out of range. *)
Definition FromPoly (m : mem) (level p : nat) : option (mem * nat) :=
  if length (coeffs (deref m p)) <? S level then None
  else Some (gonew m (Poly (firstn (S level) (coeffs (deref m p))) true false)).

(** ring/ring_operations.go:392-397 [Shift], with N and the number of moduli of the ring; [g] as in [goappend].  [None]: panic. *)
Definition shift_mask (N : nat) : Z := if (N <? 64) then (2 ^ Z.of_nat N - 1)%Z else (-1)%Z.
Definition shift_row (g N : nat) (m : mem) (n : Z) (s : slice) : option (mem * slice) :=
  let k := Z.land n (shift_mask N) in
  if (k <? 0)%Z || (Z.of_nat (len s) <? k)%Z then None
  else
    let k := Z.to_nat k in
    Some (goappend g m (Slice (arr s) (off s + k) (len s - k) (cap s - k)) (Slice (arr s) (off s) k (cap s))).
Fixpoint shift_rows (g N moduli i : nat) (m : mem) (n : Z) (p1 p2 : nat) : option mem :=
  match moduli with
  | O => Some m
  | S moduli =>
      let c1 := coeffs (deref m p1) in
      if (length c1 <=? i) || (length (coeffs (deref m p2)) <=? i) then None
      else match shift_row g N m n (nth i c1 nilslice) with
           | None => None
           | Some (m, s) =>
               let P2 := deref m p2 in
               shift_rows g N moduli (S i) (set_poly m p2 (Poly (put i s (coeffs P2)) (isNTT P2) (isMForm P2))) n p1 p2
           end
  end.
Definition Shift (g N moduli : nat) (m : mem) (p1 : nat) (n : Z) (p2 : nat) : option mem := shift_rows g N moduli 0 m n p1 p2.

(** utils/utils.go:166-178 [RotateUint64Slice]. *)
Definition RotateUint64Slice (m : mem) (s : slice) (k : Z) : mem * slice :=
  if (k =? 0)%Z || (len s =? 0) then (m, s)
  else
    let r := Z.rem k (Z.of_nat (len s)) in
    let r := Z.to_nat (if (r <? 0)%Z then r + Z.of_nat (len s) else r)%Z in
    let '(m, ret) := gomake m (len s) in
    let m := gocopy m (Slice (arr ret) 0 (len s - r) (len s)) (Slice (arr s) (off s + r) (len s - r) (cap s - r)) in
    let m := gocopy m (Slice (arr ret) (len s - r) r r) (Slice (arr s) (off s) r (cap s)) in
    (m, ret).
