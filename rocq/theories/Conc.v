(** Goroutines: /repo/rlwe/decryptor.go:31-114, /repo/rlwe/encryptor.go:94-194, 342-394.

    The memory holds the rows []uint64 of the polynomials; a polynomial is the list of the addresses of its rows.  A call is the list
    of its writes of rows, in the order of the loops of the code; each write is computed from the rows it reads.  Simplified: the write
    of a row is one step (the code writes its words one after the other, the transforms several times); [C90_race_free] is why this
    loses nothing.  The flags IsNTT and the lengths of the polynomials are arguments of the calls. *)
From Verif Require Import Word ModRed Ring NTT RingOps Scaling.
Open Scope nat_scope.

Definition mem := nat -> list Z.
Record step := Step { wr : nat; rd : list nat; act : list (list Z) -> list Z }.
Definition exec1 (m : mem) (s : step) : mem := fun a => if a =? wr s then act s (map m (rd s)) else m a.
Definition run (l : list step) (m : mem) : mem := fold_left exec1 l m.

(** The loops [for i := 0; i < level+1; i++] of ring/ring_operations.go: row i of [dst] is computed from the rows i of [srcs]. *)
Definition loop (level : nat) (dst : list nat) (srcs : list (list nat)) (f : nat -> list (list Z) -> list Z) : list step :=
  map (fun i => Step (nth i dst 0) (map (fun s => nth i s 0) srcs) (f i)) (seq 0 (S level)).
Definition arg (xs : list (list Z)) (k : nat) : list Z := nth k xs [].

(** The operations of ring/ring_operations.go and ring/ring_ntt.go, as in RingOps.v, on addresses. *)
Definition c_op1 (r : Ring) (f : modp -> Z -> Z) (level : nat) (p1 p2 : list nat) : list step :=
  loop level p2 [p1] (fun i xs => map (f (rmod r i)) (arg xs 0)).
Definition c_op2 (r : Ring) (f : modp -> Z -> Z -> Z) (level : nat) (p1 p2 p3 : list nat) : list step :=
  loop level p3 [p1; p2] (fun i xs => map2 (f (rmod r i)) (arg xs 0) (arg xs 1)).
(** ring/ring_operations.go:41-45, 94-98, 107-111, 191-195. *)
Definition c_AddLvl r := c_op2 r (fun m x y => CRed (wadd x y) (mq m)).
Definition c_NegLvl r := c_op1 r (fun m x => wsub (mq m) x).
Definition c_ReduceLvl r := c_op1 r (fun m x => BRedAdd x (mq m) (mbred m)).
Definition c_MulCoeffsMontgomeryLvl r := c_op2 r (fun m x y => MRed x y (mq m) (mqinv m)).
(** ring/ring_ntt.go:31-33, 44-46, 68-70. *)
Definition c_NTTLvl (r : Ring) (level : nat) (p1 p2 : list nat) : list step :=
  loop level p2 [p1] (fun i xs => ntt_row (rN r) (rmod r i) (arg xs 0)).
Definition c_NTTLazyLvl (r : Ring) (level : nat) (p1 p2 : list nat) : list step :=
  loop level p2 [p1] (fun i xs => nttlazy_row (rN r) (rmod r i) (arg xs 0)).
Definition c_InvNTTLvl (r : Ring) (level : nat) (p1 p2 : list nat) : list step :=
  loop level p2 [p1] (fun i xs => invntt_row (rN r) (rmod r i) (arg xs 0)).
(** ring/ring_poly.go:103-109 [CopyValuesLvl]. *)
Definition c_CopyValuesLvl (level : nat) (p0 p1 : list nat) : list step := loop level p1 [p0] (fun _ xs => arg xs 0).
(** Samplers (ring/ring_sampler_gaussian.go:55-57, 79-81, ring/ring_sampler_uniform.go:85-127): they write the rows [v], or add them.  The
    random words are given; a sampler belongs to one encryptor. *)
Definition c_ReadLvl (level : nat) (v : rows) (p : list nat) : list step := loop level p [] (fun i _ => prow v i).
Definition c_ReadAndAddLvl (r : Ring) (level : nat) (v : rows) (p : list nat) : list step :=
  loop level p [p] (fun i xs => map2 (fun x y => CRed (wadd x y) (mq (rmod r i))) (arg xs 0) (prow v i)).

(** The memory with its first free address; ring.Ring.NewPoly (ring/ring.go:387-396). *)
Definition state : Type := nat * mem.
Definition NewPoly (r : Ring) (st : state) : list nat * state :=
  let '(next, m) := st in
  let n := length (rmods r) in
  (seq next n, (next + n, fun a => if (next <=? a) && (a <? next + n) then repeat 0%Z (rN r) else m a)).

(** rlwe/decryptor.go:31-36 *)
Record decryptor := Decryptor { d_ring : Ring; d_pool : list nat; d_sk : list nat }.
(** rlwe/decryptor.go:39-50 [NewDecryptor], 97-103 [ShallowCopy], 108-114 [WithKey].  The check of the degree of the key is not modelled. *)
Definition NewDecryptor (r : Ring) (sk : list nat) (st : state) : decryptor * state :=
  let '(pool, st) := NewPoly r st in (Decryptor r pool sk, st).
Definition ShallowCopy (d : decryptor) (st : state) : decryptor * state :=
  let '(pool, st) := NewPoly (d_ring d) st in (Decryptor (d_ring d) pool (d_sk d), st).
Definition WithKey (d : decryptor) (sk : list nat) (st : state) : decryptor * state :=
  let '(pool, st) := NewPoly (d_ring d) st in (Decryptor (d_ring d) pool sk, st).

(** rlwe/decryptor.go:55-92 [Decrypt]: 69-83 one iteration of the loop. *)
Definition c_decrypt_step (d : decryptor) (level : nat) (ct : list (list nat)) (ctNTT : bool) (pt : list nat) (i : nat) : list step :=
  c_MulCoeffsMontgomeryLvl (d_ring d) level pt (d_sk d) pt ++
  (if ctNTT then c_AddLvl (d_ring d) level pt (nth (i - 1) ct []) pt
   else c_NTTLazyLvl (d_ring d) level (nth (i - 1) ct []) (d_pool d) ++ c_AddLvl (d_ring d) level pt (d_pool d) pt) ++
  (if Z.land (Z.of_nat i) 7 =? 7 then c_ReduceLvl (d_ring d) level pt pt else [])%Z.
Definition dec_level (ct : list (list nat)) (pt : list nat) : nat := Nat.min (length (nth 0 ct []) - 1) (length pt - 1).
Definition c_Decrypt (d : decryptor) (ct : list (list nat)) (ctNTT : bool) (pt : list nat) (ptNTT : bool) : list step :=
  let level := dec_level ct pt in
  let degree := length ct - 1 in
  let pt := firstn (S level) pt in
  (if ctNTT then c_CopyValuesLvl level (nth degree ct []) pt else c_NTTLazyLvl (d_ring d) level (nth degree ct []) pt) ++
  concat (map (c_decrypt_step d level ct ctNTT pt) (rev (seq 1 degree))) ++
  (if Z.land (Z.of_nat degree) 7 =? 7 then [] else c_ReduceLvl (d_ring d) level pt pt)%Z ++
  (if ptNTT then [] else c_InvNTTLvl (d_ring d) level pt pt).

(** rlwe/encryptor.go:44-47, 94-97 [skEncryptor]; only the buffer poolQ[0], which encryption with a secret key uses. *)
Record skEncryptor := SkEncryptor { e_ring : Ring; e_pool : list nat; e_sk : list nat }.
(** rlwe/encryptor.go:158-160, 165-178 [ShallowCopy]; 99-115 [newEncryptorBuffers], poolQ only. *)
Definition EncShallowCopy (e : skEncryptor) (st : state) : skEncryptor * state :=
  let '(pool, st) := NewPoly (e_ring e) st in (SkEncryptor (e_ring e) pool (e_sk e), st).
(** rlwe/encryptor.go:184-186 [WithKey], with a secret key. *)
Definition EncWithKey (e : skEncryptor) (sk : list nat) (st : state) : skEncryptor * state :=
  let '(pool, st) := NewPoly (e_ring e) st in (SkEncryptor (e_ring e) pool sk, st).

(** rlwe/encryptor.go:140-145 [skEncryptor.Encrypt], 342-394 [encrypt]; [a] and [err] are the words of the samplers. *)
Definition c_Encrypt (e : skEncryptor) (pt : list nat) (ptNTT : bool) (ct0 ct1 : list nat) (ctNTT : bool) (a err : rows) : list step :=
  let r := e_ring e in
  let level := Nat.min (length pt - 1) (length ct0 - 1) in
  c_ReadLvl level a ct1 ++
  c_MulCoeffsMontgomeryLvl r level ct1 (e_sk e) ct0 ++
  c_NegLvl r level ct0 ct0 ++
  (if ctNTT then
     c_ReadLvl level err (e_pool e) ++
     (if ptNTT then
        c_NTTLvl r level (e_pool e) (e_pool e) ++ c_AddLvl r level ct0 (e_pool e) ct0 ++ c_AddLvl r level ct0 pt ct0
      else
        c_AddLvl r level (e_pool e) pt (e_pool e) ++ c_NTTLvl r level (e_pool e) (e_pool e) ++ c_AddLvl r level ct0 (e_pool e) ct0)
   else
     (if ptNTT then c_AddLvl r level ct0 pt ct0 ++ c_InvNTTLvl r level ct0 ct0
      else c_InvNTTLvl r level ct0 ct0 ++ c_AddLvl r level ct0 pt ct0) ++
     c_ReadAndAddLvl r (length ct0 - 1) err ct0 ++
     c_InvNTTLvl r level ct1 ct1).
