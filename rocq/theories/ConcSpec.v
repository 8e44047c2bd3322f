(** Interleavings, and what it means that goroutines do not get in each other's way. *)
From Verif Require Import Word ModRed Ring NTT RingOps Scaling Rlwe Conc.
Open Scope nat_scope.

(** All the ways in which the steps of goroutines can follow each other. *)
Inductive interleaving {A} : list (list A) -> list A -> Prop :=
| all_done ts : Forall (fun t => t = []) ts -> interleaving ts []
| one_step ts1 x t ts2 l : interleaving (ts1 ++ t :: ts2) l -> interleaving (ts1 ++ (x :: t) :: ts2) (x :: l).

(** The rows of a polynomial. *)
Definition content (m : mem) (p : list nat) : rows := map m p.

Definition writes (l : list step) : list nat := map wr l.
Definition reads (l : list step) : list nat := concat (map rd l).
(** No two goroutines access the same row, one of them writing it. *)
Definition race_free (ts : list (list step)) : Prop :=
  forall i j, i < length ts -> j < length ts -> i <> j ->
  forall x, In x (writes (nth i ts [])) -> ~ In x (writes (nth j ts [])) /\ ~ In x (reads (nth j ts [])).

(** One call of Decrypt. *)
Record job := Job { j_ct : list (list nat); j_ctNTT : bool; j_pt : list nat; j_ptNTT : bool }.
(** What a goroutine does with its decryptor. *)
Definition decrypts (d : decryptor) (js : list job) : list step :=
  concat (map (fun j => c_Decrypt d (j_ct j) (j_ctNTT j) (j_pt j) (j_ptNTT j)) js).
Definition j_level (j : job) : nat := dec_level (j_ct j) (j_pt j).
(** The plaintext that [Rlwe.Decrypt] gives for this call. *)
Definition decrypted (r : Ring) (m : mem) (sk : list nat) (j : job) : rows :=
  Decrypt r (content m sk) (map (content m) (j_ct j)) (j_ctNTT j) (content m (j_pt j)) (j_ptNTT j) [].
(** The plaintext as the call leaves it. *)
Definition result (m : mem) (j : job) : rows := content m (firstn (S (j_level j)) (j_pt j)).

(** The shapes fit: no index out of range. *)
Definition job_fits (d : decryptor) (j : job) : Prop :=
  0 < length (j_ct j) /\ 0 < length (j_pt j) /\ NoDup (j_pt j) /\
  (forall c, In c (j_ct j) -> j_level j < length c) /\ j_level j < length (d_sk d) /\ j_level j < length (d_pool d).

Definition disjoint (a b : list nat) : Prop := forall x, In x a -> ~ In x b.
Definition inputs (j : job) : list nat := concat (j_ct j).
Definition outputs (js : list job) : list nat := concat (map j_pt js).

(** The decryptors made from one by [ShallowCopy] and [WithKey]: each from any of those made before. *)
Inductive copies_of (d0 : decryptor) (st0 : state) : list decryptor -> state -> Prop :=
| original : copies_of d0 st0 [d0] st0
| by_copy ds st d d' st' : copies_of d0 st0 ds st -> In d ds -> ShallowCopy d st = (d', st') -> copies_of d0 st0 (ds ++ [d']) st'
| by_key ds st d sk d' st' : copies_of d0 st0 ds st -> In d ds -> Forall (fun a => a < fst st0) sk -> WithKey d sk st = (d', st') ->
    copies_of d0 st0 (ds ++ [d']) st'.

(** Everything the goroutines work on existed before the copies were made; the plaintexts are all different, and are neither inputs
    nor keys; the buffer of the first decryptor is not used for anything else.  Ciphertexts and keys may be shared at will. *)
Definition separate_data (d0 : decryptor) (st0 : state) (ds : list decryptor) (jss : list (list job)) : Prop :=
  let js := concat jss in
  let ins := concat (map inputs js) ++ concat (map d_sk ds) in
  Forall (fun a => a < fst st0) (outputs js ++ ins ++ d_pool d0) /\ NoDup (d_pool d0) /\
  NoDup (outputs js) /\ disjoint (outputs js) ins /\ disjoint (d_pool d0) (outputs js ++ ins).

(** The same for encryption with a secret key. *)
Record ejob := EJob { k_pt : list nat; k_ptNTT : bool; k_ct0 : list nat; k_ct1 : list nat; k_ctNTT : bool; k_a : rows; k_err : rows }.
Definition encrypts (e : skEncryptor) (js : list ejob) : list step :=
  concat (map (fun j => c_Encrypt e (k_pt j) (k_ptNTT j) (k_ct0 j) (k_ct1 j) (k_ctNTT j) (k_a j) (k_err j)) js).
Definition k_level (j : ejob) : nat := Nat.min (length (k_pt j) - 1) (length (k_ct0 j) - 1).
Definition encrypted (r : Ring) (m : mem) (sk : list nat) (j : ejob) : rows * rows :=
  skEncrypt r (content m sk) (content m (k_pt j)) (k_ptNTT j) (content m (k_ct0 j)) (k_a j) (k_ctNTT j) (k_err j).
Definition eresult (m : mem) (j : ejob) : rows * rows :=
  (content m (firstn (S (k_level j)) (k_ct0 j)), content m (firstn (S (k_level j)) (k_ct1 j))).
Definition ejob_fits (e : skEncryptor) (j : ejob) : Prop :=
  0 < length (k_pt j) /\ 0 < length (k_ct0 j) /\ NoDup (k_ct0 j ++ k_ct1 j) /\ k_level j < length (k_ct1 j) /\
  length (k_a j) = S (k_level j) /\ k_level j < length (e_sk e) /\ k_level j < length (e_pool e).
Inductive ecopies_of (e0 : skEncryptor) (st0 : state) : list skEncryptor -> state -> Prop :=
| eoriginal : ecopies_of e0 st0 [e0] st0
| eby_copy es st e e' st' : ecopies_of e0 st0 es st -> In e es -> EncShallowCopy e st = (e', st') -> ecopies_of e0 st0 (es ++ [e']) st'
| eby_key es st e sk e' st' : ecopies_of e0 st0 es st -> In e es -> Forall (fun a => a < fst st0) sk -> EncWithKey e sk st = (e', st') ->
    ecopies_of e0 st0 (es ++ [e']) st'.
Definition eoutputs (js : list ejob) : list nat := concat (map (fun j => k_ct0 j ++ k_ct1 j) js).
Definition eseparate_data (e0 : skEncryptor) (st0 : state) (es : list skEncryptor) (jss : list (list ejob)) : Prop :=
  let js := concat jss in
  let ins := concat (map k_pt js) ++ concat (map e_sk es) in
  Forall (fun a => a < fst st0) (eoutputs js ++ ins ++ e_pool e0) /\ NoDup (e_pool e0) /\
  NoDup (eoutputs js) /\ disjoint (eoutputs js) ins /\ disjoint (e_pool e0) (eoutputs js ++ ins).

(** Goroutine i works with the i-th decryptor (encryptor). *)
Definition goroutines (ds : list decryptor) (jss : list (list job)) : list (list step) := map (fun p => decrypts (fst p) (snd p)) (combine ds jss).
Definition egoroutines (es : list skEncryptor) (jss : list (list ejob)) : list (list step) := map (fun p => encrypts (fst p) (snd p)) (combine es jss).
