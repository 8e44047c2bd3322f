(** What the theorems about copies say: contents, changes made through a pointer, and separation. *)
From Verif Require Import Word Heap.
Open Scope nat_scope.

(** What can be seen of a polynomial: its rows and its flags. *)
Definition content (m : mem) (p : nat) : list (list Z) * bool * bool :=
  (map (words m) (coeffs (deref m p)), isNTT (deref m p), isMForm (deref m p)).

(** Changes in place: a word of a row, the flags, the rows kept. *)
Inductive change := SetWord (i j : nat) (v : Z) | SetFlags (ntt mform : bool) | KeepRows (k : nat).
Definition apply_change (m : mem) (p : nat) (c : change) : mem :=
  let P := deref m p in
  match c with
  | SetWord i j v =>
      let s := nth i (coeffs P) nilslice in
      if (i <? length (coeffs P)) && (j <? len s) then set_words m (Slice (arr s) (off s + j) 1 1) [v] else m
  | SetFlags a b => set_poly m p (Poly (coeffs P) a b)
  | KeepRows k => set_poly m p (Poly (firstn k (coeffs P)) (isNTT P) (isMForm P))
  end.

(** A list of changes, each through a pointer. *)
Definition changes (m : mem) (ws : list (nat * change)) : mem := fold_left (fun m w => apply_change m (fst w) (snd w)) ws m.

(** Every row lies in an array that exists. *)
Definition slice_ok (m : mem) (s : slice) : Prop :=
  arr s < length (arrays m) /\ len s <= cap s /\ off s + cap s <= length (nth (arr s) (arrays m) []).
Definition mem_ok (m : mem) : Prop := Forall (fun P => Forall (slice_ok m) (coeffs P)) (polys m).
Definition valid (m : mem) (p : nat) : Prop := p < length (polys m).

(** The polynomials of [m] and those that [m'] has in addition never see each other's changes: whatever is done through whichever
    pointers, those of [m] have the contents they have when only the changes through pointers of [m] are made, and in [m];
    and the others the contents they have when only the changes through the new pointers are made. *)
Definition through_old (m : mem) (w : nat * change) : bool := fst w <? length (polys m).
Definition separate (m m' : mem) : Prop :=
  forall ws,
    (forall p, valid m p -> content (changes m' ws) p = content (changes m (filter (through_old m) ws)) p) /\
    (forall p, ~ valid m p -> content (changes m' ws) p = content (changes m' (filter (fun w => negb (through_old m w)) ws)) p).

(** The pointers of a key, and its shape with the contents in place of the pointers. *)
Definition viewQP (m : mem) (p : polyQP) := (option_map (content m) (pQ p), option_map (content m) (pP p)).
Definition viewPK (m : mem) (k : publicKey) := (viewQP m (fst k), viewQP m (snd k)).
Definition viewSWK (m : mem) (k : switchingKey) := map (viewPK m) k.
Definition viewRLK (m : mem) (k : relinKey) := map (option_map (viewSWK m)) k.
Definition optptr (p : option nat) : list nat := match p with Some p => [p] | None => [] end.
Definition ptrsQP (p : polyQP) : list nat := optptr (pQ p) ++ optptr (pP p).
Definition ptrsPK (k : publicKey) : list nat := ptrsQP (fst k) ++ ptrsQP (snd k).
Definition ptrsSWK (k : switchingKey) : list nat := concat (map ptrsPK k).
Definition ptrsRLK (k : relinKey) : list nat := concat (map (fun s => match s with Some s => ptrsSWK s | None => [] end) k).

(** [m'] and the pointers [ps] are the outcome of a deep copy made in [m]. *)
Definition deep (m m' : mem) (ps : list nat) : Prop :=
  mem_ok m' /\ separate m m' /\ Forall (fun p => ~ valid m p /\ valid m' p) ps.

(** The arrays of the rows of a polynomial. *)
Definition rows_of (m : mem) (p : nat) : list nat := map arr (coeffs (deref m p)).

(** The number and the lengths of the rows. *)
Definition shape (m : mem) (p : nat) : list nat := map len (coeffs (deref m p)).

(** Contents without the flags. *)
Definition rows_at (m : mem) (p : nat) : list (list Z) := map (words m) (coeffs (deref m p)).
Definition rowsQP (m : mem) (p : polyQP) := (option_map (rows_at m) (pQ p), option_map (rows_at m) (pP p)).
Definition rowsPK (m : mem) (k : publicKey) := (rowsQP m (fst k), rowsQP m (snd k)).
Definition rowsSWK (m : mem) (k : switchingKey) := map (rowsPK m) k.

(** No nil polynomial. *)
Definition fullQP (p : polyQP) : Prop := pQ p <> None /\ pP p <> None.
Definition fullPK (k : publicKey) : Prop := fullQP (fst k) /\ fullQP (snd k).
Definition fullSWK (k : switchingKey) : Prop := Forall fullPK k.

(** The same for keys that may be nil. *)
Definition fullO (k : option switchingKey) : Prop := match k with Some k => fullSWK k | None => True end.
Definition rowsO (m : mem) (k : option switchingKey) := option_map (rowsSWK m) k.

(** [q] is none of the polynomials [ps] and has no array in common with them. *)
Definition elsewhere (m : mem) (ps : list nat) (q : nat) : Prop :=
  ~ In q ps /\ forall a, In a (rows_of m q) -> ~ In a (concat (map (rows_of m) ps)).

(** All rows have length [N]. *)
Definition rect (m : mem) (N : nat) (p : nat) : Prop := Forall (fun n => n = N) (shape m p).

(** Rotation by [n] places to the left. *)
Definition rot_left (n : nat) (l : list Z) : list Z := skipn n l ++ firstn n l.

(** Changes of words only. *)
Definition word_change (c : change) : bool := match c with SetWord _ _ _ => true | _ => false end.
