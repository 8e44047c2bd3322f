(** Property theorems C88, C89: copies and equality of polynomials and keys. *)
From Verif Require Import Word Heap HeapSpec HeapProofs HeapTop HeapEq HeapEx.
Open Scope nat_scope.

(** C88: Copies. *)
Theorem C88_polynomial : forall m p m' p', mem_ok m -> Poly_CopyNew m p = (m', p') ->
  deep m m' [p'] /\ content m' p' = content m p.
Proof. exact poly_copy_top. Qed.
Print Assumptions C88_polynomial.

Theorem C88_ciphertext : forall m ct m' ct', mem_ok m -> Forall (valid m) ct -> CT_CopyNew m ct = (m', ct') ->
  deep m m' ct' /\ map (content m') ct' = map (content m) ct.
Proof. exact ct_copy_top. Qed.
Print Assumptions C88_ciphertext.

Theorem C88_public_key : forall m k m' k', mem_ok m -> Forall (valid m) (ptrsPK k) -> PK_CopyNew m k = (m', k') ->
  deep m m' (ptrsPK k') /\ viewPK m' k' = viewPK m k.
Proof. exact pk_copy_top. Qed.
Print Assumptions C88_public_key.

Theorem C88_switching_key : forall m k, mem_ok m -> Forall (valid m) (ptrsSWK k) -> k <> [] ->
  exists m' k', SWK_CopyNew m (Some k) = (m', Some k') /\ deep m m' (ptrsSWK k') /\ viewSWK m' k' = viewSWK m k.
Proof. exact swk_copy_top. Qed.
Print Assumptions C88_switching_key.

Theorem C88_relinearization_key : forall m k, mem_ok m -> Forall (valid m) (ptrsRLK k) -> Forall (fun s => s <> Some []) k -> k <> [] ->
  exists m' k', RLK_CopyNew m (Some k) = (m', Some k') /\ deep m m' (ptrsRLK k') /\ viewRLK m' k' = viewRLK m k.
Proof. exact rlk_copy_top. Qed.
Print Assumptions C88_relinearization_key.

(** A key without components is copied to nil, which is not equal to it. *)
Theorem C88_empty_key_refuted : exists m m', mem_ok m /\ SWK_CopyNew m (Some []) = (m', None) /\ SWK_Equals m' (Some []) None = false /\
  RLK_CopyNew m (Some []) = (m', None) /\ RLK_Equals m' (Some []) None = false.
Proof. exact empty_key_ex. Qed.
Print Assumptions C88_empty_key_refuted.

(** Copy in place: the rows both have are copied, and the flags; the receiver keeps the rows the source has not. *)
Theorem C88_in_place : forall m N pol p1, mem_ok m -> valid m pol -> rect m N pol -> rect m N p1 -> NoDup (rows_of m pol) -> elsewhere m [pol] p1 ->
  let m' := Poly_Copy m pol p1 in
  content m' pol = (firstn (length (rows_at m pol)) (rows_at m p1) ++ skipn (length (rows_at m p1)) (rows_at m pol),
                    isNTT (deref m p1), isMForm (deref m p1)) /\
  forall q, elsewhere m [pol] q -> content m' q = content m q.
Proof. exact in_place_top. Qed.
Print Assumptions C88_in_place.

Theorem C88_ciphertext_in_place : forall m N el ctx, mem_ok m -> length el = length ctx -> Forall (valid m) el -> Forall (rect m N) el ->
  Forall2 (fun e c => shape m e = shape m c) el ctx -> NoDup el -> NoDup (concat (map (rows_of m) el)) -> Forall (elsewhere m el) ctx ->
  exists m', CT_Copy m el ctx = Some m' /\ map (content m') el = map (content m) ctx /\
    forall q, elsewhere m el q -> content m' q = content m q.
Proof. exact (fun m N el ctx => ct_copy_lemma N el ctx m). Qed.
Print Assumptions C88_ciphertext_in_place.

(** With different numbers of rows the receiver is not equal to the source afterwards. *)
Theorem C88_in_place_refuted : exists m pol p1, mem_ok m /\ valid m pol /\ valid m p1 /\ rect m 4 pol /\ rect m 4 p1 /\ NoDup (rows_of m pol) /\
  elsewhere m [pol] p1 /\ Poly_Equals (Poly_Copy m pol p1) (Some pol) (Some p1) = false.
Proof. exact levels_ex. Qed.
Print Assumptions C88_in_place_refuted.

(** Ciphertexts and plaintexts made from polynomials share their rows: words written through either are seen through both. *)
Theorem C88_shared : forall m level p m' p', mem_ok m -> valid m p -> FromPoly m level p = Some (m', p') ->
  p' = length (polys m) /\ content m' p' = (firstn (S level) (rows_at m p), true, false) /\
  (forall q, valid m q -> content m' q = content m q) /\
  forall ws, forallb (fun w => word_change (snd w)) ws = true ->
    rows_at (changes m' ws) p' = firstn (S level) (rows_at (changes m' ws) p).
Proof. exact from_poly_lemma. Qed.
Print Assumptions C88_shared.

(** Shift by 1 to N places: the rows of the receiver are rotated and new. *)
Theorem C88_shift : forall g N moduli m p1 n p2, mem_ok m -> valid m p1 -> valid m p2 ->
  length (coeffs (deref m p1)) = moduli -> length (coeffs (deref m p2)) = moduli ->
  Forall (fun s => len s = N /\ cap s = N) (coeffs (deref m p1)) -> (0 < n <= Z.of_nat N)%Z ->
  exists m', Shift g N moduli m p1 n p2 = Some m' /\
    rows_at m' p2 = map (rot_left (Z.to_nat n)) (rows_at m p1) /\
    (forall q, valid m q -> q <> p2 -> content m' q = content m q) /\
    Forall (fun a => length (arrays m) <= a) (rows_of m' p2).
Proof. exact shift_lemma. Qed.
Print Assumptions C88_shift.

(** Shift by 0: the receiver gets the rows of the source themselves, and writing to it changes the source. *)
Theorem C88_shift_zero_refuted : exists m p1 p2 m', mem_ok m /\ p1 <> p2 /\ Shift 0 4 2 m p1 0 p2 = Some m' /\ content m' p1 = content m p1 /\
  exists w, content (apply_change m' p2 w) p1 <> content m p1.
Proof. exact shift_zero_ex. Qed.
Print Assumptions C88_shift_zero_refuted.

(** Shift by a negative number or by more than N: panic, instead of the circular shift. *)
Theorem C88_shift_panics : forall g N moduli m p1 n p2, 64 <= N -> (n < 0 \/ Z.of_nat N < n)%Z -> 0 < moduli ->
  Forall (fun s => len s = N) (coeffs (deref m p1)) -> Shift g N moduli m p1 n p2 = None.
Proof. exact shift_panics_lemma. Qed.
Print Assumptions C88_shift_panics.

(** Rotation of a slice: a new slice, unless the number of places is 0. *)
Theorem C88_rotate_slice : forall m s k, slice_ok m s -> k <> 0%Z -> 0 < len s ->
  let '(m', r) := RotateUint64Slice m s k in
  words m' r = rot_left (Z.to_nat (k mod Z.of_nat (len s))) (words m s) /\ arr r = length (arrays m) /\
  (exists la, arrays m' = arrays m ++ la) /\ polys m' = polys m.
Proof. exact rotate_lemma. Qed.
Print Assumptions C88_rotate_slice.

Theorem C88_rotate_slice_refuted : exists m s v, mem_ok m /\ slice_ok m s /\ 0 < len s /\
  let '(m', r) := RotateUint64Slice m s 0 in words (set_words m' (Slice (arr r) (off r) 1 1) [v]) s <> words m s.
Proof. exact rotate_zero_ex. Qed.
Print Assumptions C88_rotate_slice_refuted.

Example C88_example_mem : mem_ok ex_mem /\ Forall (valid ex_mem) (ptrsSWK ex_swk) /\ ex_swk <> [] /\ content ex_mem 0 = ([[1; 2; 3; 4]; [5; 6; 7; 8]]%Z, true, false).
Proof. exact (conj ex_mem_ok (conj ex_swk_valid (conj (fun H => eq_ind ex_swk (fun l => match l with [] => False | _ => True end) I [] H) eq_refl))). Qed.
Example C88_example_copy : let '(m', p') := Poly_CopyNew ex_mem 0 in p' = 4 /\ rows_of m' p' = [6; 7] /\
  content (changes m' [(4, SetWord 1 2 99%Z); (0, SetWord 0 0 88%Z)]) 4 = ([[1; 2; 3; 4]; [5; 6; 99; 8]]%Z, true, false) /\
  content (changes m' [(4, SetWord 1 2 99%Z); (0, SetWord 0 0 88%Z)]) 0 = ([[88; 2; 3; 4]; [5; 6; 7; 8]]%Z, true, false).
Proof. vm_compute. repeat split. Qed.
Example C88_example_in_place : option_map (fun m => content m 2) (CT_Copy ex_mem [2; 3] [0; 1]) = Some (content ex_mem 0) /\
  option_map (fun m => content m 3) (CT_Copy ex_mem [2; 3] [0; 1]) = Some (content ex_mem 1).
Proof. vm_compute. repeat split. Qed.
Example C88_example_shift : option_map (fun m => rows_at m 2) (Shift 3 4 2 ex_mem 0 1 2) = Some [[2; 3; 4; 1]; [6; 7; 8; 5]]%Z.
Proof. reflexivity. Qed.
Example C88_example_shared : option_map (fun '(m, p) => rows_at (apply_change m p (SetWord 0 0 9%Z)) 0) (FromPoly ex_mem 0 0) = Some [[9; 2; 3; 4]; [5; 6; 7; 8]]%Z.
Proof. reflexivity. Qed.
Example C88_example_rotate : let '(m, r) := RotateUint64Slice ex_mem (full 0 4) (-1) in words m r = [4; 1; 2; 3]%Z.
Proof. reflexivity. Qed.

(** C89: Equality. *)
Theorem C89_polynomials : forall m p o, Poly_Equals m (Some p) (Some o) = true <-> rows_at m p = rows_at m o.
Proof. exact poly_equals_spec. Qed.
Print Assumptions C89_polynomials.

Theorem C89_switching_keys : forall m a b, fullO a -> SWK_Equals m a b = true <-> rowsO m a = rowsO m b.
Proof. exact swk_opt_spec. Qed.
Print Assumptions C89_switching_keys.

Theorem C89_public_keys : forall m k o, fullPK k -> PK_Equals m k o = true <-> rowsPK m k = rowsPK m o.
Proof. exact pk_equals_spec. Qed.
Print Assumptions C89_public_keys.

Theorem C89_relinearization_keys : forall m k o, Forall fullO k -> RLK_Equals m (Some k) (Some o) = true <-> map (rowsO m) k = map (rowsO m) o.
Proof. exact rlk_equals_spec. Qed.
Print Assumptions C89_relinearization_keys.

Theorem C89_rotation_keys : forall m k o, NoDup (map fst k) -> NoDup (map fst o) -> Forall (fun e => fullO (snd e)) o ->
  RTK_Equals m (Some k) (Some o) = true <-> forall g, option_map (rowsO m) (lookup g k) = option_map (rowsO m) (lookup g o).
Proof. exact rtk_equals_spec. Qed.
Print Assumptions C89_rotation_keys.

Theorem C89_includes : forall k o, RTK_Includes (Some k) (Some o) = true <-> incl (map fst o) (map fst k).
Proof. exact includes_spec. Qed.
Print Assumptions C89_includes.

Theorem C89_copy : forall m k, mem_ok m -> Forall (valid m) (ptrsSWK k) -> fullSWK k -> k <> [] ->
  exists m' k', SWK_CopyNew m (Some k) = (m', Some k') /\ SWK_Equals m' (Some k) (Some k') = true.
Proof. exact copy_equals_lemma. Qed.
Print Assumptions C89_copy.

(** With a nil polynomial, Equals is not symmetric. *)
Theorem C89_nil_refuted : exists m k o, PK_Equals m k o = true /\ PK_Equals m o k = false.
Proof. exact nil_ex. Qed.
Print Assumptions C89_nil_refuted.

(** Includes looks at the Galois elements only. *)
Theorem C89_includes_refuted : exists m k o, RTK_Includes (Some k) (Some o) = true /\ length k = length o /\ RTK_Equals m (Some k) (Some o) = false.
Proof. exact includes_ex. Qed.
Print Assumptions C89_includes_refuted.

(** Equal polynomials may differ in the domain their flags announce. *)
Theorem C89_flags_refuted : exists m p o, content m p <> content m o /\ Poly_Equals m (Some p) (Some o) = true.
Proof. exact flags_ex. Qed.
Print Assumptions C89_flags_refuted.

Example C89_example_equal : SWK_Equals ex_mem (Some ex_swk) (Some ex_swk) = true /\ fullSWK ex_swk.
Proof. exact (conj eq_refl ex_swk_full). Qed.
Example C89_example_different : SWK_Equals (set_words ex_mem (Slice 4 3 1 1) [1%Z]) (Some ex_swk) (Some ex_swk) = true /\
  Poly_Equals (set_words ex_mem (Slice 4 3 1 1) [1%Z]) (Some 2) (Some 0) = false.
Proof. split; reflexivity. Qed.
Example C89_example_rotation : RTK_Equals ex_mem (Some [(5%N, Some ex_swk); (25%N, None)]) (Some [(25%N, None); (5%N, Some ex_swk)]) = true.
Proof. reflexivity. Qed.
