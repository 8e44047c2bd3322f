(** Copies in place, and the operations that share rows. *)
From Verif Require Import Word Heap HeapSpec HeapProofs.
Require Import Lia.
Open Scope nat_scope.

(** ** One copy *)

Lemma set_words_ok m s w t : slice_ok m t -> slice_ok (set_words m s w) t.
Proof.
  intros (H1 & H2 & H3). split; [unfold set_words; simpl; now rewrite put_length|]. split; [exact H2|].
  rewrite nth_arrays_set. destruct (Nat.eqb_spec (arr t) (arr s)) as [E|E]; simpl; [|exact H3].
  destruct (_ <? _); [|exact H3]. rewrite overwrite_length, <- E. exact H3.
Qed.

Lemma set_words_other m s w t : arr t <> arr s -> words (set_words m s w) t = words m t.
Proof.
  intros H. unfold words. rewrite nth_arrays_set. destruct (Nat.eqb_spec (arr t) (arr s)); [contradiction|reflexivity].
Qed.

Lemma set_words_same m s w : slice_ok m s -> length w = len s -> words (set_words m s w) s = w.
Proof.
  intros (H1 & H2 & H3) L. unfold words. rewrite nth_arrays_set, Nat.eqb_refl. simpl.
  destruct (Nat.ltb_spec (arr s) (length (arrays m))); [|lia].
  set (l := nth (arr s) (arrays m) []) in *.
  apply (list_ext 0%Z).
  - rewrite firstn_length, skipn_length, overwrite_length. lia.
  - intros i Hi. rewrite firstn_length, skipn_length, overwrite_length in Hi. rewrite nth_firstn', nth_skipn', nth_overwrite.
    destruct (Nat.ltb_spec i (len s)); [|lia]. destruct (Nat.leb_spec (off s) (off s + i)); [|lia].
    destruct (Nat.ltb_spec (off s + i) (off s + length w)); [|lia]. destruct (Nat.ltb_spec (off s + i) (length l)); [|lia]. simpl. f_equal. lia.
Qed.

Lemma gocopy_same m d s : slice_ok m d -> slice_ok m s -> len d = len s -> words (gocopy m d s) d = words m s.
Proof.
  intros Hd Hs E. unfold gocopy. pose proof (words_length m s Hs) as L. rewrite firstn_all2 by lia.
  apply set_words_same; [exact Hd|lia].
Qed.

(** ** Copies of the rows of two polynomials *)

Lemma gocopies_spec N dsts : forall srcs m,
  Forall (slice_ok m) dsts -> Forall (slice_ok m) srcs -> Forall (fun s => len s = N) dsts -> Forall (fun s => len s = N) srcs ->
  NoDup (map arr dsts) -> (forall a, In a (map arr dsts) -> ~ In a (map arr srcs)) ->
  let m' := gocopies m dsts srcs in
  map (words m') dsts = firstn (length dsts) (map (words m) srcs) ++ skipn (length srcs) (map (words m) dsts) /\
  (forall t, ~ In (arr t) (map arr dsts) -> words m' t = words m t) /\
  (forall t, slice_ok m t -> slice_ok m' t) /\ polys m' = polys m.
Proof.
  induction dsts as [|d dsts IH]; intros srcs m Hd Hs Ld Ls ND Dis; [now destruct srcs|].
  destruct srcs as [|s srcs]; [cbv zeta; simpl; auto|].
  apply Forall_cons_iff in Hd as [Hd1 Hd2]. apply Forall_cons_iff in Hs as [Hs1 Hs2]. apply Forall_cons_iff in Ld as [Ld1 Ld2].
  apply Forall_cons_iff in Ls as [Ls1 Ls2]. apply NoDup_cons_iff in ND as [ND1 ND2]. fold (map arr dsts) in *. simpl.
  set (m1 := gocopy m d s).
  assert (P1 : forall t, slice_ok m t -> slice_ok m1 t) by (intros; now apply set_words_ok).
  assert (W1 : forall t, arr t <> arr d -> words m1 t = words m t) by (intros; now apply set_words_other).
  assert (Dis' : forall a, In a (map arr dsts) -> ~ In a (map arr srcs)).
  { intros a Ha Ha'. apply (Dis a); simpl; auto. }
  destruct (IH srcs m1) as (E & O & Ok & Ep); try assumption.
  { eapply Forall_impl; [|exact Hd2]. intros; now apply P1. }
  { eapply Forall_impl; [|exact Hs2]. intros; now apply P1. }
  split; [|split; [|split]].
  - f_equal.
    + rewrite O by assumption. apply gocopy_same; auto; lia.
    + rewrite E. f_equal; f_equal.
      * apply map_ext_in. intros t Ht. apply W1. intros Ea. apply (Dis (arr d)); simpl; [now left|]. right. rewrite <- Ea. now apply in_map.
      * apply map_ext_in. intros t Ht. apply W1. intros Ea. apply ND1. rewrite <- Ea. now apply in_map.
  - intros t Ht. rewrite O by (intros Hin; apply Ht; now right). apply W1. intros Ea. apply Ht. now left.
  - auto.
  - exact Ep.
Qed.

Lemma rect_rows m N p : rect m N p -> Forall (fun s => len s = N) (coeffs (deref m p)).
Proof. intros H. apply Forall_map in H. exact H. Qed.

Lemma poly_copy_lemma m N pol p1 : mem_ok m -> valid m pol -> rect m N pol -> rect m N p1 ->
  NoDup (rows_of m pol) -> elsewhere m [pol] p1 ->
  let m' := Poly_Copy m pol p1 in
  content m' pol = (firstn (length (rows_at m pol)) (rows_at m p1) ++ skipn (length (rows_at m p1)) (rows_at m pol),
                    isNTT (deref m p1), isMForm (deref m p1)) /\
  (forall q, elsewhere m [pol] q -> content m' q = content m q) /\
  (forall t, slice_ok m t -> slice_ok m' t) /\ (forall q, coeffs (deref m' q) = coeffs (deref m q)) /\ length (polys m') = length (polys m).
Proof.
  intros H V R R1 ND [Hne Dis]. simpl in Hne.
  pose proof (gocopies_spec N (coeffs (deref m pol)) (coeffs (deref m p1)) m (poly_ok m pol H) (poly_ok m p1 H) (rect_rows _ _ _ R) (rect_rows _ _ _ R1) ND) as G.
  assert (Dis' : forall a, In a (map arr (coeffs (deref m pol))) -> ~ In a (map arr (coeffs (deref m p1)))).
  { intros a Ha Hb. apply (Dis a Hb). simpl. rewrite app_nil_r. exact Ha. }
  specialize (G Dis'). cbv zeta in G. destruct G as (E & O & Ok & Ep).
  unfold Poly_Copy, Poly_CopyValues. set (m1 := gocopies m (coeffs (deref m pol)) (coeffs (deref m p1))) in *.
  assert (D : forall q, deref m1 q = deref m q) by (intros q; unfold deref; now rewrite Ep).
  cbv zeta. rewrite !D.
  set (m' := set_poly m1 pol _).
  assert (D' : forall q, deref m' q = if q =? pol then Poly (coeffs (deref m pol)) (isNTT (deref m p1)) (isMForm (deref m p1)) else deref m q).
  { intros q. unfold m'. rewrite deref_set_poly, Ep, D. destruct (Nat.ltb_spec pol (length (polys m))); [|unfold valid in V; lia]. now rewrite andb_true_r. }
  assert (C' : forall q, coeffs (deref m' q) = coeffs (deref m q)).
  { intros q. rewrite D'. destruct (Nat.eqb_spec q pol); [subst; reflexivity|reflexivity]. }
  split; [|split; [|split; [|split]]].
  - unfold content, rows_at. rewrite D', Nat.eqb_refl. simpl. rewrite !map_length. f_equal. f_equal. exact E.
  - intros q [Hq1 Hq2]. simpl in Hq1. unfold content. rewrite C'. rewrite D'. destruct (Nat.eqb_spec q pol); [subst; tauto|]. f_equal. f_equal.
    apply map_ext_in. intros t Ht. change (words m1 t = words m t). apply O. intros Hin. apply (Hq2 (arr t)); [now apply in_map|].
    simpl. rewrite app_nil_r. exact Hin.
  - intros t Ht. exact (Ok t Ht).
  - exact C'.
  - unfold m', set_poly. simpl. now rewrite put_length, Ep.
Qed.

Lemma rows_of_coeffs m m' : (forall q, coeffs (deref m' q) = coeffs (deref m q)) -> forall q, rows_of m' q = rows_of m q.
Proof. intros H q. unfold rows_of. now rewrite H. Qed.

Lemma NoDup_app_parts {A} (l l' : list A) : NoDup (l ++ l') -> NoDup l /\ NoDup l' /\ (forall x, In x l -> ~ In x l').
Proof.
  induction l as [|y l IH]; simpl; intros H; [split; [constructor|split; [exact H|tauto]]|].
  inversion H; subst. destruct (IH ltac:(assumption)) as (A1 & A2 & A3). split; [|split; [exact A2|]].
  - constructor; [|exact A1]. intros Hin. match goal with H : ~ In y (l ++ l') |- _ => apply H end. apply in_or_app. now left.
  - intros x [->|Hx]; [|now apply A3]. intros Hin. match goal with H : ~ In x (l ++ l') |- _ => apply H end. apply in_or_app. now right.
Qed.

Lemma ct_copy_lemma N el : forall ctx m, mem_ok m -> length el = length ctx ->
  Forall (valid m) el -> Forall (rect m N) el -> Forall2 (fun e c => shape m e = shape m c) el ctx ->
  NoDup el -> NoDup (concat (map (rows_of m) el)) -> Forall (elsewhere m el) ctx ->
  exists m', CT_Copy m el ctx = Some m' /\ map (content m') el = map (content m) ctx /\
    (forall q, elsewhere m el q -> content m' q = content m q).
Proof.
  induction el as [|e el IH]; intros [|c ctx] m H L V R S ND NR Dis; simpl in L; try discriminate; [exists m; simpl; auto|].
  apply Forall_cons_iff in V as [V1 V2]. apply Forall_cons_iff in R as [R1 R2]. apply NoDup_cons_iff in ND as [ND1 ND2].
  apply Forall_cons_iff in Dis as [Dis1 Dis2].
  assert (S1 : shape m e = shape m c) by (inversion S; assumption). assert (S2 : Forall2 (fun e c => shape m e = shape m c) el ctx) by (inversion S; assumption).
  simpl in NR. destruct (NoDup_app_parts _ _ NR) as (NR1 & NR2 & NR3).
  assert (Rc : rect m N c) by (unfold rect in *; rewrite <- S1; assumption).
  assert (El1 : forall q, elsewhere m (e :: el) q -> elsewhere m [e] q).
  { intros q [Q1 Q2]. split; [simpl in *; tauto|]. intros a Ha Hin. apply (Q2 a Ha). simpl in *. rewrite app_nil_r in Hin. apply in_or_app. now left. }
  assert (El2 : forall q, elsewhere m (e :: el) q -> elsewhere m el q).
  { intros q [Q1 Q2]. split; [simpl in *; tauto|]. intros a Ha Hin. apply (Q2 a Ha). simpl. apply in_or_app. now right. }
  destruct (poly_copy_lemma m N e c) as (E1 & O1 & Ok1 & C1 & P1); auto.
  set (m1 := Poly_Copy m e c) in *.
  pose proof (rows_of_coeffs m m1 C1) as RO.
  assert (Els : forall q, elsewhere m el q -> elsewhere m1 el q).
  { intros q [Q1 Q2]. split; [exact Q1|]. intros a. rewrite RO. rewrite (map_ext _ _ RO). apply Q2. }
  assert (Sh : forall q, shape m1 q = shape m q) by (intros q; unfold shape; now rewrite C1).
  destruct (IH ctx m1) as (m' & Em & Em2 & Em3).
  - unfold mem_ok. apply Forall_forall. intros P HP. destruct (In_nth _ _ nilpoly HP) as (q & Hq & <-).
    change (nth q (polys m1) nilpoly) with (deref m1 q). rewrite C1. eapply Forall_impl; [|apply (poly_ok m q H)]. intros t Ht. now apply Ok1.
  - lia.
  - eapply Forall_impl; [|exact V2]. unfold valid. intros q Hq. rewrite P1. exact Hq.
  - eapply Forall_impl; [|exact R2]. unfold rect. intros q Hq. rewrite Sh. exact Hq.
  - revert S2. clear -Sh. intros F. induction F; constructor; auto. now rewrite !Sh.
  - assumption.
  - rewrite (map_ext _ _ RO). assumption.
  - eapply Forall_impl; [|exact Dis2]. intros q Hq. now apply Els, El2.
  - exists m'. split; [exact Em|]. split.
    + simpl. f_equal.
      * rewrite Em3.
        2:{ apply Els. split; [assumption|]. intros a Ha. now apply NR3. }
        rewrite E1. unfold content, rows_at. f_equal. f_equal.
        rewrite !map_length. assert (Lc : length (coeffs (deref m e)) = length (coeffs (deref m c))).
        { apply (f_equal (@length _)) in S1. unfold shape in S1. now rewrite !map_length in S1. }
        rewrite firstn_all2 by (rewrite map_length; lia). rewrite skipn_all2 by (rewrite map_length; lia). now rewrite app_nil_r.
      * rewrite Em2. apply map_ext_in. intros q Hq. apply O1. apply El1. rewrite Forall_forall in Dis2. now apply Dis2.
    + intros q Hq. rewrite Em3 by (now apply Els, El2). apply O1. now apply El1.
Qed.

(** ** Shift *)

Lemma skipn_twice {A} x y (l : list A) : skipn x (skipn y l) = skipn (x + y) l.
Proof.
  revert l; induction y as [|y IH]; intros l; [now rewrite Nat.add_0_r|]. rewrite Nat.add_succ_r.
  destruct l as [|a l]; [now rewrite !skipn_nil|]. simpl. apply IH.
Qed.

Lemma shift_mask_land N n : (0 <= n <= Z.of_nat N)%Z -> Z.land n (shift_mask N) = n.
Proof.
  intros H. unfold shift_mask. destruct (N <? 64).
  - rewrite <- Z.ones_equiv || (change (2 ^ Z.of_nat N - 1)%Z with (Z.pred (2 ^ Z.of_nat N)); rewrite <- Z.ones_equiv).
    rewrite Z.land_ones by lia. apply Z.mod_small. split; [lia|]. pose proof (Z.pow_gt_lin_r 2 (Z.of_nat N) ltac:(lia) ltac:(lia)). lia.
  - apply Z.land_m1_r.
Qed.

Lemma shift_row_spec g N m n s : slice_ok m s -> len s = N -> cap s = N -> (0 < n <= Z.of_nat N)%Z ->
  exists m', shift_row g N m n s = Some (m', Slice (length (arrays m)) 0 N (N + g)) /\ grows m m' /\
    words m' (Slice (length (arrays m)) 0 N (N + g)) = rot_left (Z.to_nat n) (words m s) /\ slice_ok m' (Slice (length (arrays m)) 0 N (N + g)).
Proof.
  intros (H1 & H2 & H3) HL HC Hn. unfold shift_row. rewrite shift_mask_land by lia.
  destruct (Z.ltb_spec n 0); [lia|]. destruct (Z.ltb_spec (Z.of_nat (len s)) n); [lia|]. simpl.
  unfold goappend. simpl. destruct (Nat.leb_spec (len s - Z.to_nat n + Z.to_nat n) (cap s - Z.to_nat n)); [lia|].
  set (k := Z.to_nat n) in *. assert (Hk : k <= N) by lia.
  set (l := nth (arr s) (arrays m) []) in *.
  assert (WA : words m (Slice (arr s) (off s + k) (len s - k) (cap s - k)) = skipn k (words m s)).
  { unfold words. simpl. fold l. rewrite skipn_firstn_comm. f_equal. rewrite skipn_twice. f_equal. lia. }
  assert (WB : words m (Slice (arr s) (off s) k (cap s)) = firstn k (words m s)).
  { unfold words. simpl. fold l. rewrite firstn_firstn. f_equal. lia. }
  rewrite WA, WB. assert (LW : length (words m s) = N) by (rewrite words_length; [exact HL|repeat split; assumption]).
  replace (len s - k + k) with N by lia.
  eexists. split; [reflexivity|]. split; [split; [now eexists|reflexivity]|].
  assert (LR : length (rot_left k (words m s)) = N) by (unfold rot_left; rewrite app_length, skipn_length, firstn_length; lia).
  split.
  - unfold words at 1. simpl. rewrite app_nth2, Nat.sub_diag by lia. simpl. rewrite app_assoc. fold (rot_left k (words m s)).
    rewrite firstn_app, LR, Nat.sub_diag. simpl. rewrite app_nil_r. apply firstn_all2. lia.
  - split; [simpl; rewrite app_length; simpl; lia|]. simpl. split; [lia|].
    rewrite app_nth2, Nat.sub_diag by lia. simpl. rewrite app_assoc. fold (rot_left k (words m s)). rewrite app_length, LR, repeat_length. lia.
Qed.

Lemma nth_put_list {A} i (x : A) l j d : i < length l -> nth j (put i x l) d = if j =? i then x else nth j l d.
Proof. intros H. rewrite nth_put. destruct (Nat.ltb_spec i (length l)); [|lia]. now rewrite andb_true_r. Qed.

Lemma shift_rows_spec g N n p1 p2 moduli : forall i m, mem_ok m -> valid m p1 -> valid m p2 ->
  i + moduli <= length (coeffs (deref m p1)) -> i + moduli <= length (coeffs (deref m p2)) ->
  (forall j, i <= j < i + moduli -> len (nth j (coeffs (deref m p1)) nilslice) = N /\ cap (nth j (coeffs (deref m p1)) nilslice) = N) ->
  (0 < n <= Z.of_nat N)%Z ->
  exists m', shift_rows g N moduli i m n p1 p2 = Some m' /\ mem_ok m' /\
    length (polys m') = length (polys m) /\ (exists la, arrays m' = arrays m ++ la) /\
    (forall q, q <> p2 -> deref m' q = deref m q) /\
    isNTT (deref m' p2) = isNTT (deref m p2) /\ isMForm (deref m' p2) = isMForm (deref m p2) /\
    length (coeffs (deref m' p2)) = length (coeffs (deref m p2)) /\
    (forall j, i <= j < i + moduli ->
       words m' (nth j (coeffs (deref m' p2)) nilslice) = rot_left (Z.to_nat n) (words m (nth j (coeffs (deref m p1)) nilslice)) /\
       length (arrays m) <= arr (nth j (coeffs (deref m' p2)) nilslice)) /\
    (forall j, ~ (i <= j < i + moduli) -> nth j (coeffs (deref m' p2)) nilslice = nth j (coeffs (deref m p2)) nilslice).
Proof.
  induction moduli as [|moduli IH]; intros i m H V1 V2 L1 L2 HN Hn.
  - exists m. split; [reflexivity|]. repeat split; auto; try lia. exists []. now rewrite app_nil_r.
  - simpl. destruct (Nat.leb_spec (length (coeffs (deref m p1))) i); [lia|]. destruct (Nat.leb_spec (length (coeffs (deref m p2))) i); [lia|]. simpl.
    set (s := nth i (coeffs (deref m p1)) nilslice).
    assert (Hs : slice_ok m s) by (apply Forall_nth_in; [now apply poly_ok|lia]).
    destruct (HN i ltac:(lia)) as [HL HC].
    destruct (shift_row_spec g N m n s Hs HL HC Hn) as (m1 & E1 & G & W & Ok). rewrite E1.
    set (r := Slice (length (arrays m)) 0 N (N + g)) in *. destruct (G) as [[la Ea] Ep].
    assert (D1 : forall q, deref m1 q = deref m q) by (intros q; unfold deref; now rewrite Ep).
    rewrite !D1. set (m2 := set_poly m1 p2 (Poly (put i r (coeffs (deref m p2))) (isNTT (deref m p2)) (isMForm (deref m p2)))).
    assert (D2 : forall q, deref m2 q = if q =? p2 then Poly (put i r (coeffs (deref m p2))) (isNTT (deref m p2)) (isMForm (deref m p2)) else deref m q).
    { intros q. unfold m2. rewrite deref_set_poly, Ep, D1. destruct (Nat.ltb_spec p2 (length (polys m))); [|unfold valid in V2; lia]. now rewrite andb_true_r. }
    assert (Len2 : length (polys m2) = length (polys m)) by (unfold m2, set_poly; simpl; now rewrite put_length, Ep).
    assert (Ok1 : forall t, slice_ok m t -> slice_ok m1 t) by (intros t; apply slice_ok_ext; now apply grows_extends).
    assert (Fp : forall q, Forall (slice_ok m2) (coeffs (deref m2 q))).
    { intros q. rewrite D2. destruct (Nat.eqb_spec q p2).
      - simpl. apply Forall_forall. intros t Ht. destruct (In_nth _ _ nilslice Ht) as (j & Hj & <-). rewrite put_length in Hj.
        rewrite nth_put_list by lia. destruct (j =? i); [exact Ok|]. apply Ok1. apply Forall_nth_in; [now apply poly_ok|exact Hj].
      - eapply Forall_impl; [|apply (poly_ok m q H)]. intros t Ht. now apply Ok1. }
    assert (Ok2 : mem_ok m2).
    { unfold mem_ok. apply Forall_forall. intros P HP. destruct (In_nth _ _ nilpoly HP) as (q & Hq & <-). apply Fp. }
    (* rows of p1 beyond i are the same *)
    assert (C1 : forall j, S i <= j -> nth j (coeffs (deref m2 p1)) nilslice = nth j (coeffs (deref m p1)) nilslice).
    { intros j Hj. rewrite D2. destruct (Nat.eqb_spec p1 p2) as [->|]; [|reflexivity]. simpl. rewrite nth_put_list by lia.
      destruct (Nat.eqb_spec j i); [lia|reflexivity]. }
    assert (LC1 : length (coeffs (deref m2 p1)) = length (coeffs (deref m p1))).
    { rewrite D2. destruct (Nat.eqb_spec p1 p2) as [->|]; [simpl; now rewrite put_length|reflexivity]. }
    assert (C2 : coeffs (deref m2 p2) = put i r (coeffs (deref m p2))) by (rewrite D2, Nat.eqb_refl; reflexivity).
    destruct (IH (S i) m2) as (m' & E' & O' & P' & (lb & A') & Q' & F1 & F2 & LL & R' & K'); auto.
    { unfold valid in *. lia. } { unfold valid in *. lia. } { lia. } { rewrite C2, put_length. lia. }
    { intros j Hj. rewrite C1 by lia. apply HN. lia. }
    assert (Ext : arrays m' = arrays m ++ (la ++ lb)) by (rewrite A'; change (arrays m2) with (arrays m1); rewrite Ea; now rewrite app_assoc).
    assert (Wm : forall t, slice_ok m t -> words m' t = words m t).
    { intros t Ht. unfold words. rewrite Ext. rewrite app_nth1 by apply Ht. reflexivity. }
    exists m'. split; [exact E'|]. split; [exact O'|]. split; [lia|]. split; [now exists (la ++ lb)|].
    split; [|split; [|split; [|split; [|split]]]].
    + intros q Hq. rewrite Q' by exact Hq. rewrite D2. destruct (Nat.eqb_spec q p2); [contradiction|reflexivity].
    + rewrite F1, D2, Nat.eqb_refl. reflexivity.
    + rewrite F2, D2, Nat.eqb_refl. reflexivity.
    + rewrite LL, C2. apply put_length.
    + intros j Hj. destruct (Nat.eq_dec j i) as [->|Hne].
      * rewrite K' by lia. rewrite C2, nth_put_list, Nat.eqb_refl by lia. split; [|simpl; lia].
        fold s. rewrite <- W. unfold words. rewrite A'. rewrite app_nth1; [reflexivity|]. change (arr r < length (arrays m1)). apply Ok.
      * destruct (R' j ltac:(lia)) as [R1 R2]. split.
        -- rewrite R1. f_equal. rewrite C1 by lia.
           assert (Ht : slice_ok m (nth j (coeffs (deref m p1)) nilslice)) by (apply Forall_nth_in; [now apply poly_ok|lia]).
           unfold words. change (arrays m2) with (arrays m1). rewrite Ea, app_nth1 by apply Ht. reflexivity.
        -- change (arrays m2) with (arrays m1) in R2. rewrite Ea, app_length in R2. lia.
    + intros j Hj. rewrite K' by lia. rewrite C2, nth_put_list by lia. destruct (Nat.eqb_spec j i); [lia|reflexivity].
Qed.

Lemma shift_panics_lemma g N moduli m p1 n p2 : 64 <= N -> (n < 0 \/ Z.of_nat N < n)%Z -> 0 < moduli ->
  Forall (fun s => len s = N) (coeffs (deref m p1)) -> Shift g N moduli m p1 n p2 = None.
Proof.
  intros HN Hn Hm F. unfold Shift. destruct moduli as [|moduli]; [lia|]. simpl.
  destruct (Nat.leb_spec (length (coeffs (deref m p1))) 0); [reflexivity|]. destruct (_ <=? 0); [reflexivity|]. simpl.
  unfold shift_row, shift_mask. destruct (Nat.ltb_spec N 64); [lia|]. rewrite Z.land_m1_r.
  rewrite (Forall_nth_in _ _ 0 nilslice F) by lia.
  destruct (Z.ltb_spec n 0); [reflexivity|]. destruct (Z.ltb_spec (Z.of_nat N) n); [reflexivity|lia].
Qed.

(** ** Rotation of a slice *)

Lemma rotate_lemma m s k : slice_ok m s -> k <> 0%Z -> 0 < len s ->
  let '(m', r) := RotateUint64Slice m s k in
  words m' r = rot_left (Z.to_nat (k mod Z.of_nat (len s))) (words m s) /\ arr r = length (arrays m) /\ grows m m'.
Proof.
  intros Hs Hk HL. unfold RotateUint64Slice. destruct (Z.eqb_spec k 0); [contradiction|]. destruct (Nat.eqb_spec (len s) 0); [lia|]. simpl.
  assert (Er : (if (Z.rem k (Z.of_nat (len s)) <? 0)%Z then (Z.rem k (Z.of_nat (len s)) + Z.of_nat (len s))%Z else Z.rem k (Z.of_nat (len s))) = (k mod Z.of_nat (len s))%Z).
  { set (L := Z.of_nat (len s)). assert (HLz : (0 < L)%Z) by (unfold L; lia).
    pose proof (Z.quot_rem' k L) as Q. pose proof (Z.rem_bound_abs k L ltac:(lia)) as B.
    destruct (Z.ltb_spec (Z.rem k L) 0).
    - apply Z.mod_unique with (q := (Z.quot k L - 1)%Z); [left; lia|]. lia.
    - apply Z.mod_unique with (q := Z.quot k L); [left; lia|]. lia. }
  rewrite Er. set (r := Z.to_nat (k mod Z.of_nat (len s))).
  assert (Hr : r < len s) by (unfold r; pose proof (Z.mod_pos_bound k (Z.of_nat (len s)) ltac:(lia)); lia).
  clearbody r. clear Er. destruct (Hs) as (H1 & H2 & H3).
  set (l := nth (arr s) (arrays m) []) in *.
  set (m1 := Mem (arrays m ++ [repeat 0%Z (len s)]) (polys m)).
  set (A := length (arrays m)).
  set (d1 := Slice A 0 (len s - r) (len s)). set (s1 := Slice (arr s) (off s + r) (len s - r) (cap s - r)).
  set (d2 := Slice A (len s - r) r r). set (s2 := Slice (arr s) (off s) r (cap s)).
  assert (LW : length (words m s) = len s) by now apply words_length.
  assert (W1 : words m1 s1 = skipn r (words m s)).
  { unfold words, s1, m1. simpl. rewrite app_nth1 by exact H1. fold l. rewrite skipn_firstn_comm. f_equal. rewrite skipn_twice. f_equal. lia. }
  assert (E1 : gocopy m1 d1 s1 = Mem (arrays m ++ [skipn r (words m s) ++ repeat 0%Z r]) (polys m)).
  { unfold gocopy. rewrite W1. rewrite firstn_all2 by (rewrite skipn_length, LW; simpl; lia).
    unfold set_words, d1, m1. simpl. rewrite app_nth2 by (unfold A; lia). replace (A - length (arrays m)) with 0 by (unfold A; lia). simpl.
    unfold A. rewrite put_app2. f_equal. f_equal. f_equal. unfold overwrite. simpl. rewrite repeat_length, Nat.sub_0_r, skipn_length, LW.
    rewrite firstn_all2 by (rewrite skipn_length; lia). f_equal.
    replace (len s) with (len s - r + r) at 2 by lia. rewrite repeat_app, skipn_app, repeat_length, Nat.sub_diag.
    rewrite skipn_all2 by (rewrite repeat_length; lia). reflexivity. }
  rewrite E1. set (m2 := Mem (arrays m ++ [skipn r (words m s) ++ repeat 0%Z r]) (polys m)).
  assert (W2 : words m2 s2 = firstn r (words m s)).
  { unfold words, s2, m2. simpl. rewrite app_nth1 by exact H1. fold l. rewrite firstn_firstn. f_equal. lia. }
  assert (E2 : gocopy m2 d2 s2 = Mem (arrays m ++ [rot_left r (words m s)]) (polys m)).
  { unfold gocopy. rewrite W2. rewrite firstn_all2 by (rewrite firstn_length, LW; simpl; lia).
    unfold set_words, d2, m2. simpl. rewrite app_nth2 by (unfold A; lia). replace (A - length (arrays m)) with 0 by (unfold A; lia). simpl.
    unfold A. rewrite put_app2. f_equal. f_equal. f_equal. unfold overwrite, rot_left.
    assert (LS : length (skipn r (words m s)) = len s - r) by (rewrite skipn_length, LW; reflexivity).
    assert (LF : length (firstn r (words m s)) = r) by (rewrite firstn_length, LW; lia).
    rewrite firstn_app, LS, Nat.sub_diag. simpl. rewrite app_nil_r, firstn_all2 by lia.
    rewrite app_length, LS, repeat_length, LF. f_equal. rewrite firstn_all2 by lia. rewrite skipn_all2 by (rewrite app_length, LS, repeat_length; lia).
    now rewrite app_nil_r. }
  rewrite E2. split; [|split; [reflexivity|split; [now eexists|reflexivity]]].
  unfold words at 1. simpl. unfold A. rewrite app_nth2, Nat.sub_diag by lia. simpl.
  apply firstn_all2. unfold rot_left. rewrite app_length, skipn_length, firstn_length, LW. lia.
Qed.
