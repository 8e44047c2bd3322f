(** Equality of relinearization and rotation keys; sharing of rows. *)
From Verif Require Import Word Heap HeapSpec HeapProofs HeapTop.
Require Import Lia.
Open Scope nat_scope.

Lemma swk_opt_spec m a b : fullO a -> SWK_Equals m a b = true <-> rowsO m a = rowsO m b.
Proof.
  intros F. destruct a as [a|], b as [b|]; simpl in F.
  - rewrite (swk_equals_spec m a b F). unfold rowsO. simpl. split; [now intros ->|congruence].
  - simpl. split; discriminate.
  - simpl. split; discriminate.
  - simpl. split; reflexivity.
Qed.

Lemma rlk_equals_spec m k : forall o, Forall fullO k -> RLK_Equals m (Some k) (Some o) = true <-> map (rowsO m) k = map (rowsO m) o.
Proof.
  unfold RLK_Equals. induction k as [|x k IH]; intros [|y o] F; simpl; try (split; [discriminate|discriminate]).
  - split; reflexivity.
  - apply Forall_cons_iff in F as [F1 F2]. specialize (IH o F2). rewrite andb_true_iff in *. rewrite andb_true_iff, Nat.eqb_eq in *.
    rewrite (swk_opt_spec m x y F1). split.
    + intros (H1 & H2 & H3). f_equal; [exact H2|]. apply IH. auto.
    + intros E. assert (E1 : rowsO m x = rowsO m y) by congruence. assert (E2 : map (rowsO m) k = map (rowsO m) o) by congruence.
      destruct IH as [_ IH]. destruct (IH E2) as [L Q]. rewrite L. auto.
Qed.

Lemma lookup_in {A} g (l : list (N * A)) x : lookup g l = Some x -> In (g, x) l.
Proof.
  unfold lookup. destruct (find _ l) as [[g' x']|] eqn:E; [|discriminate]. simpl. intros H. injection H as ->.
  apply find_some in E as [Hin He]. simpl in He. apply N.eqb_eq in He. now subst.
Qed.
Lemma lookup_none {A} g (l : list (N * A)) : lookup g l = None -> ~ In g (map fst l).
Proof.
  unfold lookup. destruct (find _ l) as [e|] eqn:E; [discriminate|]. intros _ Hin. apply in_map_iff in Hin as ([g' x] & He & Hin).
  simpl in He. subst. apply (find_none _ _ E) in Hin. simpl in Hin. now rewrite N.eqb_refl in Hin.
Qed.
Lemma in_lookup {A} g (l : list (N * A)) x : NoDup (map fst l) -> In (g, x) l -> lookup g l = Some x.
Proof.
  intros ND Hin. destruct (lookup g l) as [y|] eqn:E.
  - apply lookup_in in E. f_equal. revert ND Hin E. clear. induction l as [|[h z] l IH]; simpl; [tauto|].
    intros ND. apply NoDup_cons_iff in ND as [N1 N2]. intros [E|E] [F|F].
    + congruence.
    + injection E as -> ->. exfalso. apply N1. now apply (in_map fst) in F.
    + injection F as -> ->. exfalso. apply N1. now apply (in_map fst) in E.
    + now apply IH.
  - exfalso. apply (lookup_none _ _ E). now apply (in_map fst) in Hin.
Qed.

Lemma rtk_equals_spec m k o : NoDup (map fst k) -> NoDup (map fst o) -> Forall (fun e => fullO (snd e)) o ->
  RTK_Equals m (Some k) (Some o) = true <-> forall g, option_map (rowsO m) (lookup g k) = option_map (rowsO m) (lookup g o).
Proof.
  intros NK NO F. unfold RTK_Equals. rewrite andb_true_iff, Nat.eqb_eq, forallb_forall. rewrite Forall_forall in F. split.
  - intros [L H] g. destruct (lookup g o) as [ok|] eqn:E.
    + apply lookup_in in E. specialize (H _ E). simpl in H. destruct (lookup g k) as [key|]; [|discriminate].
      apply swk_opt_spec in H; [|exact (F _ E)]. simpl. now rewrite H.
    + destruct (lookup g k) as [key|] eqn:E'; [|reflexivity]. exfalso.
      assert (I : incl (map fst o) (map fst k)).
      { intros h Hh. apply in_map_iff in Hh as ([h' x] & He & Hin). simpl in He. subst. specialize (H _ Hin). simpl in H.
        destruct (lookup h k) as [y|] eqn:Ey; [|discriminate]. apply lookup_in in Ey. now apply (in_map fst) in Ey. }
      apply (NoDup_length_incl NO) in I; [|rewrite !map_length; lia].
      apply (lookup_none _ _ E). apply I. apply lookup_in in E'. now apply (in_map fst) in E'.
  - intros H.
    assert (I : forall g, In g (map fst k) <-> In g (map fst o)).
    { intros g. specialize (H g). split; intros Hin.
      - apply in_map_iff in Hin as ([h x] & He & Hin). simpl in He. subst. rewrite (in_lookup _ _ _ NK Hin) in H. simpl in H.
        destruct (lookup g o) as [y|] eqn:E; [|discriminate]. apply lookup_in in E. now apply (in_map fst) in E.
      - apply in_map_iff in Hin as ([h x] & He & Hin). simpl in He. subst. rewrite (in_lookup _ _ _ NO Hin) in H. simpl in H.
        destruct (lookup g k) as [y|] eqn:E; [|discriminate]. apply lookup_in in E. now apply (in_map fst) in E. }
    split.
    + pose proof (NoDup_incl_length NK (fun g => proj1 (I g))). pose proof (NoDup_incl_length NO (fun g => proj2 (I g))).
      rewrite !map_length in *. lia.
    + intros [g ok] Hin. specialize (H g). rewrite (in_lookup _ _ _ NO Hin) in H. destruct (lookup g k) as [key|]; [|discriminate].
      apply swk_opt_spec; [exact (F _ Hin)|]. simpl in H. injection H as H. now rewrite H.
Qed.

Lemma includes_spec k o : RTK_Includes (Some k) (Some o) = true <-> incl (map fst o) (map fst k).
Proof.
  unfold RTK_Includes. rewrite forallb_forall. split.
  - intros H g Hin. apply in_map_iff in Hin as ([h x] & He & Hin). simpl in He. subst. specialize (H _ Hin). simpl in H.
    destruct (lookup g k) as [y|] eqn:E; [|discriminate]. apply lookup_in in E. now apply (in_map fst) in E.
  - intros H [g x] Hin. destruct (lookup g k) eqn:E; [reflexivity|]. exfalso. apply (lookup_none _ _ E). apply H. now apply (in_map fst) in Hin.
Qed.

(** A copy equals what it was copied from. *)
Lemma copy_rows_eq m m' k k' : viewSWK m' k' = viewSWK m k -> rowsSWK m' k' = rowsSWK m k.
Proof.
  revert k'. induction k as [|x k IH]; intros [|y k'] E; simpl in *; try discriminate; [reflexivity|].
  assert (E1 : viewPK m' y = viewPK m x) by congruence. assert (E2 : viewSWK m' k' = viewSWK m k) by exact (f_equal (@tl _) E).
  f_equal; [|now apply IH].
  assert (C : forall p q, option_map (content m') p = option_map (content m) q -> option_map (rows_at m') p = option_map (rows_at m) q).
  { intros [p|] [q|] H; simpl in *; try discriminate; [|reflexivity]. unfold content in H. unfold rows_at. congruence. }
  unfold viewPK, viewQP in E1. unfold rowsPK, rowsQP.
  assert (Q1 := f_equal (fun z => fst (fst z)) E1). assert (Q2 := f_equal (fun z => snd (fst z)) E1).
  assert (Q3 := f_equal (fun z => fst (snd z)) E1). assert (Q4 := f_equal (fun z => snd (snd z)) E1). simpl in Q1, Q2, Q3, Q4.
  rewrite (C _ _ Q1), (C _ _ Q2), (C _ _ Q3), (C _ _ Q4). reflexivity.
Qed.

Lemma copy_equals_lemma m k : mem_ok m -> Forall (valid m) (ptrsSWK k) -> fullSWK k -> k <> [] ->
  exists m' k', SWK_CopyNew m (Some k) = (m', Some k') /\ SWK_Equals m' (Some k) (Some k') = true.
Proof.
  intros H V F N. destruct (swk_copy m k H V N) as (m' & k' & E & C & W). exists m', k'. split; [exact E|].
  apply swk_equals_spec; [exact F|]. transitivity (rowsSWK m k).
  - apply copy_rows_eq. apply (view_ext _ _ swk_local); [exact H|apply C|exact V].
  - symmetry. now apply copy_rows_eq.
Qed.

(** Word changes keep the polynomials. *)
Lemma word_changes_polys ws : forall m, forallb (fun w => word_change (snd w)) ws = true -> polys (changes m ws) = polys m.
Proof.
  induction ws as [|[p c] ws IH]; intros m H; [reflexivity|]. simpl in *. apply andb_prop in H as [H1 H2]. rewrite (IH _ H2).
  destruct c; [|discriminate|discriminate]. simpl. destruct (_ && _); reflexivity.
Qed.

Lemma from_poly_lemma m level p m' p' : mem_ok m -> valid m p -> FromPoly m level p = Some (m', p') ->
  p' = length (polys m) /\ content m' p' = (firstn (S level) (rows_at m p), true, false) /\
  (forall q, valid m q -> content m' q = content m q) /\
  forall ws, forallb (fun w => word_change (snd w)) ws = true ->
    rows_at (changes m' ws) p' = firstn (S level) (rows_at (changes m' ws) p).
Proof.
  intros H V. unfold FromPoly. destruct (_ <? _); [discriminate|]. unfold gonew. intros E. injection E as <- <-.
  set (m' := Mem _ _).
  assert (D : deref m' (length (polys m)) = Poly (firstn (S level) (coeffs (deref m p))) true false).
  { unfold deref, m'. simpl. rewrite app_nth2, Nat.sub_diag by lia. reflexivity. }
  assert (Dq : forall q, valid m q -> deref m' q = deref m q).
  { intros q Hq. unfold deref, m'. simpl. now rewrite app_nth1. }
  split; [reflexivity|]. split; [|split].
  - unfold content, rows_at. rewrite D. simpl isNTT. simpl isMForm. cbn [coeffs]. rewrite firstn_map. reflexivity.
  - intros q Hq. unfold content. rewrite Dq by exact Hq. reflexivity.
  - intros ws Hw. pose proof (word_changes_polys ws m' Hw) as E.
    assert (Eq : forall q, deref (changes m' ws) q = deref m' q) by (intros q; unfold deref; now rewrite E).
    unfold rows_at. rewrite !Eq, D, (Dq p V). cbn [coeffs]. now rewrite firstn_map.
Qed.

(** The statement of Shift. *)
Lemma shift_lemma g N moduli m p1 n p2 : mem_ok m -> valid m p1 -> valid m p2 ->
  length (coeffs (deref m p1)) = moduli -> length (coeffs (deref m p2)) = moduli ->
  Forall (fun s => len s = N /\ cap s = N) (coeffs (deref m p1)) -> (0 < n <= Z.of_nat N)%Z ->
  exists m', Shift g N moduli m p1 n p2 = Some m' /\
    rows_at m' p2 = map (rot_left (Z.to_nat n)) (rows_at m p1) /\
    (forall q, valid m q -> q <> p2 -> content m' q = content m q) /\
    Forall (fun a => length (arrays m) <= a) (rows_of m' p2).
Proof.
  intros H V1 V2 L1 L2 F Hn.
  destruct (shift_rows_spec g N n p1 p2 moduli 0 m H V1 V2) as (m' & E & O' & P' & (la & A') & Q' & _ & _ & LL & R' & _); try lia.
  { intros j Hj. exact (Forall_nth_in _ _ j nilslice F ltac:(lia)). }
  exists m'. split; [exact E|]. split; [|split].
  - unfold rows_at. apply (list_ext []); [rewrite !map_length; lia|]. intros j Hj. rewrite map_length in Hj.
    assert (Hj' : j < length (map (words m) (coeffs (deref m p1)))) by (rewrite map_length; lia).
    rewrite (nth_indep _ [] (words m' nilslice)) by (rewrite map_length; lia). rewrite map_nth.
    rewrite (nth_indep _ [] (rot_left (Z.to_nat n) (words m nilslice))) by (rewrite map_length; lia). rewrite map_nth. rewrite map_nth.
    apply R'. lia.
  - intros q Hq Hne. apply content_eq; [now apply Q'|]. intros s Hs. rewrite A'. apply app_nth1.
    pose proof (poly_ok m q H) as G. rewrite Forall_forall in G. now apply G.
  - unfold rows_of. apply Forall_forall. intros a Ha. apply in_map_iff in Ha as (s & <- & Hs).
    destruct (In_nth _ _ nilslice Hs) as (j & Hj & <-). apply R'. lia.
Qed.

(** The statements of P_Heap. *)
Lemma poly_copy_top m p m' p' : mem_ok m -> Poly_CopyNew m p = (m', p') -> deep m m' [p'] /\ content m' p' = content m p.
Proof. intros H E. pose proof (poly_copy_spec m p H) as S. rewrite E in S. destruct S as [C V]. split; [now apply deep_of|exact V]. Qed.

Lemma concat_singletons (l : list nat) : concat (map (fun p => [p]) l) = l.
Proof. induction l as [|x l IH]; simpl; [reflexivity|now rewrite IH]. Qed.

Lemma ct_copy_top m ct m' ct' : mem_ok m -> Forall (valid m) ct -> CT_CopyNew m ct = (m', ct') ->
  deep m m' ct' /\ map (content m') ct' = map (content m) ct.
Proof.
  intros H F E. pose proof (list_copies _ _ _ poly_local poly_copies m ct H) as S. cbv beta in S. rewrite concat_singletons in S. specialize (S F).
  unfold CT_CopyNew in E. rewrite E in S. destruct S as [C V]. rewrite concat_singletons in C. split; [now apply deep_of|exact V].
Qed.

Lemma pk_copy_top m k m' k' : mem_ok m -> Forall (valid m) (ptrsPK k) -> PK_CopyNew m k = (m', k') ->
  deep m m' (ptrsPK k') /\ viewPK m' k' = viewPK m k.
Proof. intros H F E. pose proof (pk_copies m k H F) as S. rewrite E in S. destruct S as [C V]. split; [now apply deep_of|exact V]. Qed.

Lemma swk_copy_top m k : mem_ok m -> Forall (valid m) (ptrsSWK k) -> k <> [] ->
  exists m' k', SWK_CopyNew m (Some k) = (m', Some k') /\ deep m m' (ptrsSWK k') /\ viewSWK m' k' = viewSWK m k.
Proof.
  intros H F N. destruct (swk_copy m k H F N) as (m' & k' & E & C & V). exists m', k'. split; [exact E|]. split; [now apply deep_of|exact V].
Qed.

Lemma rlk_copy_top m k : mem_ok m -> Forall (valid m) (ptrsRLK k) -> Forall (fun s => s <> Some []) k -> k <> [] ->
  exists m' k', RLK_CopyNew m (Some k) = (m', Some k') /\ deep m m' (ptrsRLK k') /\ viewRLK m' k' = viewRLK m k.
Proof.
  intros H F N Ne. pose proof (rlk_copy_list k m H F N) as S. unfold RLK_CopyNew. destruct k as [|x k]; [congruence|].
  destruct (copy_list SWK_CopyNew m (x :: k)) as [m' k']. destruct S as [C V]. exists m', k'. split; [reflexivity|]. split; [now apply deep_of|exact V].
Qed.

Lemma in_place_top m N pol p1 : mem_ok m -> valid m pol -> rect m N pol -> rect m N p1 -> NoDup (rows_of m pol) -> elsewhere m [pol] p1 ->
  let m' := Poly_Copy m pol p1 in
  content m' pol = (firstn (length (rows_at m pol)) (rows_at m p1) ++ skipn (length (rows_at m p1)) (rows_at m pol),
                    isNTT (deref m p1), isMForm (deref m p1)) /\
  forall q, elsewhere m [pol] q -> content m' q = content m q.
Proof. intros H V R R1 ND E. destruct (poly_copy_lemma m N pol p1 H V R R1 ND E) as (A & B & _). split; assumption. Qed.
