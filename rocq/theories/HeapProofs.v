(** Proofs about the memory model of the copies. *)
From Verif Require Import Word Heap HeapSpec.
Require Import Lia.
Open Scope nat_scope.

Lemma put_length {A} k (x : A) l : length (put k x l) = length l.
Proof. revert k; induction l as [|y l IH]; intros [|k]; simpl; auto. Qed.

Lemma nth_put {A} k (x : A) l i d : nth i (put k x l) d = if (i =? k) && (k <? length l) then x else nth i l d.
Proof.
  revert k i; induction l as [|y l IH]; intros k i.
  - simpl. rewrite andb_false_r. destruct k; reflexivity.
  - destruct k as [|k], i as [|i]; simpl; auto. rewrite IH. reflexivity.
Qed.

Lemma put_same {A} k (l : list A) d : put k (nth k l d) l = l.
Proof. revert k; induction l as [|y l IH]; intros [|k]; simpl; auto. now rewrite IH. Qed.

Lemma overwrite_length l o w : length (overwrite l o w) = length l.
Proof. unfold overwrite. rewrite !app_length, !firstn_length, skipn_length. lia. Qed.

Lemma nth_firstn' {A} n (l : list A) i d : nth i (firstn n l) d = if i <? n then nth i l d else d.
Proof.
  revert l i; induction n as [|n IH]; intros l i; [destruct i; reflexivity|].
  destruct l as [|x l]; [destruct (i <? S n); now destruct i |].
  destruct i as [|i]; [reflexivity|]. simpl. rewrite IH. reflexivity.
Qed.
Lemma nth_skipn' {A} n (l : list A) i d : nth i (skipn n l) d = nth (n + i) l d.
Proof.
  revert l; induction n as [|n IH]; intros l; [reflexivity|].
  destruct l as [|x l]; [destruct i; reflexivity|]. simpl. apply IH.
Qed.

Lemma nth_overwrite l o w i d :
  nth i (overwrite l o w) d = if (o <=? i) && (i <? o + length w) && (i <? length l) then nth (i - o) w d else nth i l d.
Proof.
  unfold overwrite.
  destruct (Nat.ltb_spec i (length l)).
  2:{ rewrite andb_false_r. rewrite nth_overflow by (rewrite !app_length, !firstn_length, skipn_length; lia).
      now rewrite nth_overflow by lia. }
  rewrite andb_true_r.
  destruct (Nat.ltb_spec i o).
  - rewrite app_nth1 by (rewrite firstn_length; lia). rewrite nth_firstn'.
    destruct (Nat.ltb_spec i o); [|lia]. destruct (Nat.leb_spec o i); [lia|reflexivity].
  - rewrite app_nth2 by (rewrite firstn_length; lia). rewrite firstn_length, Nat.min_l by lia.
    destruct (Nat.leb_spec o i); [|lia]. simpl.
    destruct (Nat.ltb_spec i (o + length w)).
    + rewrite app_nth1 by (rewrite firstn_length; lia). rewrite nth_firstn'. destruct (Nat.ltb_spec (i - o) (length l - o)); [reflexivity|lia].
    + rewrite app_nth2 by (rewrite firstn_length; lia). rewrite firstn_length, Nat.min_r by lia. rewrite nth_skipn'.
      f_equal. lia.
Qed.

Lemma words_length m s : slice_ok m s -> length (words m s) = len s.
Proof. intros (_ & H1 & H2). unfold words. rewrite firstn_length, skipn_length. lia. Qed.

Lemma list_ext {A} (d : A) l1 l2 : length l1 = length l2 -> (forall i, i < length l1 -> nth i l1 d = nth i l2 d) -> l1 = l2.
Proof.
  revert l2; induction l1 as [|x l1 IH]; intros [|y l2] HL H; simpl in *; try lia; [reflexivity|].
  f_equal; [exact (H 0 ltac:(lia))|]. apply IH; [lia|]. intros i Hi. exact (H (S i) ltac:(lia)).
Qed.

(** ** Separation *)

Definition low (A P : nat) (m1 m2 : mem) : Prop :=
  (forall a, a < A -> nth a (arrays m1) [] = nth a (arrays m2) []) /\ (forall p, p < P -> deref m1 p = deref m2 p).
Definition high (A P : nat) (m1 m2 : mem) : Prop :=
  length (arrays m1) = length (arrays m2) /\ length (polys m1) = length (polys m2) /\
  (forall a, A <= a -> nth a (arrays m1) [] = nth a (arrays m2) []) /\ (forall p, P <= p -> deref m1 p = deref m2 p).
Definition split_at (A P : nat) (m : mem) : Prop :=
  A <= length (arrays m) /\ P <= length (polys m) /\
  (forall p, p < P -> Forall (fun s => arr s < A) (coeffs (deref m p))) /\
  (forall p, P <= p -> Forall (fun s => A <= arr s) (coeffs (deref m p))).

Lemma nth_arrays_set m s w a :
  nth a (arrays (set_words m s w)) [] =
  if (a =? arr s) && (arr s <? length (arrays m)) then overwrite (nth (arr s) (arrays m) []) (off s) w else nth a (arrays m) [].
Proof. unfold set_words. simpl. apply nth_put. Qed.
Lemma deref_set_words m s w p : deref (set_words m s w) p = deref m p.
Proof. reflexivity. Qed.
Lemma deref_set_poly m p P q : deref (set_poly m p P) q = if (q =? p) && (p <? length (polys m)) then P else deref m q.
Proof. unfold deref, set_poly. simpl. apply nth_put. Qed.
Lemma arrays_set_poly m p P : arrays (set_poly m p P) = arrays m.
Proof. reflexivity. Qed.

Lemma change_split A P m p c : split_at A P m -> split_at A P (apply_change m p c).
Proof.
  intros (HA & HP & Hl & Hh). unfold apply_change. destruct c as [i j v | a b | k].
  - destruct (_ && _); [|now repeat split].
    split; [unfold set_words; simpl; now rewrite put_length|]. repeat split; auto.
  - split; [exact HA|]. split; [unfold set_poly; simpl; now rewrite put_length|].
    split; intros q Hq; rewrite deref_set_poly; destruct (_ && _) eqn:E; auto; apply andb_prop in E; destruct E as [E _]; apply Nat.eqb_eq in E; subst; simpl; auto.
  - split; [exact HA|]. split; [unfold set_poly; simpl; now rewrite put_length|].
    split; intros q Hq; rewrite deref_set_poly; destruct (_ && _) eqn:E; auto; apply andb_prop in E; destruct E as [E _]; apply Nat.eqb_eq in E; subst; simpl.
    + specialize (Hl _ Hq). rewrite Forall_forall in *. intros s Hs. apply Hl. rewrite <- (firstn_skipn k). apply in_or_app. now left.
    + specialize (Hh _ Hq). rewrite Forall_forall in *. intros s Hs. apply Hh. rewrite <- (firstn_skipn k). apply in_or_app. now left.
Qed.

Lemma Forall_nth_in {A} (Q : A -> Prop) l i d : Forall Q l -> i < length l -> Q (nth i l d).
Proof. intros H Hi. rewrite Forall_forall in H. apply H. now apply nth_In. Qed.

(** A change through a low pointer, on both memories. *)
Lemma change_low_both A P m1 m2 p c : p < P -> split_at A P m1 -> split_at A P m2 -> low A P m1 m2 ->
  low A P (apply_change m1 p c) (apply_change m2 p c).
Proof.
  intros Hp S1 S2 [La Lp]. pose proof (Lp p Hp) as E. unfold apply_change. rewrite <- E.
  destruct S1 as (A1 & P1 & Hl & _), S2 as (A2 & P2 & _ & _).
  destruct c as [i j v | a b | k].
  - destruct (_ && _) eqn:G; [|split; assumption]. apply andb_prop in G. destruct G as [G _]. apply Nat.ltb_lt in G.
    pose proof (Forall_nth_in _ _ i nilslice (Hl p Hp) G) as Ha. simpl in Ha.
    set (s := nth i (coeffs (deref m1 p)) nilslice) in *.
    split; [|exact Lp]. intros x Hx. rewrite !nth_arrays_set. simpl.
    destruct (Nat.ltb_spec (arr s) (length (arrays m1))); [|lia]. destruct (Nat.ltb_spec (arr s) (length (arrays m2))); [|lia].
    destruct (Nat.eqb_spec x (arr s)); simpl; [|now apply La]. rewrite (La (arr s)) by lia. reflexivity.
  - split; [exact La|]. intros q Hq. rewrite !deref_set_poly.
    destruct (Nat.ltb_spec p (length (polys m1))); [|lia]. destruct (Nat.ltb_spec p (length (polys m2))); [|lia].
    destruct (_ && _); auto.
  - split; [exact La|]. intros q Hq. rewrite !deref_set_poly.
    destruct (Nat.ltb_spec p (length (polys m1))); [|lia]. destruct (Nat.ltb_spec p (length (polys m2))); [|lia].
    destruct (_ && _); auto.
Qed.

Lemma change_low_one A P m1 m2 p c : P <= p -> split_at A P m1 -> low A P m1 m2 -> low A P (apply_change m1 p c) m2.
Proof.
  intros Hp (A1 & P1 & Hl & Hh) [La Lp]. unfold apply_change.
  destruct c as [i j v | a b | k].
  - destruct (_ && _) eqn:G; [|split; assumption]. apply andb_prop in G. destruct G as [G _]. apply Nat.ltb_lt in G.
    pose proof (Forall_nth_in _ _ i nilslice (Hh p Hp) G) as Ha. simpl in Ha.
    split; [|exact Lp]. intros x Hx. rewrite nth_arrays_set. simpl.
    match goal with |- context [(x =? ?y)] => destruct (Nat.eqb_spec x y); [lia|] end. simpl. now apply La.
  - split; [exact La|]. intros q Hq. rewrite deref_set_poly. destruct (Nat.eqb_spec q p); [lia|]. now apply Lp.
  - split; [exact La|]. intros q Hq. rewrite deref_set_poly. destruct (Nat.eqb_spec q p); [lia|]. now apply Lp.
Qed.

Lemma change_high_both A P m1 m2 p c : P <= p -> split_at A P m1 -> split_at A P m2 -> high A P m1 m2 ->
  high A P (apply_change m1 p c) (apply_change m2 p c).
Proof.
  intros Hp S1 S2 (E1 & E2 & La & Lp). pose proof (Lp p Hp) as E. unfold apply_change. rewrite <- E.
  destruct S1 as (A1 & P1 & _ & Hh), S2 as (A2 & P2 & _ & _).
  destruct c as [i j v | a b | k].
  - destruct (_ && _) eqn:G; [|repeat split; assumption]. apply andb_prop in G. destruct G as [G _]. apply Nat.ltb_lt in G.
    pose proof (Forall_nth_in _ _ i nilslice (Hh p Hp) G) as Ha. simpl in Ha.
    set (s := nth i (coeffs (deref m1 p)) nilslice) in *.
    split; [unfold set_words; simpl; now rewrite !put_length|]. split; [exact E2|].
    split; [|exact Lp]. intros x Hx. rewrite !nth_arrays_set. simpl. rewrite <- E1.
    destruct (_ && _); [|now apply La]. rewrite (La (arr s)) by lia. reflexivity.
  - split; [exact E1|]. split; [unfold set_poly; simpl; now rewrite !put_length|]. split; [exact La|]. intros q Hq. rewrite !deref_set_poly, <- E2.
    destruct (_ && _); auto.
  - split; [exact E1|]. split; [unfold set_poly; simpl; now rewrite !put_length|]. split; [exact La|]. intros q Hq. rewrite !deref_set_poly, <- E2.
    destruct (_ && _); auto.
Qed.

Lemma change_high_one A P m1 m2 p c : p < P -> split_at A P m1 -> high A P m1 m2 -> high A P (apply_change m1 p c) m2.
Proof.
  intros Hp (A1 & P1 & Hl & Hh) (E1 & E2 & La & Lp). unfold apply_change.
  destruct c as [i j v | a b | k].
  - destruct (_ && _) eqn:G; [|repeat split; assumption]. apply andb_prop in G. destruct G as [G _]. apply Nat.ltb_lt in G.
    pose proof (Forall_nth_in _ _ i nilslice (Hl p Hp) G) as Ha. simpl in Ha.
    split; [unfold set_words; simpl; now rewrite put_length|]. split; [exact E2|].
    split; [|exact Lp]. intros x Hx. rewrite nth_arrays_set. simpl.
    match goal with |- context [(x =? ?y)] => destruct (Nat.eqb_spec x y); [lia|] end. simpl. now apply La.
  - split; [exact E1|]. split; [unfold set_poly; simpl; now rewrite put_length|].
    split; [exact La|]. intros q Hq. rewrite deref_set_poly. destruct (Nat.eqb_spec q p); [lia|]. now apply Lp.
  - split; [exact E1|]. split; [unfold set_poly; simpl; now rewrite put_length|].
    split; [exact La|]. intros q Hq. rewrite deref_set_poly. destruct (Nat.eqb_spec q p); [lia|]. now apply Lp.
Qed.

Lemma content_eq m1 m2 p : deref m1 p = deref m2 p ->
  (forall s, In s (coeffs (deref m2 p)) -> nth (arr s) (arrays m1) [] = nth (arr s) (arrays m2) []) -> content m1 p = content m2 p.
Proof.
  intros E H. unfold content. rewrite E. f_equal. f_equal. apply map_ext_in. intros s Hs. unfold words. now rewrite (H s Hs).
Qed.

Lemma changes_low A P m1 m2 ws : split_at A P m1 -> split_at A P m2 -> low A P m1 m2 ->
  forall p, p < P -> content (changes m1 ws) p = content (changes m2 (filter (fun w => fst w <? P) ws)) p.
Proof.
  intros S1 S2 L p Hp. revert m1 m2 S1 S2 L. induction ws as [|[q c] ws IH]; intros m1 m2 S1 S2 L.
  - simpl. destruct L as [La Lp]. apply content_eq; [now apply Lp|]. intros s Hs. apply La.
    destruct S2 as (_ & _ & Hl & _). specialize (Hl p Hp). rewrite Forall_forall in Hl. now apply Hl.
  - simpl. destruct (Nat.ltb_spec q P).
    + simpl. apply IH; try (apply change_split; assumption). now apply change_low_both.
    + apply IH; try (apply change_split; assumption); try assumption. now apply change_low_one.
Qed.

Lemma changes_high A P m1 m2 ws : split_at A P m1 -> split_at A P m2 -> high A P m1 m2 ->
  forall p, P <= p -> content (changes m1 ws) p = content (changes m2 (filter (fun w => negb (fst w <? P)) ws)) p.
Proof.
  intros S1 S2 L p Hp. revert m1 m2 S1 S2 L. induction ws as [|[q c] ws IH]; intros m1 m2 S1 S2 L.
  - simpl. destruct L as (E1 & E2 & La & Lp). apply content_eq; [now apply Lp|]. intros s Hs. apply La.
    destruct S2 as (_ & _ & _ & Hh). specialize (Hh p Hp). rewrite Forall_forall in Hh. now apply Hh.
  - simpl. destruct (Nat.ltb_spec q P).
    + simpl. apply IH; try (apply change_split; assumption); try assumption. now apply change_high_one.
    + simpl. apply IH; try (apply change_split; assumption). now apply change_high_both.
Qed.

(** [m'] is [m] with more arrays and more polynomials, these on the new arrays. *)
Definition extends (m m' : mem) : Prop :=
  (exists la, arrays m' = arrays m ++ la) /\ (exists lp, polys m' = polys m ++ lp) /\
  (forall p, length (polys m) <= p -> Forall (fun s => length (arrays m) <= arr s) (coeffs (deref m' p))).

Lemma extends_arr m m' a : extends m m' -> a < length (arrays m) -> nth a (arrays m') [] = nth a (arrays m) [].
Proof. intros ([la E] & _) H. rewrite E. now apply app_nth1. Qed.
Lemma extends_deref m m' p : extends m m' -> valid m p -> deref m' p = deref m p.
Proof. intros (_ & [lp E] & _) H. unfold deref. rewrite E. now apply app_nth1. Qed.
Lemma extends_lengths m m' : extends m m' -> length (arrays m) <= length (arrays m') /\ length (polys m) <= length (polys m').
Proof. intros ([la E] & [lp E'] & _). rewrite E, E', !app_length. lia. Qed.
Lemma deref_out m p : ~ valid m p -> deref m p = nilpoly.
Proof. intros H. unfold deref. apply nth_overflow. unfold valid in H. lia. Qed.

Lemma ok_split m : mem_ok m -> split_at (length (arrays m)) (length (polys m)) m.
Proof.
  intros H. split; [lia|]. split; [lia|]. split; intros p Hp.
  - unfold mem_ok in H. pose proof (Forall_nth_in _ _ p nilpoly H Hp) as Hn. simpl in Hn. change (nth p (polys m) nilpoly) with (deref m p) in Hn.
    eapply Forall_impl; [|exact Hn]. intros s Hs. apply Hs.
  - rewrite deref_out by (unfold valid; lia). constructor.
Qed.

Lemma extends_split m m' : mem_ok m -> extends m m' -> split_at (length (arrays m)) (length (polys m)) m'.
Proof.
  intros H E. destruct (extends_lengths _ _ E). split; [lia|]. split; [lia|]. split.
  - intros p Hp. rewrite (extends_deref _ _ _ E Hp). apply (ok_split m H). exact Hp.
  - apply E.
Qed.

Lemma separate_lemma m m' : mem_ok m -> extends m m' -> separate m m'.
Proof.
  intros H E ws. pose proof (extends_split m m' H E) as S'. split; intros p Hp.
  - apply (changes_low (length (arrays m)) (length (polys m)) m' m ws S'); [now apply ok_split| |exact Hp].
    split; intros x Hx; [now apply extends_arr|now apply extends_deref].
  - apply (changes_high (length (arrays m)) (length (polys m)) m' m' ws S' S'); [repeat split|]. unfold valid in Hp. lia.
Qed.

Lemma extends_refl m : extends m m.
Proof.
  split; [exists []; now rewrite app_nil_r|]. split; [exists []; now rewrite app_nil_r|].
  intros p Hp. rewrite deref_out by (unfold valid; lia). constructor.
Qed.

Lemma extends_trans m1 m2 m3 : extends m1 m2 -> extends m2 m3 -> extends m1 m3.
Proof.
  intros E1 E2. pose proof (extends_lengths _ _ E1) as [L1 L2]. destruct E1 as ([a1 E1a] & [p1 E1p] & H1).
  assert (E2' := E2). destruct E2 as ([a2 E2a] & [p2 E2p] & H2).
  split; [exists (a1 ++ a2); rewrite E2a, E1a; now rewrite app_assoc|].
  split; [exists (p1 ++ p2); rewrite E2p, E1p; now rewrite app_assoc|].
  intros p Hp. destruct (Nat.ltb_spec p (length (polys m2))) as [H|H].
  - rewrite (extends_deref _ _ _ E2' H). now apply H1.
  - eapply Forall_impl; [|now apply H2]. simpl. intros. lia.
Qed.

Lemma slice_ok_ext m m' s : extends m m' -> slice_ok m s -> slice_ok m' s.
Proof.
  intros E (H1 & H2 & H3). pose proof (extends_lengths _ _ E) as [L _]. split; [lia|]. split; [exact H2|].
  now rewrite (extends_arr _ _ _ E H1).
Qed.
Lemma words_ext m m' s : extends m m' -> slice_ok m s -> words m' s = words m s.
Proof. intros E (H1 & _). unfold words. now rewrite (extends_arr _ _ _ E H1). Qed.
Lemma poly_ok m p : mem_ok m -> Forall (slice_ok m) (coeffs (deref m p)).
Proof.
  intros H. destruct (Nat.ltb_spec p (length (polys m))) as [Hp|Hp].
  - exact (Forall_nth_in _ _ p nilpoly H Hp).
  - rewrite deref_out by (unfold valid; lia). constructor.
Qed.
Lemma content_ext m m' p : mem_ok m -> extends m m' -> valid m p -> content m' p = content m p.
Proof.
  intros H E Hp. apply content_eq; [now apply extends_deref|]. intros s Hs. apply extends_arr; [exact E|].
  pose proof (poly_ok m p H) as F. rewrite Forall_forall in F. now apply F.
Qed.

(** ** The copies *)

(** Copying the rows. *)
Definition grows (m m' : mem) : Prop := (exists la, arrays m' = arrays m ++ la) /\ polys m' = polys m.

Lemma grows_extends m m' : grows m m' -> extends m m'.
Proof.
  intros [G E]. split; [exact G|]. split; [exists []; now rewrite app_nil_r|].
  intros p Hp. unfold deref. rewrite E. rewrite nth_overflow by lia. constructor.
Qed.
Lemma grows_trans m1 m2 m3 : grows m1 m2 -> grows m2 m3 -> grows m1 m3.
Proof.
  intros [[a E] E'] [[b F] F']. split; [exists (a ++ b); rewrite F, E; now rewrite app_assoc|congruence].
Qed.
Lemma grows_refl m : grows m m.
Proof. split; [exists []; now rewrite app_nil_r|reflexivity]. Qed.

Lemma put_app2 {A} (x y : A) l : put (length l) x (l ++ [y]) = l ++ [x].
Proof. induction l as [|z l IH]; simpl; [reflexivity|now rewrite IH]. Qed.

(** make then copy: a fresh array with the words of the source. *)
Lemma make_copy m s : slice_ok m s ->
  let '(m1, s') := gomake m (len s) in
  gocopy m1 s' s = Mem (arrays m ++ [words m s]) (polys m) /\ s' = Slice (length (arrays m)) 0 (len s) (len s).
Proof.
  intros H. simpl. split; [|reflexivity].
  assert (E : words (Mem (arrays m ++ [repeat 0%Z (len s)]) (polys m)) s = words m s).
  { unfold words. simpl. rewrite app_nth1 by apply H. reflexivity. }
  unfold gocopy. rewrite E. simpl. unfold set_words. simpl. rewrite app_nth2, Nat.sub_diag by lia. simpl. rewrite put_app2.
  pose proof (words_length m s H) as L. rewrite firstn_all2 by lia.
  unfold overwrite. simpl. rewrite repeat_length, L, Nat.sub_0_r. rewrite firstn_all2 by lia.
  rewrite skipn_all2 by (rewrite repeat_length; lia). now rewrite app_nil_r.
Qed.

Lemma copy_rows_spec ss : forall m, Forall (slice_ok m) ss ->
  let '(m', ss') := copy_rows m ss in
  grows m m' /\ map (words m') ss' = map (words m) ss /\ Forall (slice_ok m') ss' /\
  Forall (fun s => length (arrays m) <= arr s) ss' /\ map len ss' = map len ss.
Proof.
  induction ss as [|s ss IH]; intros m H.
  - simpl. repeat split; try constructor. exists []. now rewrite app_nil_r.
  - inversion H as [|? ? Hs Hss]; subst. simpl. pose proof (make_copy m s Hs) as E. simpl in E. destruct E as [E _]. rewrite E.
    set (m1 := Mem (arrays m ++ [words m s]) (polys m)) in *.
    assert (G : grows m m1) by (split; [now exists [words m s]|reflexivity]).
    assert (H1 : Forall (slice_ok m1) ss).
    { eapply Forall_impl; [|exact Hss]. intros t Ht. apply (slice_ok_ext m m1); [apply grows_extends; exact G|exact Ht]. }
    specialize (IH m1 H1). destruct (copy_rows m1 ss) as [m' ss']. destruct IH as (G' & EW & Fok & Ffresh & EL).
    assert (Hs1 : slice_ok m1 (Slice (length (arrays m)) 0 (len s) (len s))).
    { split; [unfold m1; simpl; rewrite app_length; simpl; lia|]. simpl. split; [lia|].
      rewrite app_nth2, Nat.sub_diag by lia. simpl. rewrite (words_length m s Hs). lia. }
    split; [exact (grows_trans _ _ _ G G')|]. split; [|split; [|split]].
    + simpl. f_equal.
      * rewrite (words_ext m1 m' _ (grows_extends _ _ G') Hs1). unfold words at 1. unfold m1. simpl.
        rewrite app_nth2, Nat.sub_diag by lia. simpl. apply firstn_all2. rewrite (words_length m s Hs). lia.
      * rewrite EW. apply map_ext_in. intros t Ht. rewrite Forall_forall in Hss.
        apply (words_ext m m1 t (grows_extends _ _ G)). now apply Hss.
    + constructor; [|exact Fok]. apply (slice_ok_ext m1 m'); [apply grows_extends; exact G'|exact Hs1].
    + constructor; [simpl; lia|]. eapply Forall_impl; [|exact Ffresh]. intros t Ht. unfold m1 in Ht. simpl in Ht. rewrite app_length in Ht. lia.
    + simpl. now rewrite EL.
Qed.

(** What a deep copy does. *)
Definition copied (m m' : mem) (ps : list nat) : Prop :=
  mem_ok m' /\ extends m m' /\ Forall (fun p => ~ valid m p /\ valid m' p) ps.

Lemma ok_ext_polys m m' : mem_ok m -> grows m m' -> mem_ok m'.
Proof.
  intros H G. unfold mem_ok. destruct G as [[la E] E']. rewrite E'.
  eapply Forall_impl; [|exact H]. intros P HP. eapply Forall_impl; [|exact HP]. intros s Hs. eapply slice_ok_ext; [|exact Hs].
  apply grows_extends. split; [now exists la|exact E'].
Qed.

Lemma poly_copy_spec m p : mem_ok m ->
  let '(m', p') := Poly_CopyNew m p in
  copied m m' [p'] /\ content m' p' = content m p.
Proof.
  intros H. unfold Poly_CopyNew.
  pose proof (copy_rows_spec (coeffs (deref m p)) m (poly_ok m p H)) as S. destruct (copy_rows m _) as [m1 ss].
  destruct S as (G & EW & Fok & Ffresh & EL). unfold gonew.
  set (m' := Mem (arrays m1) (polys m1 ++ [Poly ss (isNTT (deref m p)) (isMForm (deref m p))])).
  destruct G as [[la Ea] Ep].
  assert (D : deref m' (length (polys m1)) = Poly ss (isNTT (deref m p)) (isMForm (deref m p))).
  { unfold deref, m'. simpl. rewrite app_nth2, Nat.sub_diag by lia. reflexivity. }
  split; [split; [|split]|].
  - unfold mem_ok, m'. simpl. apply Forall_app. split; [|constructor; [exact Fok|constructor]].
    pose proof (ok_ext_polys m m1 H ltac:(split; [now exists la|exact Ep])) as Ok. exact Ok.
  - split; [now exists la|]. split; [exists [Poly ss (isNTT (deref m p)) (isMForm (deref m p))]; unfold m'; simpl; now rewrite Ep|].
    intros q Hq. destruct (Nat.eq_dec q (length (polys m1))) as [->|Hne]; [rewrite D; exact Ffresh|].
    rewrite deref_out; [constructor|]. unfold valid, m'. simpl. rewrite app_length, Ep. rewrite Ep in Hne. simpl. lia.
  - constructor; [|constructor]. unfold valid, m'. simpl. rewrite app_length. rewrite Ep. simpl. lia.
  - unfold content. rewrite D. simpl. f_equal. f_equal. exact EW.
Qed.

Lemma copied_refl m : mem_ok m -> copied m m [].
Proof. intros H. split; [exact H|]. split; [apply extends_refl|constructor]. Qed.

Lemma copied_trans m1 m2 m3 ps qs : copied m1 m2 ps -> copied m2 m3 qs -> copied m1 m3 (ps ++ qs).
Proof.
  intros (O2 & E1 & F1) (O3 & E2 & F2). split; [exact O3|]. split; [exact (extends_trans _ _ _ E1 E2)|].
  pose proof (extends_lengths _ _ E1) as [_ L1]. pose proof (extends_lengths _ _ E2) as [_ L2].
  apply Forall_app. split.
  - eapply Forall_impl; [|exact F1]. unfold valid. intros p Hp. lia.
  - eapply Forall_impl; [|exact F2]. unfold valid. intros p Hp. lia.
Qed.

(** Copies of structures, in general: [ptrs] are the pointers, [view] what can be seen. *)
Section Copy.
  Context {A V : Type} (ptrs : A -> list nat) (view : mem -> A -> V) (f : mem -> A -> mem * A).
  Definition view_local : Prop :=
    forall m1 m2 x, (forall p, In p (ptrs x) -> content m2 p = content m1 p) -> view m2 x = view m1 x.
  Definition copies : Prop :=
    forall m x, mem_ok m -> Forall (valid m) (ptrs x) ->
    let '(m', x') := f m x in copied m m' (ptrs x') /\ view m' x' = view m x.

  Lemma view_ext : view_local -> forall m m' x, mem_ok m -> extends m m' -> Forall (valid m) (ptrs x) -> view m' x = view m x.
  Proof. intros L m m' x H E F. apply L. intros p Hp. rewrite Forall_forall in F. apply content_ext; auto. Qed.
End Copy.

Lemma valid_ext m m' ps : extends m m' -> Forall (valid m) ps -> Forall (valid m') ps.
Proof. intros E F. pose proof (extends_lengths _ _ E) as [_ L]. eapply Forall_impl; [|exact F]. unfold valid. intros. lia. Qed.

Lemma copied_valid m m' ps : copied m m' ps -> Forall (valid m') ps.
Proof. intros (_ & _ & F). eapply Forall_impl; [|exact F]. intros p Hp. apply Hp. Qed.

Lemma poly_copies : copies (fun p => [p]) content Poly_CopyNew.
Proof. intros m p H _. apply poly_copy_spec. exact H. Qed.
Lemma poly_local : view_local (fun p => [p]) content.
Proof. intros m1 m2 p H. apply H. now left. Qed.

Definition viewO (m : mem) (p : option nat) := option_map (content m) p.
Lemma opt_copies : copies optptr viewO opt_CopyNew.
Proof.
  intros m [p|] H _; simpl; [|split; [now apply copied_refl|reflexivity]].
  pose proof (poly_copy_spec m p H) as S. destruct (Poly_CopyNew m p) as [m' p']. destruct S as [C E].
  split; [exact C|]. simpl. now rewrite E.
Qed.
Lemma opt_local : view_local optptr viewO.
Proof. intros m1 m2 [p|] H; [|reflexivity]. simpl in *. rewrite (H p) by now left. reflexivity. Qed.

Lemma qp_local : view_local ptrsQP viewQP.
Proof.
  intros m1 m2 x H. unfold viewQP. f_equal; apply (opt_local m1 m2); intros p Hp; apply H; unfold ptrsQP; apply in_or_app; auto.
Qed.
Lemma qp_copies : copies ptrsQP viewQP QP_CopyNew.
Proof.
  intros m x H F. unfold QP_CopyNew. unfold ptrsQP in F. apply Forall_app in F. destruct F as [F1 F2].
  pose proof (opt_copies m (pQ x) H F1) as C1. destruct (opt_CopyNew m (pQ x)) as [m1 q']. destruct C1 as [C1 V1].
  destruct (C1) as (O1 & E1 & _).
  pose proof (opt_copies m1 (pP x) O1 (valid_ext _ _ _ E1 F2)) as C2. destruct (opt_CopyNew m1 (pP x)) as [m2 p']. destruct C2 as [C2 V2].
  split; [exact (copied_trans _ _ _ _ _ C1 C2)|]. unfold viewQP. simpl. f_equal.
  - change (viewO m2 q' = viewO m (pQ x)). rewrite <- V1. apply (view_ext _ _ opt_local); [exact O1|apply C2|exact (copied_valid _ _ _ C1)].
  - change (viewO m2 p' = viewO m (pP x)). rewrite V2. apply (view_ext _ _ opt_local); [exact H|exact E1|exact F2].
Qed.

Lemma pk_local : view_local ptrsPK viewPK.
Proof.
  intros m1 m2 x H. unfold viewPK. f_equal; apply qp_local; intros p Hp; apply H; unfold ptrsPK; apply in_or_app; auto.
Qed.
Lemma pk_copies : copies ptrsPK viewPK PK_CopyNew.
Proof.
  intros m x H F. unfold PK_CopyNew. unfold ptrsPK in F. apply Forall_app in F. destruct F as [F1 F2].
  pose proof (qp_copies m (fst x) H F1) as C1. destruct (QP_CopyNew m (fst x)) as [m1 q']. destruct C1 as [C1 V1].
  destruct (C1) as (O1 & E1 & _).
  pose proof (qp_copies m1 (snd x) O1 (valid_ext _ _ _ E1 F2)) as C2. destruct (QP_CopyNew m1 (snd x)) as [m2 p']. destruct C2 as [C2 V2].
  split; [exact (copied_trans _ _ _ _ _ C1 C2)|]. unfold viewPK. simpl. f_equal.
  - rewrite <- V1. apply (view_ext _ _ qp_local); [exact O1|apply C2|exact (copied_valid _ _ _ C1)].
  - rewrite V2. apply (view_ext _ _ qp_local); [exact H|exact E1|exact F2].
Qed.

Section CopyList.
  Context {A V : Type} (ptrs : A -> list nat) (view : mem -> A -> V) (f : mem -> A -> mem * A).
  Hypothesis Hloc : view_local ptrs view.
  Hypothesis Hcop : copies ptrs view f.

  Lemma list_local : view_local (fun l => concat (map ptrs l)) (fun m => map (view m)).
  Proof.
    intros m1 m2 l H. apply map_ext_in. intros x Hx. apply Hloc. intros p Hp. apply H. apply in_concat. exists (ptrs x).
    split; [now apply in_map|exact Hp].
  Qed.

  Lemma list_copies : copies (fun l => concat (map ptrs l)) (fun m => map (view m)) (copy_list f).
  Proof.
    intros m l. revert m. induction l as [|x l IH]; intros m H F; [simpl; split; [now apply copied_refl|reflexivity]|].
    simpl in F. apply Forall_app in F. destruct F as [F1 F2]. simpl.
    pose proof (Hcop m x H F1) as C1. destruct (f m x) as [m1 x']. destruct C1 as [C1 V1]. destruct (C1) as (O1 & E1 & _).
    specialize (IH m1 O1 (valid_ext _ _ _ E1 F2)). destruct (copy_list f m1 l) as [m2 l']. destruct IH as [C2 V2].
    split; [exact (copied_trans _ _ _ _ _ C1 C2)|]. simpl. f_equal.
    - rewrite <- V1. apply (view_ext _ _ Hloc); [exact O1|apply C2|exact (copied_valid _ _ _ C1)].
    - rewrite V2. apply (view_ext _ _ list_local); [exact H|exact E1|exact F2].
  Qed.
End CopyList.

Lemma swk_local : view_local ptrsSWK viewSWK.
Proof. exact (list_local _ _ pk_local). Qed.
Lemma swk_list_copies : copies ptrsSWK viewSWK (copy_list PK_CopyNew).
Proof. exact (list_copies _ _ _ pk_local pk_copies). Qed.

Definition optSWK (s : option switchingKey) : list nat := match s with Some s => ptrsSWK s | None => [] end.

(** Empty keys are copied to nil; leave them out. *)
Definition not_empty (k : option switchingKey) : Prop := k <> Some [].

Lemma deep_of m m' ps : mem_ok m -> copied m m' ps -> deep m m' ps.
Proof. intros H (O & E & F). split; [exact O|]. split; [now apply separate_lemma|exact F]. Qed.

Lemma swk_copy m k : mem_ok m -> Forall (valid m) (ptrsSWK k) -> k <> [] ->
  exists m' k', SWK_CopyNew m (Some k) = (m', Some k') /\ copied m m' (ptrsSWK k') /\ viewSWK m' k' = viewSWK m k.
Proof.
  intros H F N. pose proof (swk_list_copies m k H F) as C. unfold SWK_CopyNew. destruct k as [|x k]; [congruence|].
  destruct (copy_list PK_CopyNew m (x :: k)) as [m' k']. destruct C as [C V]. exists m', k'. auto.
Qed.

(** The keys of a relinearization key, none of them empty. *)
Lemma rlk_copy_list k : forall m, mem_ok m -> Forall (valid m) (ptrsRLK k) -> Forall not_empty k ->
  let '(m', k') := copy_list SWK_CopyNew m k in copied m m' (ptrsRLK k') /\ viewRLK m' k' = viewRLK m k.
Proof.
  induction k as [|x k IH]; intros m H F N; [simpl; split; [now apply copied_refl|reflexivity]|].
  unfold ptrsRLK in F. simpl in F. apply Forall_app in F. destruct F as [F1 F2]. inversion N as [|? ? N1 N2]; subst. simpl.
  assert (C1 : let '(m1, x') := SWK_CopyNew m x in copied m m1 (optSWK x') /\ option_map (viewSWK m1) x' = option_map (viewSWK m) x).
  { destruct x as [s|]; [|simpl; split; [now apply copied_refl|reflexivity]].
    destruct (swk_copy m s H F1 ltac:(intros ->; now apply N1)) as (m1 & s' & -> & C & V). simpl. split; [exact C|now rewrite V]. }
  destruct (SWK_CopyNew m x) as [m1 x']. destruct C1 as [C1 V1]. destruct (C1) as (O1 & E1 & _).
  specialize (IH m1 O1 (valid_ext _ _ _ E1 F2) N2). destruct (copy_list SWK_CopyNew m1 k) as [m2 k']. destruct IH as [C2 V2].
  split; [exact (copied_trans _ _ _ _ _ C1 C2)|]. unfold viewRLK in *. simpl. f_equal.
  - rewrite <- V1. destruct x' as [s'|]; [|reflexivity]. simpl. f_equal.
    apply (view_ext _ _ swk_local); [exact O1|apply C2|exact (copied_valid _ _ _ C1)].
  - rewrite V2. apply map_ext_in. intros [s|] Hs; [|reflexivity]. simpl. f_equal. apply (view_ext _ _ swk_local); [exact H|exact E1|].
    rewrite Forall_forall in *. intros p Hp. apply F2. apply in_concat. exists (ptrsSWK s). split; [|exact Hp].
    apply in_map_iff. exists (Some s). auto.
Qed.

(** ** Equality *)

Lemma row_eqb_spec a : forall b, row_eqb a b = true <-> a = b.
Proof.
  unfold row_eqb. induction a as [|x a IH]; intros [|y b]; simpl; try (split; [discriminate|discriminate]); [split; reflexivity|].
  specialize (IH b). rewrite andb_true_iff in *. rewrite andb_true_iff, Z.eqb_eq, Nat.eqb_eq in *. split.
  - intros (H1 & H2 & H3). f_equal; [exact H2|]. apply IH. auto.
  - intros E. inversion E; subst. destruct IH as [_ IH]. destruct (IH eq_refl). auto.
Qed.

Lemma forallb_pairs {A B} (f : A -> B -> bool) (R : A -> B -> Prop) (H : forall a b, f a b = true <-> R a b) la : forall lb,
  ((length la =? length lb) && forallb (fun '(a, b) => f a b) (combine la lb)) = true <-> Forall2 R la lb.
Proof.
  induction la as [|a la IH]; intros [|b lb]; simpl.
  - split; [constructor|reflexivity].
  - split; [discriminate|]. intros F; inversion F.
  - split; [discriminate|]. intros F; inversion F.
  - specialize (IH lb). rewrite andb_true_iff in *. rewrite andb_true_iff, H. rewrite Nat.eqb_eq in *. split.
    + intros (H1 & H2 & H3). constructor; [exact H2|]. apply IH. auto.
    + intros F; inversion F; subst. destruct IH as [_ IH]. destruct IH; auto.
Qed.

Lemma Forall2_map_eq {A B V} (f : A -> V) (g : B -> V) la : forall lb, Forall2 (fun a b => f a = g b) la lb <-> map f la = map g lb.
Proof.
  induction la as [|a la IH]; intros [|b lb]; simpl; try (split; [intros F; inversion F|discriminate]).
  - split; [reflexivity|constructor].
  - split.
    + intros F; inversion F; subst. f_equal; [assumption|]. now apply IH.
    + intros E. inversion E. constructor; [assumption|]. now apply IH.
Qed.

Lemma poly_equals_spec m p o : Poly_Equals m (Some p) (Some o) = true <-> rows_at m p = rows_at m o.
Proof.
  unfold Poly_Equals, rows_at. rewrite (forallb_pairs _ (fun s t => words m s = words m t)); [apply Forall2_map_eq|].
  intros s t. apply row_eqb_spec.
Qed.

Lemma qp_equals_spec m p o : fullQP p -> QP_Equals m p o = true <-> rowsQP m p = rowsQP m o.
Proof.
  intros [HQ HP]. unfold QP_Equals, rowsQP. destruct (pQ p) as [q|]; [|congruence]. destruct (pP p) as [r|]; [|congruence].
  destruct (pQ o) as [q'|]; [|simpl; split; discriminate]. destruct (pP o) as [r'|]; [|rewrite andb_comm; simpl; split; discriminate].
  rewrite andb_true_iff, !poly_equals_spec. simpl. split; [intros [-> ->]; reflexivity|intros E; inversion E; auto].
Qed.

Lemma pk_equals_spec m k o : fullPK k -> PK_Equals m k o = true <-> rowsPK m k = rowsPK m o.
Proof.
  intros [H1 H2]. unfold PK_Equals, rowsPK. rewrite andb_true_iff, (qp_equals_spec m _ _ H1), (qp_equals_spec m _ _ H2).
  split; [intros [-> ->]; reflexivity|intros E; split; [exact (f_equal fst E)|exact (f_equal snd E)]].
Qed.

Lemma swk_equals_spec m k o : fullSWK k -> SWK_Equals m (Some k) (Some o) = true <-> rowsSWK m k = rowsSWK m o.
Proof.
  intros F. unfold SWK_Equals, rowsSWK. revert o. induction k as [|x k IH]; intros [|y o]; simpl; try (split; [discriminate|discriminate]).
  - split; reflexivity.
  - inversion F as [|? ? F1 F2]; subst. specialize (IH F2 o). rewrite andb_true_iff in *. rewrite andb_true_iff, Nat.eqb_eq in *.
    rewrite (pk_equals_spec m x y F1). split.
    + intros (H1 & H2 & H3). f_equal; [exact H2|]. apply IH. auto.
    + intros E. assert (E1 : rowsPK m x = rowsPK m y) by congruence. assert (E2 : map (rowsPK m) k = map (rowsPK m) o) by congruence.
      destruct IH as [_ IH]. destruct (IH E2) as [L Q]. rewrite L. auto.
Qed.
