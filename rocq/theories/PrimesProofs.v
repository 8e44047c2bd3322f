(** Proofs about the prime generators. *)
From Coq Require Import Znumtheory Sorted.
From Verif Require Import Word Arith Ring RingProofs Codec Params Primes PrimesSpec.

(** ** Lists *)
Lemma sorted_app {A} (R : A -> A -> Prop) l1 : forall l2, StronglySorted R (l1 ++ l2) <-> StronglySorted R l1 /\ StronglySorted R l2 /\ forall a b, In a l1 -> In b l2 -> R a b.
Proof.
  induction l1 as [|x l1 IH]; intros l2; cbn [app].
  - split; [intros H; split; [constructor|]; split; [exact H|intros a b []]|intros (_ & H & _); exact H].
  - split.
    + intros H. inversion H as [|y z H1 H2]; subst. apply IH in H1. destruct H1 as (S1 & S2 & C). rewrite Forall_forall in H2. split; [constructor; [exact S1|apply Forall_forall; intros y Hy; apply H2, in_or_app; left; exact Hy]|]. split; [exact S2|]. intros a b [<-|Ha] Hb; [apply H2, in_or_app; right; exact Hb|apply C; assumption].
    + intros (S1 & S2 & C). inversion S1 as [|y z S3 S4]; subst. constructor; [apply IH; split; [exact S3|]; split; [exact S2|]; intros a b Ha Hb; apply C; [right; exact Ha|exact Hb]|]. rewrite Forall_forall in *. intros y Hy. apply in_app_or in Hy. destruct Hy as [Hy|Hy]; [apply S4; exact Hy|apply C; [left; reflexivity|exact Hy]].
Qed.
Lemma sorted_filter {A} (R : A -> A -> Prop) f l : StronglySorted R l -> StronglySorted R (filter f l).
Proof.
  induction 1 as [|x l S IH F]; [constructor|]. cbn [filter]. destruct (f x); [|exact IH]. constructor; [exact IH|]. rewrite Forall_forall in *. intros y Hy. apply filter_In in Hy. apply F, Hy.
Qed.
(** What a sorted list of candidates gives. *)
Lemma first_of_list (C : Z -> Prop) before L n l : StronglySorted before L -> (forall c, In c L -> C c) -> (forall c d, In c L -> C d -> ~ In d L -> before c d) ->
  l = firstn (Z.to_nat n) (filter IsPrime L) -> Z.of_nat (length l) = n -> 1 <= n -> first_of (fun c => C c /\ prime c) before n l.
Proof.
  intros S HC HN El Ll Hn. set (F := filter IsPrime L) in *. assert (SF : StronglySorted before F) by (apply sorted_filter; exact S). rewrite <- (firstn_skipn (Z.to_nat n) F) in SF. rewrite <- El in SF. apply sorted_app in SF. destruct SF as (S1 & _ & S2).
  assert (IL : forall c, In c l -> In c L /\ IsPrime c = true). { intros c Hc. apply (filter_In IsPrime). fold F. rewrite <- (firstn_skipn (Z.to_nat n) F). apply in_or_app. left. rewrite <- El. exact Hc. }
  split; [exact Hn|]. split; [exact Ll|]. split; [apply Forall_forall; intros c Hc; destruct (IL c Hc) as [I1 I2]; split; [apply HC; exact I1|apply IsPrime_spec; exact I2]|]. split; [exact S1|].
  intros c d Hc [D1 D2] ND. destruct (in_dec Z.eq_dec d L) as [ID|ID]; [|apply HN; [apply IL; exact Hc|exact D1|exact ID]]. apply S2; [exact Hc|]. assert (FD : In d F) by (apply filter_In; split; [exact ID|apply IsPrime_spec; exact D2]). rewrite <- (firstn_skipn (Z.to_nat n) F) in FD. apply in_app_or in FD. destruct FD as [FD|FD]; [|exact FD]. exfalso. apply ND. rewrite El. exact FD.
Qed.
Lemma first_core (before : Z -> Z -> Prop) : (forall a b, before a b -> before b a -> False) -> forall l l' (P : Z -> Prop), length l = length l' ->
  Forall P l -> StronglySorted before l -> (forall c d, In c l -> P d -> ~ In d l -> before c d) -> Forall P l' -> StronglySorted before l' -> (forall c d, In c l' -> P d -> ~ In d l' -> before c d) -> l = l'.
Proof.
  intros AS. induction l as [|a l IH]; intros [|b l'] P HL F1 S1 N1 F2 S2 N2; try discriminate; [reflexivity|].
  inversion S1 as [|x y S1a S1b]; subst. inversion S2 as [|x y S2a S2b]; subst. inversion F1 as [|x y F1a F1b]; subst. inversion F2 as [|x y F2a F2b]; subst. rewrite Forall_forall in S1b, S2b, F1b, F2b.
  assert (E : a = b).
  { destruct (in_dec Z.eq_dec a (b :: l')) as [[Ha|Ha]|Ha]; [symmetry; exact Ha| |].
    - destruct (in_dec Z.eq_dec b (a :: l)) as [[Hb|Hb]|Hb]; [exact Hb| |].
      + exfalso. apply (AS a b); [apply S1b; exact Hb|apply S2b; exact Ha].
      + exfalso. apply (AS a b); [apply N1; [left; reflexivity|exact F2a|exact Hb]|apply S2b; exact Ha].
    - destruct (in_dec Z.eq_dec b (a :: l)) as [[Hb|Hb]|Hb]; [exact Hb| |].
      + exfalso. apply (AS a b); [apply S1b; exact Hb|apply N2; [left; reflexivity|exact F1a|exact Ha]].
      + exfalso. apply (AS a b); [apply N1; [left; reflexivity|exact F2a|exact Hb]|apply N2; [left; reflexivity|exact F1a|exact Ha]]. }
  subst b. f_equal. apply (IH l' (fun c => P c /\ c <> a)).
  - cbn in HL. lia.
  - apply Forall_forall. intros c Hc. split; [apply F1b; exact Hc|]. intros ->. apply (AS a a); apply S1b; exact Hc.
  - exact S1a.
  - intros c d Hc [Pd Nd] ND. apply N1; [right; exact Hc|exact Pd|]. intros [<-|H]; [apply Nd; reflexivity|exact (ND H)].
  - apply Forall_forall. intros c Hc. split; [apply F2b; exact Hc|]. intros ->. apply (AS a a); apply S2b; exact Hc.
  - exact S2a.
  - intros c d Hc [Pd Nd] ND. apply N2; [right; exact Hc|exact Pd|]. intros [<-|H]; [apply Nd; reflexivity|exact (ND H)].
Qed.
Lemma first_unique P (before : Z -> Z -> Prop) n l l' : (forall a b, before a b -> before b a -> False) -> first_of P before n l -> first_of P before n l' -> l = l'.
Proof. intros AS (_ & L1 & F1 & S1 & N1) (_ & L2 & F2 & S2 & N2). apply (first_core before AS l l' P); try assumption. lia. Qed.
Lemma sorted_nodup (before : Z -> Z -> Prop) l : (forall a, ~ before a a) -> StronglySorted before l -> NoDup l.
Proof. intros IR. induction 1 as [|x l S IH F]; constructor; [|exact IH]. intros H. rewrite Forall_forall in F. apply (IR x), F, H. Qed.
Lemma first_none (C : Z -> Prop) (before : Z -> Z -> Prop) L n : (forall a, ~ before a a) -> (forall c, C c -> In c L) -> (n <= 0 \/ Z.of_nat (length (filter IsPrime L)) < n) -> ~ exists l, first_of (fun c => C c /\ prime c) before n l.
Proof.
  intros IR HC HN (l & H1 & H2 & H3 & H4 & _). destruct HN as [HN|HN]; [lia|]. assert (D : NoDup l) by (apply (sorted_nodup before); assumption). assert (I : incl l (filter IsPrime L)). { intros c Hc. rewrite Forall_forall in H3. destruct (H3 c Hc) as [C1 C2]. apply filter_In. split; [apply HC; exact C1|apply IsPrime_spec; exact C2]. }
  pose proof (NoDup_incl_length D I). lia.
Qed.
Lemma first_ext P P' (before : Z -> Z -> Prop) n l : (forall c, P c <-> P' c) -> first_of P before n l -> first_of P' before n l.
Proof. intros E (A & B & C & D & F). split; [exact A|]. split; [exact B|]. split; [revert C; apply Forall_impl; intros c; apply E|]. split; [exact D|]. intros c d Hc Pd. apply F; [exact Hc|apply E; exact Pd]. Qed.
Lemma nearer_asym x a b : nearer x a b -> nearer x b a -> False.
Proof. unfold nearer. lia. Qed.
Lemma nearer_irrefl x a : ~ nearer x a a.
Proof. unfold nearer. lia. Qed.

(** ** GenerateNTTPrimesQ *)
Definition upper (x R : Z) (i : nat) : list Z := if x + Z.of_nat i * R <? W then [x + Z.of_nat i * R] else [].
Definition lower (x R : Z) (i : nat) : list Z := if 0 <=? x - Z.of_nat i * R then [x - Z.of_nat i * R] else [].
Fixpoint rounds (x R : Z) (k : nat) : list Z := match k with O => [] | S j => rounds x R j ++ upper x R k ++ lower x R k end.

Lemma rounds_in x R k c : 0 < R -> 0 <= x < W -> (In c (rounds x R k) <-> exists i, (1 <= i <= k)%nat /\ 0 <= c < W /\ (c = x + Z.of_nat i * R \/ c = x - Z.of_nat i * R)).
Proof.
  intros HR Hx. induction k as [|k IH]; [split; [intros []|intros (i & H & _); lia]|]. cbn [rounds]. rewrite !in_app_iff, IH. unfold upper, lower. split.
  - intros [(i & H & R1)|[H|H]]; [exists i; split; [lia|exact R1]| |].
    + destruct (Z.ltb_spec (x + Z.of_nat (S k) * R) W) as [L|L]; [|destruct H]. destruct H as [<-|[]]. exists (S k). split; [lia|]. split; [nia|left; reflexivity].
    + destruct (Z.leb_spec 0 (x - Z.of_nat (S k) * R)) as [L|L]; [|destruct H]. destruct H as [<-|[]]. exists (S k). split; [lia|]. split; [nia|right; reflexivity].
  - intros (i & H & B & E). destruct (Nat.eq_dec i (S k)) as [->|NE]; [|left; exists i; split; [lia|split; assumption]]. right. destruct E as [E|E]; [left; rewrite (proj2 (Z.ltb_lt _ _)) by lia; left; symmetry; exact E|right; rewrite (proj2 (Z.leb_le _ _)) by lia; left; symmetry; exact E].
Qed.
Lemma upper_in x R i c : In c (upper x R i) -> c = x + Z.of_nat i * R.
Proof. unfold upper. destruct (_ <? _); [intros [<-|[]]; reflexivity|intros []]. Qed.
Lemma lower_in x R i c : In c (lower x R i) -> c = x - Z.of_nat i * R.
Proof. unfold lower. destruct (_ <=? _); [intros [<-|[]]; reflexivity|intros []]. Qed.
Lemma abs_up x i R : 0 < R -> Z.abs (x + Z.of_nat i * R - x) = Z.of_nat i * R.
Proof. intros H. replace (x + Z.of_nat i * R - x) with (Z.of_nat i * R) by ring. apply Z.abs_eq. nia. Qed.
Lemma abs_down x i R : 0 < R -> Z.abs (x - Z.of_nat i * R - x) = Z.of_nat i * R.
Proof. intros H. replace (x - Z.of_nat i * R - x) with (- (Z.of_nat i * R)) by ring. rewrite Z.abs_opp. apply Z.abs_eq. nia. Qed.
Lemma step_nearer x R i j c d : 0 < R -> (i < j)%nat -> (c = x + Z.of_nat i * R \/ c = x - Z.of_nat i * R) -> (d = x + Z.of_nat j * R \/ d = x - Z.of_nat j * R) -> nearer x c d.
Proof. intros HR H [-> | ->] [-> | ->]; left; rewrite ?abs_up, ?abs_down by exact HR; nia. Qed.
Lemma rounds_sorted x R k : 0 < R -> 0 <= x < W -> StronglySorted (nearer x) (rounds x R k).
Proof.
  intros HR Hx. induction k as [|k IH]; [constructor|]. cbn [rounds]. apply sorted_app. split; [exact IH|]. split.
  - apply sorted_app. split; [unfold upper; destruct (_ <? _); repeat constructor|]. split; [unfold lower; destruct (_ <=? _); repeat constructor|]. intros a b Ha Hb. apply upper_in in Ha. apply lower_in in Hb. subst. right. rewrite abs_up, abs_down by exact HR. split; [reflexivity|nia].
  - intros a b Ha Hb. apply (rounds_in x R k a HR Hx) in Ha. destruct Ha as (i & Hi & _ & Ea). apply (step_nearer x R i (S k)); [exact HR|lia|exact Ea|]. apply in_app_or in Hb. destruct Hb as [Hb|Hb]; [left; apply upper_in; exact Hb|right; apply lower_in; exact Hb].
Qed.
(** The candidates. *)
Definition cand (x R c : Z) : Prop := 0 <= c < W /\ c <> x /\ (R | c - x).
Lemma cand_index x R c : 0 < R -> cand x R c -> exists i, (1 <= i)%nat /\ 0 <= c < W /\ (c = x + Z.of_nat i * R \/ c = x - Z.of_nat i * R).
Proof. intros HR (B & N & k & E). exists (Z.to_nat (Z.abs k)). assert (k <> 0) by (intros ->; lia). split; [lia|]. split; [exact B|]. rewrite Z2Nat.id by lia. destruct (Z.abs_spec k) as [[_ ->]|[_ ->]]; [left; lia|right; lia]. Qed.
Lemma rounds_cand x R k c : 0 < R -> 0 <= x < W -> In c (rounds x R k) -> cand x R c.
Proof. intros HR Hx H. apply rounds_in in H; [|assumption|assumption]. destruct H as (i & Hi & B & [E|E]); (split; [exact B|]); (split; [nia|]); [exists (Z.of_nat i)|exists (- Z.of_nat i)]; lia. Qed.
Lemma rounds_first x R k n l : 0 < R -> 0 <= x < W -> l = firstn (Z.to_nat n) (filter IsPrime (rounds x R k)) -> Z.of_nat (length l) = n -> 1 <= n -> first_of (class_prime x R) (nearer x) n l.
Proof.
  intros HR Hx El Ll Hn. apply (first_ext (fun c => cand x R c /\ prime c)); [intros c; unfold cand, class_prime; tauto|]. apply (first_of_list (cand x R) _ (rounds x R k)); try assumption; [apply rounds_sorted; assumption|intros c Hc; apply (rounds_cand x R k); assumption|].
  intros c d Hc Hd ND. apply rounds_in in Hc; [|assumption|assumption]. destruct Hc as (i & Hi & _ & Ec). destruct (cand_index x R d HR Hd) as (j & Hj & Bd & Ed). apply (step_nearer x R i j); try assumption. destruct (le_lt_dec j k) as [Hjk|Hjk]; [|lia]. exfalso. apply ND. apply rounds_in; [assumption|assumption|]. exists j. split; [lia|]. split; assumption.
Qed.
Lemma rounds_none x R k n : 0 < R -> 0 <= x < W -> W <= x + Z.of_nat k * R -> x - Z.of_nat k * R < 0 -> (n <= 0 \/ Z.of_nat (length (filter IsPrime (rounds x R k))) < n) -> ~ exists l, first_of (class_prime x R) (nearer x) n l.
Proof.
  intros HR Hx H1 H2 HN (l & Hl). apply (first_none (cand x R) (nearer x) (rounds x R k) n); [apply nearer_irrefl| |exact HN|exists l; revert Hl; apply first_ext; intros c; unfold cand, class_prime; tauto].
  intros c Hc. destruct (cand_index x R c HR Hc) as (i & Hi & B & E). apply rounds_in; [assumption|assumption|]. exists i. split; [|split; assumption]. split; [exact Hi|]. destruct (le_lt_dec i k) as [L|L]; [exact L|exfalso]. destruct E as [-> | ->]; nia.
Qed.
Lemma firstn_app_full {A} n (l1 l2 : list A) : length l1 = n -> firstn n (l1 ++ l2) = l1.
Proof. intros <-. rewrite firstn_app, Nat.sub_diag, firstn_all. apply app_nil_r. Qed.

(** One side of the search after k rounds. *)
Definition at_upper (x R next : Z) (b : bool) (k : nat) : Prop := if b then next = x + Z.of_nat k * R /\ next < W else W <= x + Z.of_nat k * R.
Definition at_lower (x R prev : Z) (b : bool) (k : nat) : Prop := if b then prev = x - Z.of_nat k * R /\ 0 <= prev else x - Z.of_nat k * R < 0.
Lemma upper_step x R next b k : 0 < R < W -> 0 <= x < W -> at_upper x R next b k ->
  let stop := b && (wsub 18446744073709551615 R <? next) in
  let next' := if b && negb stop then wadd next R else next in
  at_upper x R next' (b && negb stop) (S k) /\ upper x R (S k) = if b && negb stop then [next'] else [].
Proof.
  intros HR Hx H. unfold upper. replace (x + Z.of_nat (S k) * R) with (x + Z.of_nat k * R + R) by lia. destruct b; cbn [andb] in *; unfold at_upper in *.
  - destruct H as [E L]. unfold wsub, w64. change 18446744073709551615 with (W - 1). rewrite (Z.mod_small (W - 1 - R)) by lia. rewrite <- E. assert (0 <= next) by nia. destruct (Z.ltb_spec (W - 1 - R) next) as [G|G]; cbn [negb]; cbv zeta iota.
    + replace (x + Z.of_nat (S k) * R) with (next + R) by lia. split; [lia|]. rewrite (proj2 (Z.ltb_ge _ _)) by lia. reflexivity.
    + unfold wadd, w64. rewrite (Z.mod_small (next + R)) by lia. rewrite (proj2 (Z.ltb_lt _ _)) by lia. split; [split; lia|reflexivity].
  - cbv zeta iota. split; [lia|]. rewrite (proj2 (Z.ltb_ge _ _)) by lia. reflexivity.
Qed.
Lemma lower_step x R prev b k : 0 < R < W -> 0 <= x < W -> at_lower x R prev b k ->
  let stop := b && (prev <? R) in
  let prev' := if b && negb stop then wsub prev R else prev in
  at_lower x R prev' (b && negb stop) (S k) /\ lower x R (S k) = if b && negb stop then [prev'] else [].
Proof.
  intros HR Hx H. unfold lower. replace (x - Z.of_nat (S k) * R) with (x - Z.of_nat k * R - R) by lia. destruct b; cbn [andb] in *; unfold at_lower in *.
  - destruct H as [E L]. rewrite <- E. assert (prev < W) by nia. destruct (Z.ltb_spec prev R) as [G|G]; cbn [negb]; cbv zeta iota.
    + split; [lia|]. rewrite (proj2 (Z.leb_gt _ _)) by lia. reflexivity.
    + unfold wsub, w64. rewrite (Z.mod_small (prev - R)) by lia. rewrite (proj2 (Z.leb_le _ _)) by lia. split; [split; lia|reflexivity].
  - cbv zeta iota. split; [lia|]. rewrite (proj2 (Z.leb_gt _ _)) by lia. reflexivity.
Qed.
Definition Q_result (x R n : Z) (o : option (res (list Z))) : Prop :=
  match o with
  | None => True
  | Some (Ret l) => exists k, l = firstn (Z.to_nat n) (filter IsPrime (rounds x R k)) /\ Z.of_nat (length l) = n /\ 1 <= n
  | Some Fail => False
  | Some Panic => exists k, W <= x + Z.of_nat k * R /\ x - Z.of_nat k * R < 0 /\ (n <= 0 \/ Z.of_nat (length (filter IsPrime (rounds x R k))) < n)
  end.
Lemma found_filter (b : bool) (y : Z) : filter IsPrime (if b then [y] else []) = if b && IsPrime y then [y] else [].
Proof. destruct b; cbn; destruct (IsPrime y); reflexivity. Qed.
Lemma app_if {A} (b : bool) (l : list A) y : (if b then l ++ [y] else l) = l ++ (if b then [y] else []).
Proof. destruct b; [reflexivity|symmetry; apply app_nil_r]. Qed.
Lemma not_full (b : bool) (l : list Z) y n : (n <= 0 \/ Z.of_nat (length l) < n) -> b && (Z.of_nat (length (l ++ (if b then [y] else []))) =? n) = false -> n <= 0 \/ Z.of_nat (length (l ++ (if b then [y] else []))) < n.
Proof. intros [H|H] E; [left; exact H|]. destruct b; cbn [andb] in E; [|rewrite app_nil_r; right; exact H]. apply Z.eqb_neq in E. rewrite app_length in *. cbn [length] in *. lia. Qed.
Lemma Q_loop x R n : 0 < R < W -> 0 <= x < W -> forall fuel k next prev b1 b2, at_upper x R next b1 k -> at_lower x R prev b2 k -> (n <= 0 \/ Z.of_nat (length (filter IsPrime (rounds x R k))) < n) ->
  Q_result x R n (primesQ_loop fuel R n next prev b1 b2 (filter IsPrime (rounds x R k))).
Proof.
  intros HR Hx. induction fuel as [|fuel IH]; intros k next prev b1 b2 H1 H2 HN; [exact I|]. cbn [primesQ_loop]. destruct (negb (b1 || b2)) eqn:EB.
  - destruct b1, b2; try discriminate. exists k. split; [exact H1|]. split; [exact H2|exact HN].
  - destruct (upper_step x R next b1 k HR Hx H1) as [U1 U2]. destruct (lower_step x R prev b2 k HR Hx H2) as [L1 L2]. cbv zeta in *.
    set (t1 := b1 && negb (b1 && (wsub 18446744073709551615 R <? next))) in *. set (t2 := b2 && negb (b2 && (prev <? R))) in *. set (next' := if t1 then wadd next R else next) in *. set (prev' := if t2 then wsub prev R else prev) in *.
    assert (FR : filter IsPrime (rounds x R (S k)) = filter IsPrime (rounds x R k) ++ (if t1 && IsPrime next' then [next'] else []) ++ (if t2 && IsPrime prev' then [prev'] else [])). { cbn [rounds]. rewrite !filter_app, U2, L2, !found_filter. reflexivity. }
    rewrite !app_if. clearbody t1 t2 next' prev'. set (f1 := t1 && IsPrime next') in *. set (f2 := t2 && IsPrime prev') in *.
    destruct (f1 && (Z.of_nat (length (filter IsPrime (rounds x R k) ++ (if f1 then [next'] else []))) =? n)) eqn:E1.
    + apply andb_true_iff in E1. destruct E1 as [E1 E2]. apply Z.eqb_eq in E2. exists (S k). rewrite FR, app_assoc. split; [symmetry; apply firstn_app_full; lia|]. split; [exact E2|]. rewrite E1, app_length in E2. cbn [length] in E2. lia.
    + pose proof (not_full _ _ _ _ HN E1) as HN2. destruct (f2 && (Z.of_nat (length ((filter IsPrime (rounds x R k) ++ (if f1 then [next'] else [])) ++ (if f2 then [prev'] else []))) =? n)) eqn:E3.
      * apply andb_true_iff in E3. destruct E3 as [E3 E4]. apply Z.eqb_eq in E4. exists (S k). rewrite FR, app_assoc. split; [symmetry; apply firstn_all2; lia|]. split; [exact E4|]. rewrite E3, app_length in E4. cbn [length] in E4. lia.
      * pose proof (not_full _ _ _ _ HN2 E3) as HN3. rewrite <- app_assoc in *. rewrite <- FR in *. apply IH; assumption.
Qed.
