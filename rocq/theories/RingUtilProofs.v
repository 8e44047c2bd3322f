(** Proofs about the bit reversal of rows and the rotation of evaluations. *)
From Verif Require Import Word Arith PolySpec PolyProofs ModRed ModRedProofs Ring RingOps RingProofs RNSSpec RowProofs OpsProofs OpsProps Repr CI SamplerTop DegreeTop RingUtil.

(** ** The index *)
Lemma len_pow2 L : Len64 (Z.of_nat (2 ^ L)) - 1 = Z.of_nat L.
Proof. rewrite two_pow_nat. unfold Len64. pose proof (pow2_pos L). destruct (Z.eqb_spec (2 ^ Z.of_nat L) 0); [lia|]. rewrite Z.log2_pow2 by lia. lia. Qed.
Lemma brev_brvn r L j : rN r = (2 ^ L)%nat -> (L <= 60)%nat -> (j < 2 ^ L)%nat -> brev_index r j = brvn L j.
Proof.
  intros HN HL Hj. unfold brev_index, brvn. rewrite HN, len_pow2. f_equal. apply BitReverse64_rev_bits; [lia|]. rewrite <- two_pow_nat. lia.
Qed.
Lemma bitrev_brvn L i : bitrev L i = brvn L i.
Proof. apply Nat2Z.inj. rewrite bitrev_rev_bits, brvn_Z. reflexivity. Qed.

(** ** The loop that copies *)
Lemma copy_loop (f : nat -> nat) (src : list Z) : forall n dst,
  let out := fold_left (fun acc j => upd acc (f j) (nth j src 0)) (seq 0 n) dst in
  (forall i j, (i < n)%nat -> (j < n)%nat -> f i = f j -> i = j) -> (forall j, (j < n)%nat -> (f j < length dst)%nat) ->
  length out = length dst /\ (forall j, (j < n)%nat -> nth (f j) out 0 = nth j src 0) /\
  (forall k, (forall j, (j < n)%nat -> f j <> k) -> nth k out 0 = nth k dst 0).
Proof.
  induction n as [|n IH]; intros dst out HI HF; [cbn; repeat split; intros; lia|].
  unfold out. rewrite seq_S, fold_left_app. cbn [Nat.add fold_left].
  destruct (IH dst) as (A & B & C); [intros; apply HI; lia|intros; apply HF; lia|].
  split; [rewrite upd_length; exact A|]. split.
  - intros j Hj. destruct (Nat.eq_dec j n) as [->|Hne].
    + apply nth_upd_same. rewrite A. apply HF. lia.
    + rewrite nth_upd_diff; [apply B; lia|]. intros E. apply Hne. symmetry. apply HI; lia.
  - intros k Hk. rewrite nth_upd_diff by (apply Hk; lia). apply C. intros j Hj. apply Hk. lia.
Qed.

(** ** The loop that exchanges *)
Lemma swap_loop L (row : list Z) : (2 ^ L <= length row)%nat -> forall n, (n <= 2 ^ L)%nat ->
  let out := fold_left (fun acc i => let j := brvn L i in if Nat.ltb i j then upd (upd acc i (nth j acc 0)) j (nth i acc 0) else acc) (seq 0 n) row in
  length out = length row /\
  forall k, nth k out 0 = if Nat.ltb k (2 ^ L) then (if Nat.ltb (Nat.min k (brvn L k)) n then nth (brvn L k) row 0 else nth k row 0) else nth k row 0.
Proof.
  intros HR. induction n as [|n IH]; intros Hn out.
  - split; [reflexivity|]. intros k. unfold out. cbn [seq fold_left]. change (Nat.ltb (Nat.min k (brvn L k)) 0) with false. destruct (Nat.ltb k (2 ^ L)); reflexivity.
  - unfold out. rewrite seq_S, fold_left_app. cbn [Nat.add fold_left]. destruct (IH ltac:(lia)) as (A & B). clear IH out.
    set (acc := fold_left _ (seq 0 n) row) in *. clearbody acc. cbv zeta.
    pose proof (brvn_lt L n) as Hb. pose proof (brvn_invol L n ltac:(lia)) as Hi. set (j := brvn L n) in *.
    assert (Bn : forall k, (k < 2 ^ L)%nat -> (Nat.min k (brvn L k) < n)%nat -> nth k acc 0 = nth (brvn L k) row 0).
    { intros k Hk Hm. rewrite B. rewrite (proj2 (Nat.ltb_lt _ _) Hk), (proj2 (Nat.ltb_lt _ _) Hm). reflexivity. }
    assert (Bo : forall k, (k < 2 ^ L)%nat -> (n <= Nat.min k (brvn L k))%nat -> nth k acc 0 = nth k row 0).
    { intros k Hk Hm. rewrite B. rewrite (proj2 (Nat.ltb_lt _ _) Hk), (proj2 (Nat.ltb_ge _ _) Hm). reflexivity. }
    assert (Bg : forall k, (2 ^ L <= k)%nat -> nth k acc 0 = nth k row 0).
    { intros k Hk. rewrite B. rewrite (proj2 (Nat.ltb_ge _ _) Hk). reflexivity. }
    clear B.
    destruct (Nat.ltb_spec n j) as [Hlt|Hge].
    + split; [rewrite !upd_length; exact A|]. intros k.
      destruct (Nat.ltb_spec k (2 ^ L)) as [Hk|Hk].
      2:{ rewrite !nth_upd_diff by lia. apply Bg. exact Hk. }
      destruct (Nat.eq_dec j k) as [E|E1].
      { subst k. rewrite nth_upd_same by (rewrite upd_length; lia). rewrite Hi. destruct (Nat.ltb_spec (Nat.min j n) (S n)); [|lia]. apply Bo; [lia|]. fold j. lia. }
      rewrite nth_upd_diff by exact E1.
      destruct (Nat.eq_dec n k) as [E|E2].
      { subst k. rewrite nth_upd_same by lia. fold j. destruct (Nat.ltb_spec (Nat.min n j) (S n)); [|lia]. apply Bo; [lia|]. rewrite Hi. lia. }
      rewrite nth_upd_diff by exact E2.
      assert (E3 : brvn L k <> n). { intros E. apply E1. unfold j. rewrite <- E. apply brvn_invol. exact Hk. }
      destruct (Nat.ltb_spec (Nat.min k (brvn L k)) (S n)); [apply Bn|apply Bo]; lia.
    + split; [exact A|]. intros k. destruct (Nat.ltb_spec k (2 ^ L)) as [Hk|Hk]; [|apply Bg; exact Hk].
      destruct (Nat.ltb_spec (Nat.min k (brvn L k)) (S n)) as [Hm|Hm]; [|apply Bo; lia].
      destruct (Nat.eq_dec (Nat.min k (brvn L k)) n) as [E|E]; [|apply Bn; lia].
      (* then k = n = brvn n *)
      assert (k = n /\ j = n) as [-> Ej].
      { destruct (Nat.le_gt_cases k (brvn L k)) as [Hc|Hc].
        - rewrite Nat.min_l in E by lia. subst k. fold j in Hc. split; lia.
        - rewrite Nat.min_r in E by lia. assert (j = k) by (unfold j; rewrite <- E; apply brvn_invol; exact Hk). lia. }
      fold j. rewrite Ej. apply Bo; [lia|]. fold j. lia.
Qed.

(** ** The whole rows *)
Definition tall (r : Ring) (p : rows) : Prop := forall i, (i < length (rmods r))%nat -> (rN r <= length (nth i p []))%nat.

Lemma fold_left_ext {A B} (f g : A -> B -> A) l : (forall a b, In b l -> f a b = g a b) -> forall a, fold_left f l a = fold_left g l a.
Proof. induction l as [|b l IH]; intros H a; [reflexivity|]. cbn. rewrite H by (left; reflexivity). apply IH. intros. apply H. right. assumption. Qed.

Lemma reverse_kept (r : Ring) p1 p2 : (length (rmods r) <= length p2)%nat ->
  length (BitReverse r p1 p2) = length p2 /\ forall i, (length (rmods r) <= i)%nat -> nth i (BitReverse r p1 p2) [] = nth i p2 [].
Proof. intros H. unfold BitReverse. split; [rewrite lvl_length; lia|]. intros i Hi. apply lvl_nth_ge. exact Hi. Qed.

Section Reverse.
  Variables (r : Ring) (L : nat).
  Hypothesis (HN : rN r = (2 ^ L)%nat) (HL : (L <= 60)%nat).

  Lemma reverse_row p1 p2 i : (i < length (rmods r))%nat -> (rN r <= length (nth i p2 []))%nat ->
    length (nth i (BitReverse r p1 p2) []) = length (nth i p2 []) /\
    (forall j, (j < rN r)%nat -> coeff (BitReverse r p1 p2) i (bitrev L j) = coeff p1 i j) /\
    (forall k, (rN r <= k)%nat -> coeff (BitReverse r p1 p2) i k = coeff p2 i k).
  Proof.
    intros Hi Hl. unfold coeff. unfold BitReverse. rewrite lvl_nth_lt by exact Hi. unfold prow.
    rewrite (fold_left_ext _ (fun acc j => upd acc (brvn L j) (nth j (nth i p1 []) 0))).
    2:{ intros a b Hb. apply in_seq in Hb. rewrite (brev_brvn r L b HN HL) by lia. reflexivity. }
    destruct (copy_loop (brvn L) (nth i p1 []) (rN r) (nth i p2 [])) as (A & B & C).
    { rewrite HN. apply brvn_inj. }
    { intros j Hj. pose proof (brvn_lt L j). lia. }
    split; [exact A|]. split.
    - intros j Hj. rewrite bitrev_brvn. apply B. exact Hj.
    - intros k Hk. apply C. intros j Hj E. pose proof (brvn_lt L j). lia.
  Qed.
  Lemma reverse_at p1 p2 i k : (i < length (rmods r))%nat -> (rN r <= length (nth i p2 []))%nat -> (k < rN r)%nat ->
    coeff (BitReverse r p1 p2) i k = coeff p1 i (bitrev L k).
  Proof.
    intros Hi Hl Hk. destruct (reverse_row p1 p2 i Hi Hl) as (_ & B & _). rewrite HN in *.
    pose proof (brvn_lt L k) as Hb. rewrite bitrev_brvn. rewrite <- (B (brvn L k) Hb), bitrev_brvn, brvn_invol by exact Hk. reflexivity.
  Qed.

  Lemma in_place_row p i : (i < length (rmods r))%nat -> (rN r <= length (nth i p []))%nat ->
    nth i (BitReverseInPlace r p) [] = nth i (BitReverse r p p) [].
  Proof.
    intros Hi Hl. destruct (reverse_row p p i Hi Hl) as (A & _ & C).
    unfold BitReverseInPlace. rewrite lvl_nth_lt by exact Hi. unfold prow.
    rewrite (fold_left_ext _ (fun acc k => let j := brvn L k in if Nat.ltb k j then upd (upd acc k (nth j acc 0)) j (nth k acc 0) else acc)).
    2:{ intros a b Hb. apply in_seq in Hb. rewrite (brev_brvn r L b HN HL) by lia. reflexivity. }
    destruct (swap_loop L (nth i p []) ltac:(lia) (rN r) ltac:(lia)) as (A' & B').
    set (out := fold_left _ _ _) in *. clearbody out.
    apply (nth_ext _ _ 0 0); [congruence|]. intros k _. rewrite B'. rewrite HN in *.
    destruct (Nat.ltb_spec k (2 ^ L)) as [Hk|Hk].
    - destruct (Nat.ltb_spec (Nat.min k (brvn L k)) (2 ^ L)); [|lia].
      change (nth (brvn L k) (nth i p []) 0 = coeff (BitReverse r p p) i k).
      rewrite reverse_at by (rewrite ?HN; assumption). rewrite bitrev_brvn. reflexivity.
    - symmetry. apply C. exact Hk.
  Qed.
End Reverse.

(** ** Rotations *)
Lemma gen_modp_psi fuel R q m : gen_modp fuel R q = Some m ->
  exists g, primitiveRoot fuel q = Some g /\ mq m = q /\ mpsiMont m = MForm (ModExp g ((q - 1) / R) q) q (BRedParams q).
Proof.
  unfold gen_modp. destruct (primitiveRoot fuel q) as [g|]; [|discriminate]. intros H. apply some_inj' in H. rewrite <- H. exists g. repeat split; reflexivity.
Qed.
Lemma psi_range q g e : prime q -> 5 <= q -> 2 * q <= W -> 3 <= g < q -> 0 <= e -> 0 <= MForm (ModExp g e q) q (BRedParams q) < q.
Proof. intros Hp H5 H2 Hg He. rewrite MForm_ModExp; [apply Z.mod_pos_bound; lia|lia|exact H2|lia|exact He]. Qed.
Lemma modp_mont c r i : 2 <= c -> built_ring c r -> (i < length (rmods r))%nat ->
  0 <= mpsiMont (rmod r i) < mq (rmod r i) /\ eqm (mq (rmod r i)) (mpsiMont (rmod r i)) (psi_of (rmod r i) * W).
Proof.
  intros Hc Hr Hi. destruct (built_ring_wf c r Hc Hr) as (L & Hw & _). pose proof (wf_ring_mod _ _ _ i Hw Hi) as Hm.
  assert (HI : In (rmod r i) (rmods r)) by (apply nth_In; exact Hi).
  generalize dependent (rmod r i). intros m Hm HI.
  pose proof (wf_ge _ _ Hm) as H5. pose proof (wf_W _ _ Hm) as H2. pose proof (wf_inv _ _ Hm) as H3. pose proof (wf_prime _ _ Hm) as H4.
  assert (R : 0 <= mpsiMont m < mq m).
  { destruct Hr as (fuel & N & ms & E & _ & Hms). destruct (new_ring_modp fuel N ms r m E HI) as (q & Hq & _ & _ & EG).
    destruct (gen_modp_psi _ _ _ _ EG) as (g & Eg & E1 & E2). rewrite <- E1 in *. rewrite E2.
    pose proof (primitiveRoot_spec fuel _ g H4 H5 H2 Eg) as [Hg _].
    apply psi_range; try assumption. apply Z.div_pos; [lia|].
    assert (HN : 16 <= N). { clear - E. unfold NewRing, NewRingWithCustomNTT in E. destruct (Z.ltb_spec N 16) as [|H]; [discriminate|exact H]. } lia. }
  split; [exact R|]. symmetry. unfold psi_of. apply InvMForm_eqm; [lia|exact H2|exact H3|lia].
Qed.

Lemma rotate_row_spec N m n row psi : 5 <= mq m -> 2 * mq m <= W -> Z.odd (mq m) = true -> mbred m = BRedParams (mq m) -> mqinv m = MRedParams (mq m) ->
  eqm W (mq m * mqinv m) 1 ->
  0 <= mpsiMont m < mq m -> eqm (mq m) (mpsiMont m) (psi * W) -> (N <= length row)%nat -> (forall k, (k < N)%nat -> 0 <= nth k row 0 < W) ->
  let out := rotate_row N m n row in let e := Z.max 0 n in
  length out = length row /\ nth 0 out 0 = nth 0 row 0 /\ (forall k, (N <= k)%nat -> nth k out 0 = nth k row 0) /\
  forall j, (0 < j < N)%nat -> 0 <= nth j out 0 < mq m /\ eqm (mq m) (nth j out 0) (nth j row 0 * psi ^ (2 * e * Z.of_nat j)).
Proof.
  intros Hq HW Ho Eb Ei Hinv HR HE HL Hrow out e.
  assert (Hmf : MForm 1 (mq m) (mbred m) = W mod mq m). { rewrite Eb, MForm_correct by lia. rewrite Z.mul_1_l. reflexivity. }
  destruct (mred_word (mq m) (mqinv m) Hq HW Ho Hinv (mpsiMont m) (mpsiMont m) (mq m) (mq m) (psi * W) (psi * W) (psi * psi * W)) as (R1 & R2); try assumption; [nia|apply eqm_eq; ring|].
  set (root := ModexpMontgomery (MRed (mpsiMont m) (mpsiMont m) (mq m) (mqinv m)) n (mq m) (mqinv m) (mbred m)).
  assert (Hroot : 0 <= root < mq m /\ eqm (mq m) root ((psi * psi) ^ e * W)).
  { unfold root. assert (Er : ModexpMontgomery (MRed (mpsiMont m) (mpsiMont m) (mq m) (mqinv m)) n (mq m) (mqinv m) (mbred m) = ((psi * psi) ^ e * W) mod mq m).
    { unfold e. destruct (Z.le_gt_cases 0 n) as [Hn|Hn].
      - rewrite Z.max_r by lia. rewrite Eb, Ei. apply ModexpMontgomery_correct; try assumption; try lia; rewrite <- Ei; assumption.
      - rewrite Z.max_l by lia. rewrite Z.pow_0_r, Z.mul_1_l. destruct n as [|n'|n']; try lia. cbn [ModexpMontgomery]. exact Hmf. }
    rewrite Er. split; [apply Z.mod_pos_bound; lia|apply eqm_mod]. }
  destruct Hroot as (Hr1 & Hr2).
  assert (G : forall n0, (n0 <= N - 1)%nat ->
    let st := fold_left (fun st j => let gal := MRed (fst st) root (mq m) (mqinv m) in (gal, upd (snd st) j (MRed (nth j (snd st) 0) gal (mq m) (mqinv m)))) (seq 1 n0) (MForm 1 (mq m) (mbred m), row) in
    0 <= fst st < mq m /\ eqm (mq m) (fst st) (psi ^ (2 * e * Z.of_nat n0) * W) /\ length (snd st) = length row /\
    (forall k, (k = 0 \/ n0 < k)%nat -> nth k (snd st) 0 = nth k row 0) /\
    forall j, (0 < j <= n0)%nat -> 0 <= nth j (snd st) 0 < mq m /\ eqm (mq m) (nth j (snd st) 0) (nth j row 0 * psi ^ (2 * e * Z.of_nat j))).
  { assert (He : 0 <= e) by (unfold e; lia). clearbody e root. induction n0 as [|n0 IH]; intros Hn st.
    - unfold st. cbn [seq fold_left fst snd]. rewrite Hmf. split; [apply Z.mod_pos_bound; lia|]. split; [rewrite Z.mul_0_r, Z.pow_0_r, Z.mul_1_l; apply eqm_mod|].
      split; [reflexivity|]. split; [reflexivity|]. intros; lia.
    - unfold st. rewrite seq_S, fold_left_app. cbn [fold_left]. destruct (IH ltac:(clear - Hn; lia)) as (A & B & C & D & E). clear IH st.
      set (st := fold_left _ (seq 1 n0) _) in *. clearbody st. destruct st as [gal cur]. cbn [fst snd] in *. cbv zeta. cbn [fst snd].
      replace (1 + n0)%nat with (S n0) by lia.
      assert (Ep : psi ^ (2 * e * Z.of_nat (S n0)) = psi ^ (2 * e * Z.of_nat n0) * (psi * psi) ^ e).
      { rewrite <- Z.pow_2_r, <- Z.pow_mul_r, <- Z.pow_add_r by lia. f_equal. lia. }
      destruct (mred_word (mq m) (mqinv m) Hq HW Ho Hinv gal root (mq m) (mq m) _ _ (psi ^ (2 * e * Z.of_nat (S n0)) * W) A Hr1 ltac:(nia) B Hr2) as (G1 & G2).
      { rewrite Ep. apply eqm_eq. ring. }
      split; [exact G1|]. split; [exact G2|]. split; [rewrite upd_length; exact C|]. split.
      + intros k Hk. rewrite nth_upd_diff by (clear - Hk; lia). apply D. clear - Hk. lia.
      + intros j Hj. destruct (Nat.eq_dec (S n0) j) as [<-|Hne].
        * rewrite nth_upd_same by (clear - C HL Hn; lia). rewrite D by (clear; lia).
          apply (mred_word (mq m) (mqinv m) Hq HW Ho Hinv _ _ W (mq m) (nth (S n0) row 0) (psi ^ (2 * e * Z.of_nat (S n0)) * W)); [apply Hrow; clear - Hn; lia|exact G1|clear; lia|reflexivity|exact G2|apply eqm_eq; ring].
        * rewrite nth_upd_diff by exact Hne. apply E. clear - Hj Hne. lia. }
  destruct (G (N - 1)%nat (Nat.le_refl _)) as (_ & _ & C & D & E). unfold out, rotate_row. fold root.
  split; [exact C|]. split; [apply D; lia|]. split.
  - intros k Hk. apply D. destruct (Nat.eq_dec k 0); lia.
  - intros j Hj. apply E. lia.
Qed.

(** ** The exponent *)
Lemma exponent_large N n : (64 <= N)%nat -> rotate_exponent N n = n.
Proof. intros H. unfold rotate_exponent. rewrite (proj2 (Nat.ltb_ge _ _) H). change (wint (0 - 1)) with (-1). apply Z.land_m1_r. Qed.
Lemma exponent_small N n : (N <= 62)%nat -> rotate_exponent N n = n mod 2 ^ Z.of_nat N.
Proof.
  intros H. unfold rotate_exponent. destruct (Nat.ltb_spec N 64); [|lia].
  assert (0 < 2 ^ Z.of_nat N <= 2 ^ 62) by (split; [apply Z.pow_pos_nonneg; lia|apply Z.pow_le_mono_r; lia]).
  assert (E : forall x, 0 <= x < 2 ^ 63 -> wint x = x). { intros x Hx. unfold wint. rewrite Z.mod_small by lia. lia. }
  rewrite (E (2 ^ Z.of_nat N)), E by lia. rewrite Z.sub_1_r, <- Z.ones_equiv. apply Z.land_ones. lia.
Qed.

(** ** Monomials *)
Lemma peval_pmono N q n x : (1 < N)%nat -> eqm q (x ^ Z.of_nat N) (-1) -> eqm q (peval N (pmono N n) x) (x ^ Z.of_nat n).
Proof.
  intros HN Hx. pose (d := fun k : nat => if Nat.eqb k 1 then 1 else 0).
  assert (E : peval N (pmono N n) x = peval N (pauto N n d) x).
  { apply bigsum_ext. intros k Hk. f_equal. unfold pauto. rewrite (bigsum_single N 1) by first [exact HN|intros j Hj Hne; unfold d; destruct (Nat.eqb_spec j 1); [contradiction|lia]].
    unfold d. cbn [Nat.eqb]. rewrite Nat.mul_1_r. lia. }
  rewrite E. etransitivity; [apply peval_pauto; [lia|exact Hx]|].
  unfold peval. rewrite (bigsum_single N 1) by first [exact HN|intros j Hj Hne; unfold d; destruct (Nat.eqb_spec j 1); [contradiction|lia]].
  unfold d. cbn [Nat.eqb]. change (Z.of_nat 1) with 1. rewrite Z.pow_1_r. apply eqm_eq. ring.
Qed.
