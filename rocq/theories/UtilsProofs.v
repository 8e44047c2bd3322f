(** Proofs about Utils.v, and about bit reversal. *)
From Verif Require Import Word Arith Ring RingProofs NTTProofs Codec CodecProofs CodecTop Params ParamsSpec ParamsProofs Utils.

(** ** Bit reversal *)
Lemma rev_bits_testbit n : forall x i, 0 <= x -> 0 <= i < Z.of_nat n -> Z.testbit (rev_bits n x) i = Z.testbit x (Z.of_nat n - 1 - i).
Proof.
  induction n as [|n IH]; intros x i Hx Hi; [lia|]. cbn [rev_bits]. pose proof (rev_bits_range n (x / 2)) as R.
  assert (B : 0 <= x mod 2 < 2) by (apply Z.mod_pos_bound; lia).
  assert (E : x mod 2 * 2 ^ Z.of_nat n + rev_bits n (x / 2) = Z.lor (Z.shiftl (x mod 2) (Z.of_nat n)) (rev_bits n (x / 2))).
  { rewrite <- Z.shiftl_mul_pow2 by lia. apply Z.add_nocarry_lxor || idtac. rewrite <- Z.lxor_lor.
    - apply Z.add_nocarry_lxor. apply Z.bits_inj'. intros j Hj. rewrite Z.land_spec, Z.bits_0, Z.shiftl_spec by lia. destruct (Z.lt_ge_cases j (Z.of_nat n)) as [L|L].
      + rewrite Z.testbit_neg_r by lia. reflexivity.
      + rewrite andb_comm. assert (T : Z.testbit (rev_bits n (x / 2)) j = false) by (destruct (Z.eq_dec (rev_bits n (x / 2)) 0) as [->|]; [apply Z.bits_0|]; apply Z.bits_above_log2; [lia|]; apply Z.log2_lt_pow2; [lia|]; apply Z.lt_le_trans with (2 ^ Z.of_nat n); [lia|apply Z.pow_le_mono_r; lia]). rewrite T. reflexivity.
    - apply Z.bits_inj'. intros j Hj. rewrite Z.land_spec, Z.bits_0, Z.shiftl_spec by lia. destruct (Z.lt_ge_cases j (Z.of_nat n)) as [L|L].
      + rewrite Z.testbit_neg_r by lia. reflexivity.
      + rewrite andb_comm. assert (T : Z.testbit (rev_bits n (x / 2)) j = false) by (destruct (Z.eq_dec (rev_bits n (x / 2)) 0) as [->|]; [apply Z.bits_0|]; apply Z.bits_above_log2; [lia|]; apply Z.log2_lt_pow2; [lia|]; apply Z.lt_le_trans with (2 ^ Z.of_nat n); [lia|apply Z.pow_le_mono_r; lia]). rewrite T. reflexivity. }
  rewrite E, Z.lor_spec, Z.shiftl_spec by lia. destruct (Z.eq_dec i (Z.of_nat n)) as [->|N].
  - rewrite Z.sub_diag. assert (T : Z.testbit (rev_bits n (x / 2)) (Z.of_nat n) = false) by (destruct (Z.eq_dec (rev_bits n (x / 2)) 0) as [->|]; [apply Z.bits_0|]; apply Z.bits_above_log2; [lia|]; apply Z.log2_lt_pow2; lia).
    rewrite T, orb_false_r. replace (Z.of_nat (S n) - 1 - Z.of_nat n) with 0 by lia. rewrite !Z.bit0_odd. rewrite Zmod_odd. destruct (Z.odd x); reflexivity.
  - rewrite (Z.testbit_neg_r _ (i - _)) by lia. cbn [orb]. rewrite IH by (try apply Z.div_pos; lia). replace (x / 2) with (Z.shiftr x 1) by (rewrite Z.shiftr_div_pow2 by lia; reflexivity).
    rewrite Z.shiftr_spec by lia. f_equal. lia.
Qed.
Lemma bit_reverse_testbit x L i : 0 <= x < W -> 0 <= L <= 64 -> 0 <= i -> Z.testbit (BitReverse64 x L) i = (i <? L) && Z.testbit x (L - 1 - i).
Proof.
  intros Hx HL Hi. unfold BitReverse64, wshr, Reverse64. rewrite <- Z.shiftr_div_pow2 by lia. rewrite Z.shiftr_spec by lia. destruct (Z.ltb_spec i L) as [H|H].
  - rewrite rev_bits_testbit by lia. cbn [andb]. f_equal. lia.
  - cbn [andb]. pose proof (rev_bits_range 64 x) as R. destruct (Z.eq_dec (rev_bits 64 x) 0) as [->|]; [apply Z.bits_0|]. apply Z.bits_above_log2; [lia|]. apply Z.log2_lt_pow2; [lia|].
    apply Z.lt_le_trans with (2 ^ Z.of_nat 64); [lia|apply Z.pow_le_mono_r; lia].
Qed.
Lemma bit_reverse_invol x L : 0 <= L <= 64 -> 0 <= x < 2 ^ L -> 0 <= BitReverse64 x L < 2 ^ L /\ BitReverse64 (BitReverse64 x L) L = x.
Proof.
  intros HL Hx. pose proof (rev_bits_range (Z.to_nat L) x) as R. pose proof (rev_bits_invol (Z.to_nat L) x) as I. rewrite Z2Nat.id in R, I by lia.
  pose proof (BitReverse64_rev_bits (Z.to_nat L) x ltac:(lia)) as E. pose proof (BitReverse64_rev_bits (Z.to_nat L) (rev_bits (Z.to_nat L) x) ltac:(lia)) as E2. rewrite Z2Nat.id in E, E2 by lia.
  rewrite E, E2 by assumption. split; [exact R|]. apply I. exact Hx.
Qed.

(** ** Slices *)
Lemma is_in_slice_gen x s : forall v, fold_left (fun v y => v || (y =? x)) s v = true <-> v = true \/ In x s.
Proof.
  induction s as [|y s IH]; intros v; cbn [fold_left In]; [tauto|]. rewrite IH, orb_true_iff, Z.eqb_eq. tauto.
Qed.
Lemma is_in_slice x s : IsInSlice x s = true <-> In x s.
Proof. unfold IsInSlice. rewrite is_in_slice_gen. split; [intros [H|H]; [discriminate H|exact H]|tauto]. Qed.
Lemma min_spec a b : Min a b = Z.min a b.
Proof. unfold Min. destruct (Z.leb_spec a b); lia. Qed.
Lemma max_spec a b : Max a b = Z.max a b.
Proof. unfold Max. destruct (Z.leb_spec b a); lia. Qed.
Lemma max_slice_gen s : forall m, (forall y, In y s -> y <= fold_left Max s m) /\ m <= fold_left Max s m /\ (fold_left Max s m = m \/ In (fold_left Max s m) s).
Proof.
  induction s as [|x s IH]; intros m; cbn [fold_left In].
  - split; [intros y []|]. split; [lia|left; reflexivity].
  - destruct (IH (Max m x)) as (A & B & C). pose proof (max_spec m x) as M. split; [intros y [<-|H]; [lia|exact (A y H)]|]. split; [lia|].
    destruct C as [C|C]; [|right; right; exact C]. rewrite C. rewrite max_spec. destruct (Z.max_spec m x) as [[_ ->]|[_ ->]]; [right; left; reflexivity|left; reflexivity].
Qed.
Lemma max_slice s : Forall (Z.le 0) s -> s <> [] -> In (MaxSlice s) s /\ forall y, In y s -> y <= MaxSlice s.
Proof.
  intros H N. destruct (max_slice_gen s 0) as (A & B & C). split; [|exact A]. destruct C as [C|C]; [|exact C].
  destruct s as [|x s]; [contradiction|]. unfold MaxSlice. rewrite C. left. pose proof (A x (or_introl eq_refl)) as X. rewrite C in X. pose proof (Forall_inv H). cbn beta in *. lia.
Qed.

(** ** Rotations *)
Lemma rotate_spec {A} (s : list A) k d : length (RotateSlice s k) = length s /\
  forall i, (i < length s)%nat -> nth i (RotateSlice s k) d = nth (Z.to_nat ((Z.of_nat i + k) mod Z.of_nat (length s))) s d.
Proof.
  unfold RotateSlice. destruct (Nat.eqb_spec (length s) 0) as [L0|L0].
  { rewrite orb_true_r. split; [reflexivity|]. intros i Hi. lia. }
  rewrite orb_false_r. destruct (Z.eqb_spec k 0) as [->|K0].
  { split; [reflexivity|]. intros i Hi. rewrite Z.add_0_r, Z.mod_small by lia. rewrite Nat2Z.id. reflexivity. }
  set (n := Z.of_nat (length s)). assert (Hn : 0 < n) by (unfold n; lia).
  assert (E : (if Z.rem k n <? 0 then Z.rem k n + n else Z.rem k n) = k mod n).
  { clearbody n. clear - Hn. pose proof (Z.rem_bound_abs k n ltac:(lia)) as R. pose proof (Z.quot_rem' k n) as Q. destruct (Z.ltb_spec (Z.rem k n) 0) as [H|H]; generalize dependent (Z.rem k n); intros r R Q H.
    - apply (Z.mod_unique_pos _ _ (Z.quot k n - 1)); [lia|]. rewrite Q at 1. ring.
    - apply (Z.mod_unique_pos _ _ (Z.quot k n)); [lia|]. exact Q. }
  rewrite E. pose proof (Z.mod_pos_bound k n Hn) as B. clear E. set (r := Z.to_nat (k mod n)). assert (Hr : (r < length s)%nat) by (unfold r, n in *; lia).
  split; [rewrite app_length, skipn_length, firstn_length; lia|]. intros i Hi.
  assert (M : (Z.of_nat i + k) mod n = (Z.of_nat i + Z.of_nat r) mod n) by (unfold r; rewrite Z2Nat.id by lia; rewrite Zplus_mod_idemp_r; reflexivity). rewrite M. clear M B.
  destruct (Nat.lt_ge_cases i (length s - r)) as [H|H].
  - rewrite app_nth1 by (rewrite skipn_length; lia). rewrite nth_skipn. rewrite Z.mod_small by (unfold n; lia). f_equal. lia.
  - rewrite app_nth2 by (rewrite skipn_length; lia). rewrite skipn_length. rewrite nth_firstn by lia.
    f_equal.
    assert (Q : (Z.of_nat i + Z.of_nat r) mod n = Z.of_nat i + Z.of_nat r - n) by (symmetry; apply (Z.mod_unique_pos _ _ 1); unfold n; lia). rewrite Q. unfold n. lia.
Qed.
Lemma list_ext {A} (a b : list A) d : length a = length b -> (forall i, (i < length a)%nat -> nth i a d = nth i b d) -> a = b.
Proof. intros L H. apply (nth_ext a b d d L H). Qed.
Lemma rotate_compose {A} (s : list A) j k : RotateSlice (RotateSlice s j) k = RotateSlice s (j + k).
Proof.
  destruct s as [|d s']; [unfold RotateSlice; cbn [length Nat.eqb]; rewrite !orb_true_r; cbn [length Nat.eqb]; rewrite ?orb_true_r; reflexivity|]. set (s := d :: s').
  destruct (rotate_spec s j d) as [Lj Nj]. destruct (rotate_spec s (j + k) d) as [Ljk Njk]. destruct (rotate_spec (RotateSlice s j) k d) as [Lk Nk].
  assert (Hn : 0 < Z.of_nat (length s)) by (unfold s; cbn [length]; lia).
  apply (list_ext _ _ d); [congruence|]. intros i Hi. rewrite Lk, Lj in Hi. rewrite Nk by (rewrite Lj; exact Hi). rewrite Njk by exact Hi. rewrite Lj.
  pose proof (Z.mod_pos_bound (Z.of_nat i + k) (Z.of_nat (length s)) Hn). rewrite Nj by lia. rewrite Z2Nat.id by lia. f_equal. f_equal. rewrite Zplus_mod_idemp_l. f_equal. lia.
Qed.
Lemma rotate_zero {A} (s : list A) : RotateSlice s 0 = s.
Proof. reflexivity. Qed.
Lemma rotate_period {A} (s : list A) : RotateSlice s (Z.of_nat (length s)) = s.
Proof.
  destruct s as [|d s']; [reflexivity|]. set (s := d :: s'). destruct (rotate_spec s (Z.of_nat (length s)) d) as [L N]. apply (list_ext _ _ d); [exact L|].
  intros i Hi. rewrite L in Hi. rewrite N by exact Hi. rewrite <- (Z.mul_1_l (Z.of_nat (length s))) at 1. rewrite Z.mod_add by lia. rewrite Z.mod_small by lia. rewrite Nat2Z.id. reflexivity.
Qed.
Lemma rotate_slots {A} (a b : list A) k : length a = length b -> RotateSlots (a ++ b) k = RotateSlice a k ++ RotateSlice b k.
Proof.
  intros H. unfold RotateSlots. assert (E : (length (a ++ b) / 2)%nat = length a) by (rewrite app_length, <- H; replace (length a + length a)%nat with (length a * 2)%nat by lia; apply Nat.div_mul; lia). rewrite E.
  rewrite firstn_exact, skipn_exact. reflexivity.
Qed.

(** ** Hamming weight.  The steps act on each byte. *)
Definition popcount (n : nat) (x : Z) : Z := fold_right (fun i acc => (if Z.testbit x (Z.of_nat i) then 1 else 0) + acc) 0 (seq 0 n).
Definition h1 (m x : Z) : Z := x - Z.land (x / 2) m.
Definition h2 (m x : Z) : Z := Z.land x m + Z.land (x / 4) m.
Definition h3 (m x : Z) : Z := Z.land (x + x / 16) m.
Fixpoint rep (n : nat) (b : Z) : Z := match n with O => 0 | S n => b + 256 * rep n b end.
Fixpoint from_bytes (l : list Z) : Z := match l with [] => 0 | b :: l => b + 256 * from_bytes l end.
Definition is_b (b : Z) : Prop := 0 <= b < 256.
Lemma land_split lo hi m0 m : is_b lo -> is_b m0 -> Z.land (lo + 256 * hi) (m0 + 256 * m) = Z.land lo m0 + 256 * Z.land hi m.
Proof.
  intros Hl Hm. rewrite (Z.div_mod (Z.land (lo + 256 * hi) (m0 + 256 * m)) (2 ^ 8)) by lia. rewrite <- Z.land_ones, <- Z.shiftr_div_pow2, Z.shiftr_land by lia.
  rewrite !Z.shiftr_div_pow2 by lia. change (2 ^ 8) with 256.
  assert (D : forall a b, is_b a -> (a + 256 * b) / 256 = b) by (clear; intros a b [A1 A2]; lia). rewrite !D by assumption.
  assert (M : forall a b, is_b a -> Z.land (a + 256 * b) (Z.ones 8) = a) by (clear; intros a b [A1 A2]; rewrite Z.land_ones by lia; change (2 ^ 8) with 256; lia).
  assert (E : Z.land (Z.land (lo + 256 * hi) (m0 + 256 * m)) (Z.ones 8) = Z.land lo m0).
  { rewrite <- (Z.land_diag (Z.ones 8)). rewrite <- Z.land_assoc, (Z.land_assoc (m0 + 256 * m)), (Z.land_comm _ (Z.ones 8)), Z.land_assoc. rewrite !M by assumption. reflexivity. }
  rewrite E. ring.
Qed.
Lemma land_high a b m k : 0 <= k -> 0 <= a < 2 ^ k -> 0 <= m < 2 ^ k -> Z.land (a + 2 ^ k * b) m = Z.land a m.
Proof.
  intros Hk Ha Hm. apply Z.bits_inj'. intros i Hi. rewrite !Z.land_spec. destruct (Z.lt_ge_cases i k) as [H|H].
  - f_equal. rewrite <- (Z.mod_pow2_bits_low (a + 2 ^ k * b) k i H). rewrite Z.mul_comm, Z.mod_add by lia. rewrite Z.mod_small by exact Ha. reflexivity.
  - assert (T : Z.testbit m i = false) by (destruct (Z.eq_dec m 0) as [->|]; [apply Z.bits_0|]; apply Z.bits_above_log2; [lia|]; apply Z.log2_lt_pow2; [lia|]; apply Z.lt_le_trans with (2 ^ k); [lia|apply Z.pow_le_mono_r; lia]).
    rewrite T, !andb_false_r. reflexivity.
Qed.
Lemma land_range a m k : 0 <= k -> 0 <= m < 2 ^ k -> 0 <= Z.land a m < 2 ^ k.
Proof.
  intros Hk Hm. split; [apply Z.land_nonneg; right; lia|]. assert (E : Z.land a m = Z.land a m mod 2 ^ k).
  { apply Z.bits_inj'. intros i Hi. destruct (Z.lt_ge_cases i k) as [H|H]; [rewrite Z.mod_pow2_bits_low by exact H; reflexivity|]. rewrite Z.mod_pow2_bits_high by lia. rewrite Z.land_spec.
    assert (T : Z.testbit m i = false) by (destruct (Z.eq_dec m 0) as [->|]; [apply Z.bits_0|]; apply Z.bits_above_log2; [lia|]; apply Z.log2_lt_pow2; [lia|]; apply Z.lt_le_trans with (2 ^ k); [lia|apply Z.pow_le_mono_r; lia]).
    rewrite T. apply andb_false_r. }
  rewrite E. apply Z.mod_pos_bound. lia.
Qed.
Lemma land_bytes s m lo hi M : 0 <= s <= 8 -> is_b lo -> 0 <= m < 2 ^ (8 - s) -> Z.land ((lo + 256 * hi) / 2 ^ s) (m + 256 * M) = Z.land (lo / 2 ^ s) m + 256 * Z.land (hi / 2 ^ s) M.
Proof.
  intros Hs Hl Hm. assert (P : 2 ^ 8 = 2 ^ s * 2 ^ (8 - s)) by (rewrite <- Z.pow_add_r by lia; f_equal; lia). change (2 ^ 8) with 256 in P.
  assert (P1 : 0 < 2 ^ s) by lia. assert (P2 : 0 < 2 ^ (8 - s)) by lia. set (d := 2 ^ s) in *. set (e := 2 ^ (8 - s)) in *.
  assert (E : (lo + 256 * hi) / d = (lo / d + e * (hi mod d)) + 256 * (hi / d)).
  { rewrite P. replace (lo + d * e * hi) with (lo + (e * hi) * d) by ring. rewrite Z.div_add by lia. rewrite (Z.div_mod hi d) at 1 by lia. ring. }
  assert (L : 0 <= lo / d < e).
  { destruct Hl as [L1 L2]. split; [apply Z.div_pos; lia|]. apply Z.div_lt_upper_bound; [lia|]. rewrite P in L2. exact L2. }
  assert (HM : 0 <= hi mod d < d) by (apply Z.mod_pos_bound; exact P1).
  rewrite E. rewrite land_split.
  - f_equal. unfold e. apply land_high; [lia|exact L|exact Hm].
  - split; [nia|]. rewrite P. nia.
  - split; [lia|]. rewrite P. nia.
Qed.

Definition b1 (x : Z) : Z := x - Z.land (x / 2) 0x55.
Definition b2 (x : Z) : Z := Z.land x 0x33 + Z.land (x / 4) 0x33.
Definition b3 (x : Z) : Z := Z.land (x + x / 16) 0x0f.
Definition byte_ok (x : Z) : bool :=
  (0 <=? b1 x) && (b1 x <? 256) && (0 <=? b2 (b1 x)) && (b2 (b1 x) <=? 0x44) && (b3 (b2 (b1 x)) =? popcount 8 x).
Lemma bytes_all : forallb byte_ok (map Z.of_nat (seq 0 256)) = true.
Proof. vm_compute. reflexivity. Qed.
Lemma byte_all x : is_b x -> is_b (b1 x) /\ 0 <= b2 (b1 x) <= 0x44 /\ b3 (b2 (b1 x)) = popcount 8 x.
Proof.
  intros H. pose proof bytes_all as A. rewrite forallb_forall in A. specialize (A x). assert (I : In x (map Z.of_nat (seq 0 256))) by (apply in_map_iff; exists (Z.to_nat x); split; [apply Z2Nat.id; apply H|apply in_seq; unfold is_b in H; lia]).
  specialize (A I). unfold byte_ok in A. rewrite !andb_true_iff, !Z.leb_le, !Z.ltb_lt, Z.eqb_eq in A. unfold is_b. tauto.
Qed.
Lemma step1 l : Forall is_b l -> h1 (rep (length l) 0x55) (from_bytes l) = from_bytes (map b1 l).
Proof.
  unfold h1. induction 1 as [|x l Hx _ IH]; [reflexivity|]. cbn [length rep from_bytes map]. pose proof (land_bytes 1 0x55 x (from_bytes l) (rep (length l) 0x55) ltac:(lia) Hx ltac:(lia)) as E.
  change (2 ^ 1) with 2 in E. rewrite E. rewrite <- IH. unfold b1. ring.
Qed.
Lemma step2 l : Forall is_b l -> h2 (rep (length l) 0x33) (from_bytes l) = from_bytes (map b2 l).
Proof.
  unfold h2. induction 1 as [|x l Hx _ IH]; [reflexivity|]. cbn [length rep from_bytes map]. pose proof (land_bytes 2 0x33 x (from_bytes l) (rep (length l) 0x33) ltac:(lia) Hx ltac:(lia)) as E.
  change (2 ^ 2) with 4 in E. rewrite E. rewrite land_split by (try exact Hx; unfold is_b; lia). rewrite <- IH. unfold b2. ring.
Qed.
Lemma step3 l : Forall (fun x => 0 <= x <= 0x44 /\ Z.land x 15 <= 4) l -> h3 (rep (length l) 0x0f) (from_bytes l) = from_bytes (map b3 l).
Proof.
  unfold h3. induction 1 as [|x l [Hx _] Hl IH]; [reflexivity|]. cbn [length rep from_bytes map].
  assert (HM : 0 <= from_bytes l mod 16 <= 4).
  { destruct Hl as [|y l [Hy Hy4] _]; [cbn; lia|]. cbn [from_bytes]. replace (y + 256 * from_bytes l) with (y + 16 * from_bytes l * 16) by ring. rewrite Z.mod_add by lia.
    change 15 with (Z.ones 4) in Hy4. rewrite (Z.land_ones y 4) in Hy4 by lia. change (2 ^ 4) with 16 in Hy4. split; [apply Z.mod_pos_bound; lia|exact Hy4]. }
  assert (E : x + 256 * from_bytes l + (x + 256 * from_bytes l) / 16 = (x + x / 16 + 16 * (from_bytes l mod 16)) + 256 * (from_bytes l + from_bytes l / 16)).
  { clear. generalize (from_bytes l). intros F. lia. }
  assert (X16 : 0 <= x / 16 <= 4) by (clear - Hx; lia).
  rewrite E. rewrite land_split.
  - rewrite <- IH. unfold b3. f_equal. set (r := from_bytes l mod 16) in *. set (y := x + x / 16). change 15 with (Z.ones 4). rewrite (Z.land_ones _ 4), (Z.land_ones y 4) by lia. change (2 ^ 4) with 16.
    replace (y + 16 * r) with (y + r * 16) by ring. apply Z.mod_add. lia.
  - unfold is_b. lia.
  - unfold is_b. lia.
Qed.
Lemma popcount_shift n k x : fold_right (fun i acc => (if Z.testbit x (Z.of_nat i) then 1 else 0) + acc) 0 (seq k n) = popcount n (Z.shiftr x (Z.of_nat k)).
Proof.
  unfold popcount. revert k. assert (G : forall m j k, fold_right (fun i acc => (if Z.testbit x (Z.of_nat i) then 1 else 0) + acc) 0 (seq (j + k) m) = fold_right (fun i acc => (if Z.testbit (Z.shiftr x (Z.of_nat k)) (Z.of_nat i) then 1 else 0) + acc) 0 (seq j m)).
  { induction m as [|m IH]; intros j k; [reflexivity|]. cbn [seq fold_right]. rewrite Z.shiftr_spec by lia. rewrite <- (IH (S j) k). replace (Z.of_nat (j + k)) with (Z.of_nat j + Z.of_nat k) by lia. reflexivity. }
  intros k. apply (G n 0%nat k).
Qed.
Lemma popcount_app n lo hi : is_b lo -> popcount (8 + n) (lo + 256 * hi) = popcount 8 lo + popcount n hi.
Proof.
  intros H. unfold popcount at 1. rewrite seq_app, fold_right_app. rewrite popcount_shift.
  assert (S : Z.shiftr (lo + 256 * hi) (Z.of_nat (0 + 8)) = hi) by (rewrite Z.shiftr_div_pow2 by lia; change (2 ^ Z.of_nat (0 + 8)) with 256; unfold is_b in H; lia). rewrite S. generalize (popcount n hi). intros c.
  assert (F : forall l, (forall i, In i l -> (i < 8)%nat) -> fold_right (fun i acc => (if Z.testbit (lo + 256 * hi) (Z.of_nat i) then 1 else 0) + acc) c l = fold_right (fun i acc => (if Z.testbit lo (Z.of_nat i) then 1 else 0) + acc) 0 l + c).
  { induction l as [|i l IH]; intros Hl; [reflexivity|]. cbn [fold_right]. rewrite IH by (intros; apply Hl; right; assumption).
    assert (T : Z.testbit (lo + 256 * hi) (Z.of_nat i) = Z.testbit lo (Z.of_nat i)).
    { pose proof (Hl i (or_introl eq_refl)). rewrite <- (Z.mod_pow2_bits_low (lo + 256 * hi) 8) by lia. rewrite Z.mul_comm. change (2 ^ 8) with 256. rewrite Z.mod_add by lia. rewrite Z.mod_small by exact H. reflexivity. }
    rewrite T. ring. }
  apply F. intros i Hi. apply in_seq in Hi. lia.
Qed.
Lemma popcount_bytes l : Forall is_b l -> popcount (8 * length l) (from_bytes l) = fold_right Z.add 0 (map (popcount 8) l).
Proof.
  induction 1 as [|x l Hx _ IH]; [reflexivity|]. cbn [length map fold_right from_bytes]. rewrite Nat.mul_succ_r, Nat.add_comm. rewrite popcount_app by exact Hx. rewrite IH. reflexivity.
Qed.
Lemma bytes_of x n : 0 <= x < 256 ^ Z.of_nat n -> exists l, length l = n /\ Forall is_b l /\ from_bytes l = x.
Proof.
  revert x. induction n as [|n IH]; intros x Hx; [exists []; cbn in *; repeat split; [constructor|lia]|].
  rewrite Nat2Z.inj_succ, Z.pow_succ_r in Hx by lia. destruct (IH (x / 256)) as (l & L & F & E).
  - split; [apply Z.div_pos; lia|]. apply Z.div_lt_upper_bound; lia.
  - exists (x mod 256 :: l). cbn [length from_bytes]. split; [congruence|]. split; [constructor; [apply Z.mod_pos_bound; lia|exact F]|]. rewrite E. symmetry. rewrite Z.add_comm. apply Z.div_mod. lia.
Qed.
Lemma popcount8_range x : 0 <= popcount 8 x <= 8.
Proof. unfold popcount. cbn [seq fold_right]. repeat match goal with |- context [if ?c then _ else _] => destruct c end; lia. Qed.
Lemma top_byte a0 a1 a2 a3 a4 a5 a6 a7 : 0 <= a0 <= 8 -> 0 <= a1 <= 8 -> 0 <= a2 <= 8 -> 0 <= a3 <= 8 -> 0 <= a4 <= 8 -> 0 <= a5 <= 8 -> 0 <= a6 <= 8 -> 0 <= a7 <= 8 ->
  (from_bytes [a0; a1; a2; a3; a4; a5; a6; a7] * 0x0101010101010101) mod W / 2 ^ 56 = a0 + a1 + a2 + a3 + a4 + a5 + a6 + a7.
Proof.
  intros. set (s := a0 + a1 + a2 + a3 + a4 + a5 + a6 + a7).
  set (low := a0 + 256 * (a0 + a1) + 65536 * (a0 + a1 + a2) + 16777216 * (a0 + a1 + a2 + a3) + 4294967296 * (a0 + a1 + a2 + a3 + a4) + 1099511627776 * (a0 + a1 + a2 + a3 + a4 + a5) + 281474976710656 * (a0 + a1 + a2 + a3 + a4 + a5 + a6)).
  set (high := (a1 + a2 + a3 + a4 + a5 + a6 + a7) + 256 * (a2 + a3 + a4 + a5 + a6 + a7) + 65536 * (a3 + a4 + a5 + a6 + a7) + 16777216 * (a4 + a5 + a6 + a7) + 4294967296 * (a5 + a6 + a7) + 1099511627776 * (a6 + a7) + 281474976710656 * a7).
  assert (E : from_bytes [a0; a1; a2; a3; a4; a5; a6; a7] * 0x0101010101010101 = (low + s * 2 ^ 56) + high * W) by (unfold low, high, s, W; cbn [from_bytes]; change (2 ^ 56) with 72057594037927936; ring).
  rewrite E. assert (L : 0 <= low < 2 ^ 56) by (unfold low; change (2 ^ 56) with 72057594037927936; lia). assert (S : 0 <= s <= 64) by (unfold s; lia).
  clearbody low high s. rewrite Z.mod_add by (unfold W; lia). rewrite Z.mod_small by (change W with (256 * 2 ^ 56); change (2 ^ 56) with 72057594037927936 in *; lia).
  rewrite Z.div_add by lia. rewrite Z.div_small by exact L. reflexivity.
Qed.
Lemma b2_low x : is_b x -> Z.land (b2 (b1 x)) 15 <= 4.
Proof.
  intros H. assert (A : forallb (fun x => Z.land (b2 (b1 x)) 15 <=? 4) (map Z.of_nat (seq 0 256)) = true) by (vm_compute; reflexivity).
  rewrite forallb_forall in A. apply Z.leb_le. apply A. apply in_map_iff. exists (Z.to_nat x). split; [apply Z2Nat.id; apply H|apply in_seq; unfold is_b in H; lia].
Qed.
Lemma hamming_weight x : 0 <= x < W -> HammingWeight64 x = popcount 64 x.
Proof.
  intros Hx. destruct (bytes_of x 8) as (l & L & F & E); [exact Hx|]. subst x.
  assert (M1 : 0x5555555555555555 = rep (length l) 0x55) by (rewrite L; reflexivity). assert (M2 : 0x3333333333333333 = rep (length l) 0x33) by (rewrite L; reflexivity). assert (M3 : 0x0f0f0f0f0f0f0f0f = rep (length l) 0x0f) by (rewrite L; reflexivity).
  assert (R : forall l', length l' = 8%nat -> Forall is_b l' -> 0 <= from_bytes l' < W).
  { clear. intros l L F. do 9 (destruct l as [|? l]; try discriminate L). repeat match goal with H : Forall _ (_ :: _) |- _ => inversion H; subst; clear H end. unfold is_b in *. cbn [from_bytes]. unfold W. lia. }
  unfold HammingWeight64, wsub, wadd, wmul, w64, wshr. rewrite M1, M2, M3. change (2 ^ 1) with 2. change (2 ^ 2) with 4. change (2 ^ 4) with 16.
  pose proof (step1 l F) as S1. unfold h1 in S1. rewrite S1. assert (F1 : Forall is_b (map b1 l)) by (apply Forall_map; eapply Forall_impl; [|exact F]; intros y Hy; apply (byte_all y Hy)).
  rewrite (Z.mod_small (from_bytes (map b1 l))) by (apply R; [rewrite map_length; exact L|exact F1]).
  pose proof (step2 (map b1 l) F1) as S2. unfold h2 in S2. rewrite map_length in S2. rewrite S2. rewrite map_map.
  assert (F2 : Forall is_b (map (fun x => b2 (b1 x)) l)) by (apply Forall_map; eapply Forall_impl; [|exact F]; intros y Hy; pose proof (byte_all y Hy); unfold is_b; lia).
  rewrite (Z.mod_small (from_bytes (map (fun x => b2 (b1 x)) l))) by (apply R; [rewrite map_length; exact L|exact F2]).
  assert (F3 : Forall (fun x => 0 <= x <= 0x44 /\ Z.land x 15 <= 4) (map (fun x => b2 (b1 x)) l)) by (apply Forall_map; eapply Forall_impl; [|exact F]; intros y Hy; split; [apply (byte_all y Hy)|apply b2_low; exact Hy]).
  pose proof (step3 _ F3) as S3. unfold h3 in S3. rewrite map_length in S3.
  assert (G : 0 <= from_bytes (map (fun x => b2 (b1 x)) l) + from_bytes (map (fun x => b2 (b1 x)) l) / 16 < W).
  { assert (Q : 0 <= from_bytes (map (fun x => b2 (b1 x)) l) <= from_bytes (repeat 0x44 8)).
    { clear - F3 L. assert (G : forall a, Forall (fun x => 0 <= x <= 0x44 /\ Z.land x 15 <= 4) a -> 0 <= from_bytes a <= from_bytes (repeat 0x44 (length a))) by (induction 1 as [|y a [Hy _] _ IH]; cbn [from_bytes length repeat]; lia).
      specialize (G _ F3). rewrite map_length, L in G. exact G. }
    change (from_bytes (repeat 0x44 8)) with 4919131752989213764 in Q. unfold W. set (v := from_bytes _) in *. clearbody v. pose proof (Z.div_pos v 16). pose proof (Z.div_le_upper_bound v 16 v). lia. }
  rewrite (Z.mod_small _ W G). rewrite S3. rewrite map_map.
  assert (PE : map (fun x => b3 (b2 (b1 x))) l = map (popcount 8) l) by (apply map_ext_in; intros y Hy; rewrite Forall_forall in F; apply (byte_all y (F y Hy))). rewrite PE.
  change 0xffffffffffffffff with (Z.ones 64). rewrite (Z.land_ones _ 64) by lia. change (2 ^ 64) with W. rewrite Z.mod_mod by (unfold W; lia).
  pose proof (popcount_bytes l F) as PB. rewrite L in PB. change (8 * 8)%nat with 64%nat in PB. rewrite PB.
  do 9 (destruct l as [|? l]; try discriminate L). cbn [map fold_right]. rewrite top_byte by apply popcount8_range. ring.
Qed.

Lemma popcount_filter x l : fold_right (fun i acc => (if Z.testbit x (Z.of_nat i) then 1 else 0) + acc) 0 l = Z.of_nat (length (filter (fun i => Z.testbit x (Z.of_nat i)) l)).
Proof. induction l as [|i l IH]; [reflexivity|]. cbn [fold_right filter]. rewrite IH. destruct (Z.testbit x (Z.of_nat i)); cbn [length]; lia. Qed.
Lemma hamming_bits x : 0 <= x < W -> HammingWeight64 x = Z.of_nat (length (filter (fun i => Z.testbit x (Z.of_nat i)) (seq 0 64))).
Proof. intros H. rewrite hamming_weight by exact H. apply popcount_filter. Qed.
Lemma rotate_laws {A} (s : list A) : (forall j k, RotateSlice (RotateSlice s j) k = RotateSlice s (j + k)) /\ RotateSlice s 0 = s /\ RotateSlice s (Z.of_nat (length s)) = s /\
  forall k, RotateSlice (RotateSlice s k) (- k) = s.
Proof. split; [apply rotate_compose|]. split; [reflexivity|]. split; [apply rotate_period|]. intros k. rewrite rotate_compose. rewrite Z.add_opp_diag_r. reflexivity. Qed.
Lemma equal_slice_panic a b : EqualSliceUint64 a b = Panic <-> prefix b a /\ a <> b.
Proof.
  unfold EqualSliceUint64. 
  assert (G : forall n k, (k + n = length a)%nat -> (k <= length b)%nat -> firstn k a = firstn k b ->
    (loop (fun (v : bool) i => if v then let* x := index a i in let* y := index b i in Ret (x =? y) else Ret false) (seq k n) true = Panic <-> prefix b a /\ a <> b)).
  { induction n as [|n IH]; intros k Hn Hk Hf; cbn [seq loop].
    - split; [discriminate|]. intros [(c & E) N]. exfalso. apply N. subst a. rewrite app_length in Hn. assert (c = []) by (destruct c; [reflexivity|cbn in Hn; lia]). subst c. apply app_nil_r.
    - destruct (nth_error a k) as [x|] eqn:Ex; [|apply nth_error_None in Ex; lia]. assert (Ia : index a k = Ret x) by (unfold index; rewrite Ex; reflexivity). rewrite Ia. cbn [bind].
      destruct (nth_error b k) as [y|] eqn:Ey; [assert (Ib : index b k = Ret y) by (unfold index; rewrite Ey; reflexivity)|assert (Ib : index b k = Panic) by (unfold index; rewrite Ey; reflexivity)]; rewrite Ib; cbn [bind].
      + destruct (Z.eqb_spec x y) as [->|Nxy].
        * apply IH; [lia|apply nth_error_Some; congruence|]. assert (SF : forall (l : list Z) k v, nth_error l k = Some v -> firstn (S k) l = firstn k l ++ [v]).
          { clear. induction l as [|z l IH]; intros [|k] v H; try discriminate H; [injection H as ->; reflexivity|]. cbn [nth_error] in H. cbn [firstn app]. f_equal. apply IH. exact H. }
          rewrite (SF a k y Ex), (SF b k y Ey), Hf. reflexivity.
        * rewrite equal_loop by exact true. split; [discriminate|]. intros [(c & E) _]. exfalso. apply Nxy. subst a. rewrite nth_error_app1 in Ex by (apply nth_error_Some; congruence). congruence.
      + split; [|reflexivity]. intros _. apply nth_error_None in Ey. assert (k = length b) by lia. subst k. rewrite (firstn_all b) in Hf. split.
        * exists (skipn (length b) a). rewrite <- Hf at 1. symmetry. apply firstn_skipn.
        * intros ->. assert (nth_error b (length b) <> None) by congruence. apply nth_error_Some in H. lia. }
  apply (G (length a) 0%nat); [reflexivity|lia|reflexivity].
Qed.
Lemma equal_slice_differs : exists a b, a <> b /\ EqualSliceUint64 a b = Ret true /\ EqualSliceUint64 b a = Panic.
Proof. exists [3], [3; 4]. split; [discriminate|split; reflexivity]. Qed.
