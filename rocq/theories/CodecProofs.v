(** Proofs about the serialization of polynomials. *)
From Verif Require Import Word Arith Ring NTT RingOps Float64 Codec CodecSpec.

(** ** Integers *)
Lemma be_bytes_length n v : length (be_bytes n v) = n.
Proof. induction n; cbn; congruence. Qed.
Lemma be_fold l : forall acc, fold_left (fun acc b => acc * 256 + b) l acc = acc * 256 ^ Z.of_nat (length l) + be_value l.
Proof.
  unfold be_value. induction l as [|b l IH]; intros acc; [cbn; lia|]. cbn [fold_left length]. rewrite IH, (IH (0 * 256 + b)).
  rewrite Nat2Z.inj_succ, Z.pow_succ_r by lia. ring.
Qed.
Lemma be_value_cons b l : be_value (b :: l) = b * 256 ^ Z.of_nat (length l) + be_value l.
Proof. unfold be_value at 1. cbn [fold_left]. rewrite be_fold. ring. Qed.
Lemma be_value_bytes n v : be_value (be_bytes n v) = v mod 256 ^ Z.of_nat n.
Proof.
  induction n as [|n IH]; [cbn; rewrite Z.mod_1_r; reflexivity|]. cbn [be_bytes]. rewrite be_value_cons, be_bytes_length, IH.
  rewrite Nat2Z.inj_succ, Z.pow_succ_r by lia. unfold byte.
  assert (0 < 256 ^ Z.of_nat n) by (apply Z.pow_pos_nonneg; lia).
  rewrite (Z.mul_comm 256 (256 ^ _)), Z.rem_mul_r by lia. ring.
Qed.
Lemma be_value_range l : Forall is_byte l -> 0 <= be_value l < 256 ^ Z.of_nat (length l).
Proof.
  induction l as [|b l IH]; intros H; [cbn; lia|]. inversion H as [|x y Hb Hl]; subst. specialize (IH Hl). rewrite be_value_cons. cbn [length].
  rewrite Nat2Z.inj_succ, Z.pow_succ_r by lia. destruct Hb as [B0 B1]. set (P := 256 ^ Z.of_nat (length l)) in *. clearbody P. nia.
Qed.
Lemma be_bytes_value l : Forall is_byte l -> be_bytes (length l) (be_value l) = l.
Proof.
  induction l as [|b l IH]; intros H; [reflexivity|]. inversion H as [|x y Hb Hl]; subst. cbn [length be_bytes].
  pose proof (be_value_range l Hl) as R. rewrite be_value_cons. set (P := 256 ^ Z.of_nat (length l)) in *.
  assert (PP : 0 < P) by (unfold P; apply Z.pow_pos_nonneg; lia). f_equal.
  - unfold byte. rewrite Z.div_add_l by lia. rewrite (Z.div_small (be_value l)) by lia. rewrite Z.add_0_r. apply Z.mod_small. exact Hb.
  - transitivity (be_bytes (length l) (be_value l)); [|exact (IH Hl)]. clear IH.
    assert (G : forall n v w, v mod 256 ^ Z.of_nat n = w mod 256 ^ Z.of_nat n -> be_bytes n v = be_bytes n w).
    { clear. induction n as [|n IH]; intros v w E; [reflexivity|]. cbn [be_bytes].
      assert (0 < 256 ^ Z.of_nat n) by (apply Z.pow_pos_nonneg; lia).
      rewrite Nat2Z.inj_succ, Z.pow_succ_r in E by lia. rewrite (Z.mul_comm 256), !Z.rem_mul_r in E by lia.
      assert (R : forall x, 0 <= x mod 256 ^ Z.of_nat n < 256 ^ Z.of_nat n) by (intros x; apply Z.mod_pos_bound; lia).
      pose proof (R v) as R1. pose proof (R w) as R2. set (P := 256 ^ Z.of_nat n) in *. unfold byte.
      pose proof (IH v w) as I. fold P in I. generalize dependent (v mod P). intros a. generalize dependent (w mod P). intros b.
      generalize ((v / P) mod 256) ((w / P) mod 256). intros c d. clearbody P. intros E R1 R2 I. assert (c = d) by nia. subst d. assert (a = b) by lia. subst b.
      f_equal. apply I. reflexivity. }
    apply G. fold P. rewrite Z.add_comm, Z.mod_add by lia. reflexivity.
Qed.
Lemma be_bytes_bytes n v : Forall is_byte (be_bytes n v).
Proof. induction n; cbn [be_bytes]; constructor; [unfold byte, is_byte; apply Z.mod_pos_bound; lia|assumption]. Qed.

(** ** Loops *)
Lemma loop_app {A I} (f : A -> I -> res A) l1 l2 a : loop f (l1 ++ l2) a = bind (loop f l1 a) (loop f l2).
Proof. revert a. induction l1 as [|i l1 IH]; intros a; [reflexivity|]. cbn [app loop]. destruct (f a i); cbn [bind]; [apply IH|reflexivity..]. Qed.
Lemma seq_last n : seq 0 (S n) = seq 0 n ++ [n].
Proof. rewrite seq_S. reflexivity. Qed.

(** ** Slices *)
Lemma skipn_add {A} a b (l : list A) : skipn a (skipn b l) = skipn (b + a) l.
Proof. revert l. induction b as [|b IH]; intros l; [reflexivity|]. destruct l as [|x l]; [rewrite !skipn_nil; reflexivity|]. cbn [skipn Nat.add]. apply IH. Qed.
Lemma firstn_add {A} a b (l : list A) : firstn (a + b) l = firstn a l ++ firstn b (skipn a l).
Proof. revert l. induction a as [|a IH]; intros l; [reflexivity|]. destruct l as [|x l]; [rewrite skipn_nil, !firstn_nil; reflexivity|]. cbn [firstn skipn Nat.add app]. f_equal. apply IH. Qed.
Lemma in_firstn {A} n (l : list A) x : In x (firstn n l) -> In x l.
Proof. intros H. rewrite <- (firstn_skipn n l). apply in_or_app. left. exact H. Qed.
Lemma in_skipn {A} n (l : list A) x : In x (skipn n l) -> In x l.
Proof. intros H. rewrite <- (firstn_skipn n l). apply in_or_app. right. exact H. Qed.
Definition splice (data : bytes) (pos : nat) (bs : bytes) : bytes := firstn pos data ++ bs ++ skipn (pos + length bs) data.
Lemma put_ok data pos bs : (pos + length bs <= length data)%nat -> put data pos bs = Ret (splice data pos bs).
Proof. intros H. unfold put. rewrite (proj2 (Nat.leb_le _ _) H). reflexivity. Qed.
Lemma splice_length data pos bs : (pos + length bs <= length data)%nat -> length (splice data pos bs) = length data.
Proof. intros H. unfold splice. rewrite !app_length, firstn_length, skipn_length. lia. Qed.
Lemma splice_nil data pos : splice data pos [] = data.
Proof. unfold splice. cbn [length app]. rewrite Nat.add_0_r. apply firstn_skipn. Qed.
Lemma splice_splice data pos a b : (pos + length a + length b <= length data)%nat ->
  splice (splice data pos a) (pos + length a) b = splice data pos (a ++ b).
Proof.
  intros H. unfold splice. rewrite app_length.
  assert (L : length (firstn pos data) = pos) by (rewrite firstn_length; lia).
  rewrite (app_assoc (firstn pos data) a). rewrite firstn_app. rewrite (firstn_all2 (firstn pos data ++ a)) by (rewrite app_length, L; lia).
  replace (pos + length a - length (firstn pos data ++ a))%nat with 0%nat by (rewrite app_length, L; lia). cbn [firstn]. rewrite app_nil_r.
  rewrite skipn_app. rewrite (skipn_all2 (firstn pos data ++ a)) by (rewrite app_length, L; lia).
  replace (pos + length a + length b - length (firstn pos data ++ a))%nat with (length b) by (rewrite app_length, L; lia).
  cbn [app]. rewrite skipn_add. rewrite <- !app_assoc. do 4 f_equal. lia.
Qed.
Lemma index_ok {A} (l : list A) i d : (i < length l)%nat -> index l i = Ret (nth i l d).
Proof. intros H. unfold index. destruct (nth_error l i) eqn:E; [erewrite nth_error_nth by exact E; reflexivity|]. apply nth_error_None in E. lia. Qed.
Lemma index_bad {A} (l : list A) i : (length l <= i)%nat -> index l i = Panic.
Proof. intros H. unfold index. rewrite (proj2 (nth_error_None l i)) by exact H. reflexivity. Qed.

(** ** Writing the coefficients *)
Lemma flat_length w l : length (flat_map (be_bytes w) l) = (length l * w)%nat.
Proof. induction l as [|x l IH]; [reflexivity|]. cbn [flat_map length]. rewrite app_length, be_bytes_length, IH. lia. Qed.
Lemma firstn_S_nth {A} (l : list A) n d : (n < length l)%nat -> firstn (S n) l = firstn n l ++ [nth n l d].
Proof.
  revert n. induction l as [|x l IH]; intros n H; [cbn in H; lia|]. destruct n; [reflexivity|]. cbn [firstn nth app]. f_equal. apply IH. cbn in H. lia.
Qed.
Lemma concat_length_const {A} (l : list (list A)) N : Forall (fun r => length r = N) l -> length (concat l) = (length l * N)%nat.
Proof. induction 1; [reflexivity|]. cbn. rewrite app_length. lia. Qed.

Lemma write_row w pointer row coeffs i data n : nth_error coeffs i = Some row -> (n <= length row)%nat -> (pointer + length row * w <= length data)%nat ->
  loop (fun data j => let* row := index coeffs i in let* c := index row j in put data (pointer + j * w) (be_bytes w c)) (seq 0 n) data =
  Ret (splice data pointer (flat_map (be_bytes w) (firstn n row))).
Proof.
  intros Hi. induction n as [|n IH]; intros Hn Hd; [cbn; rewrite splice_nil; reflexivity|].
  rewrite seq_last, loop_app, IH by lia. cbn [bind loop]. unfold index at 1. rewrite Hi. cbn [bind].
  rewrite (index_ok row n 0) by lia. cbn [bind].
  assert (E : (pointer + n * w = pointer + length (flat_map (be_bytes w) (firstn n row)))%nat) by (rewrite flat_length, firstn_length; f_equal; f_equal; lia).
  rewrite E. assert (B : (n * w + w <= length row * w)%nat) by nia. rewrite flat_length, firstn_length in E.
  rewrite put_ok; rewrite ?be_bytes_length, ?splice_length; rewrite ?flat_length, ?firstn_length; [|nia..].
  cbn [bind]. rewrite <- (firstn_length n row) at 1. rewrite <- (flat_length w (firstn n row)).
  rewrite splice_splice by (rewrite flat_length, be_bytes_length, firstn_length; nia).
  rewrite (firstn_S_nth row n 0) by lia. rewrite flat_map_app. cbn [flat_map]. rewrite app_nil_r. reflexivity.
Qed.

Lemma write_coeffs_ok w pointer N coeffs data n : Forall (fun r => length r = N) coeffs -> (n <= length coeffs)%nat ->
  (pointer + length coeffs * N * w <= length data)%nat ->
  write_coeffs w pointer N n coeffs data = Ret ((pointer + n * N * w)%nat, splice data pointer (flat_map (be_bytes w) (concat (firstn n coeffs)))).
Proof.
  intros HF. unfold write_coeffs. induction n as [|n IH]; intros Hn Hd; [cbn; rewrite splice_nil, Nat.add_0_r; reflexivity|].
  rewrite seq_last, loop_app, IH by lia. cbn [bind loop].
  destruct (nth_error coeffs n) as [row|] eqn:E; [|apply nth_error_None in E; lia].
  assert (LR : length row = N) by (exact (proj1 (Forall_forall _ _) HF row (nth_error_In _ _ E))).
  assert (FF : Forall (fun r => length r = N) (firstn n coeffs)) by (apply Forall_forall; intros r Hr; apply (proj1 (Forall_forall _ _) HF); exact (in_firstn _ _ _ Hr)).
  assert (LF : length (flat_map (be_bytes w) (concat (firstn n coeffs))) = (n * N * w)%nat).
  { rewrite flat_length, (concat_length_const _ N FF), firstn_length. f_equal. f_equal. lia. }
  assert (B : (n * N * w + N * w <= length coeffs * N * w)%nat) by nia.
  rewrite <- LR at 1. rewrite (write_row w _ row coeffs n _ (length row) E) by (rewrite ?splice_length; rewrite ?LF, ?LR; lia).
  cbn [bind]. rewrite firstn_all. rewrite ?LR. f_equal. f_equal; [lia|]. rewrite <- LF.
  rewrite splice_splice by (rewrite LF, flat_length, LR; lia).
  rewrite (firstn_S_nth coeffs n []) by lia. rewrite concat_app. cbn [concat]. rewrite app_nil_r, flat_map_app.
  rewrite (nth_error_nth _ _ [] E). reflexivity.
Qed.

(** ** Reading the coefficients *)
Definition coeff_at (w pointer : nat) (data : bytes) (m : nat) : Z := be_value (firstn w (skipn (pointer + m * w) data)).
Definition rows_at (w pointer N k : nat) (data : bytes) : rows := map (fun i => map (fun j => coeff_at w pointer data (i * N + j)) (seq 0 N)) (seq 0 k).

Lemma upd_mid {A} (a b : list A) x y : upd (a ++ x :: b) (length a) y = a ++ y :: b.
Proof. induction a; cbn; congruence. Qed.

Lemma decode_coeffs_ok w pointer N k coeffs data : (k <= length coeffs)%nat -> (pointer + k * N * w <= length data)%nat ->
  decode_coeffs w pointer (Z.of_nat N) k coeffs data = Ret ((pointer + k * N * w)%nat, rows_at w pointer N k data ++ skipn k coeffs).
Proof.
  unfold decode_coeffs, rows_at. induction k as [|k IH]; intros Hk Hd; [cbn; rewrite Nat.add_0_r; reflexivity|].
  rewrite seq_last, loop_app, IH by lia. cbn [bind loop].
  rewrite (proj2 (Z.ltb_ge (Z.of_nat N) 0)) by lia.
  set (done := map (fun i => map _ _) (seq 0 k)). assert (LD : length done = k) by (unfold done; rewrite map_length, seq_length; reflexivity).
  rewrite (proj2 (Nat.leb_gt _ _)) by (rewrite app_length, skipn_length, LD; lia).
  rewrite (proj2 (Z.ltb_ge _ _)) by nia. cbn [bind]. rewrite Nat2Z.id. f_equal. f_equal; [lia|].
  assert (SK : skipn k coeffs = nth k coeffs [] :: skipn (S k) coeffs).
  { clear - Hk. revert coeffs Hk. induction k as [|k IH]; intros [|c cs] H; cbn in H; try lia; [reflexivity|]. cbn [skipn nth]. apply IH. lia. }
  rewrite SK. assert (U : forall x b y, upd (done ++ x :: b) k y = done ++ y :: b) by (intros; rewrite <- LD at 1; apply upd_mid). rewrite U. rewrite map_app. cbn [map]. rewrite <- app_assoc. cbn [app]. f_equal. f_equal.
  apply map_ext. intros j. unfold coeff_at. do 3 f_equal. nia.
Qed.
Lemma decode_coeffs_bad w pointer N k coeffs data : (pointer <= length data)%nat ->
  (length coeffs < k \/ length data < pointer + k * N * w)%nat -> decode_coeffs w pointer (Z.of_nat N) k coeffs data = Panic.
Proof.
  intros Hp. induction k as [|k IH]; intros H; [exfalso; cbn in H; lia|].
  destruct (Nat.le_gt_cases k (length coeffs)) as [H1|H1].
  - destruct (Nat.le_gt_cases (pointer + k * N * w) (length data)) as [H2|H2].
    + pose proof (decode_coeffs_ok w pointer N k coeffs data H1 H2) as E. unfold decode_coeffs in *. rewrite seq_last, loop_app, E. cbn [bind loop].
      rewrite (proj2 (Z.ltb_ge (Z.of_nat N) 0)) by lia.
      destruct (Nat.leb_spec (length (rows_at w pointer N k data ++ skipn k coeffs)) k) as [H3|H3]; [reflexivity|].
      rewrite app_length, skipn_length in H3. unfold rows_at in H3. rewrite map_length, seq_length in H3.
      rewrite (proj2 (Z.ltb_lt _ _)) by nia. reflexivity.
    + unfold decode_coeffs in *. rewrite seq_last, loop_app, IH by (right; exact H2). reflexivity.
  - unfold decode_coeffs in *. rewrite seq_last, loop_app, IH by (left; exact H1). reflexivity.
Qed.

(** The words of a list of bytes, as an encoded list. *)
Lemma firstn_flat w l m tail : (m < length l)%nat -> firstn w (skipn (m * w) (flat_map (be_bytes w) l ++ tail)) = be_bytes w (nth m l 0).
Proof.
  revert m. induction l as [|x l IH]; intros m H; [cbn in H; lia|]. destruct m as [|m]; cbn [flat_map nth Nat.mul].
  - cbn [skipn]. rewrite <- app_assoc, firstn_app, be_bytes_length, Nat.sub_diag. cbn [firstn]. rewrite app_nil_r. apply firstn_all2. rewrite be_bytes_length. lia.
  - rewrite <- app_assoc, skipn_app, be_bytes_length, skipn_all2 by (rewrite be_bytes_length; lia). cbn [app].
    replace (w + m * w - w)%nat with (m * w)%nat by lia. apply IH. cbn in H. lia.
Qed.
Lemma nth_concat {A} (l : list (list A)) N i j d : Forall (fun r => length r = N) l -> (i < length l)%nat -> (j < N)%nat ->
  nth (i * N + j) (concat l) d = nth j (nth i l []) d.
Proof.
  revert i. induction l as [|r l IH]; intros i HF Hi Hj; [cbn in Hi; lia|]. inversion HF as [|x y Hr Hl]; subst. destruct i as [|i]; cbn [concat nth Nat.mul].
  - apply app_nth1. lia.
  - rewrite app_nth2 by lia. replace (length r + i * length r + j - length r)%nat with (i * length r + j)%nat by lia. apply IH; [exact Hl|cbn in Hi; lia|exact Hj].
Qed.
Lemma map_nth_seq {A} (l : list A) d : map (fun i => nth i l d) (seq 0 (length l)) = l.
Proof.
  apply (nth_ext _ _ d d); [rewrite map_length, seq_length; reflexivity|]. intros i Hi. rewrite map_length, seq_length in Hi.
  rewrite (nth_indep _ d (nth (length l) l d)) by (rewrite map_length, seq_length; exact Hi). rewrite (map_nth (fun i => nth i l d)), seq_nth by exact Hi. reflexivity.
Qed.
Lemma rows_at_flat w pre coeffs N tail : Forall (fun r => length r = N /\ Forall (fun x => 0 <= x < 256 ^ Z.of_nat w) r) coeffs ->
  rows_at w (length pre) N (length coeffs) (pre ++ flat_map (be_bytes w) (concat coeffs) ++ tail) = coeffs.
Proof.
  intros HF. assert (HL : Forall (fun r => length r = N) coeffs) by (eapply Forall_impl; [|exact HF]; intros r [H _]; exact H).
  unfold rows_at. transitivity (map (fun i => nth i coeffs []) (seq 0 (length coeffs))); [|apply map_nth_seq].
  apply map_ext_in. intros i Hi. apply in_seq in Hi. assert (Hi2 : (i < length coeffs)%nat) by lia. destruct (proj1 (Forall_forall _ _) HF (nth i coeffs []) (nth_In coeffs [] Hi2)) as [LR WR].
  transitivity (map (fun j => nth j (nth i coeffs []) 0) (seq 0 (length (nth i coeffs [])))); [|apply map_nth_seq]. rewrite LR.
  apply map_ext_in. intros j Hj. apply in_seq in Hj. unfold coeff_at.
  rewrite skipn_app, skipn_all2 by lia. cbn [app]. replace (length pre + (i * N + j) * w - length pre)%nat with ((i * N + j) * w)%nat by lia.
  assert (HI : (i * N + j < length (concat coeffs))%nat).
  { rewrite (concat_length_const _ N HL). assert (A1 : ((i + 1) * N <= length coeffs * N)%nat) by (apply Nat.mul_le_mono_r; lia). lia. }
  rewrite (firstn_flat w _ _ tail HI). rewrite be_value_bytes. rewrite (nth_concat coeffs N i j 0 HL) by lia.
  apply Z.mod_small. apply (proj1 (Forall_forall _ _) WR). apply nth_In. lia.
Qed.
Lemma flat_coeff_at w pointer data n : (pointer + n * w <= length data)%nat -> Forall is_byte data ->
  flat_map (be_bytes w) (map (coeff_at w pointer data) (seq 0 n)) = firstn (n * w) (skipn pointer data).
Proof.
  intros Hd HB. induction n as [|n IH]; [reflexivity|]. rewrite seq_last, map_app, flat_map_app, IH by lia. cbn [map flat_map]. rewrite app_nil_r.
  unfold coeff_at. set (c := firstn w (skipn (pointer + n * w) data)).
  assert (LC : length c = w) by (unfold c; rewrite firstn_length, skipn_length; nia).
  replace (be_bytes w (be_value c)) with c; [|rewrite <- LC; symmetry; apply be_bytes_value].
  - unfold c. rewrite <- skipn_add. replace (S n * w)%nat with (n * w + w)%nat by lia. rewrite firstn_add. reflexivity.
  - apply Forall_forall. intros x Hx. apply (proj1 (Forall_forall _ _) HB). unfold c in Hx. apply in_firstn, in_skipn in Hx. exact Hx.
Qed.
Lemma concat_rows_at w pointer N k data : concat (rows_at w pointer N k data) = map (coeff_at w pointer data) (seq 0 (k * N)).
Proof.
  unfold rows_at. induction k as [|k IH]; [reflexivity|]. rewrite seq_last, map_app, concat_app, IH. cbn [map concat]. rewrite app_nil_r.
  replace (S k * N)%nat with (k * N + N)%nat by lia. rewrite seq_app, map_app. f_equal. cbn [Nat.add].
  assert (G : forall n a, map (fun j => coeff_at w pointer data (a + j)) (seq 0 n) = map (coeff_at w pointer data) (seq a n)).
  { clear. intros n a. revert a. induction n as [|n IH]; intros a; [reflexivity|]. cbn [seq map]. f_equal; [f_equal; lia|].
    rewrite <- (IH (S a)). rewrite <- (seq_shift n 0), map_map. apply map_ext. intros j. f_equal. lia. }
  apply G.
Qed.

(** ** Polynomials *)
Lemma fits_rows w p : fits_poly w p -> exists N k, (k <= 62)%nat /\ N = (2 ^ k)%nat /\ length (nth 0 (pCoeffs p) []) = N /\
  (1 <= length (pCoeffs p) <= 255)%nat /\ Forall (fun r => length r = N /\ Forall (fun x => 0 <= x < 256 ^ Z.of_nat w) r) (pCoeffs p).
Proof.
  intros [H (k & Hk & HF)]. exists (2 ^ k)%nat, k. split; [exact Hk|]. split; [reflexivity|]. split; [|split; [exact H|exact HF]].
  apply (proj1 (Forall_forall _ _) HF). apply nth_In. lia.
Qed.
Lemma degree_ok p : (1 <= length (pCoeffs p))%nat -> Degree p = Ret (length (nth 0 (pCoeffs p) [])).
Proof. intros H. unfold Degree. rewrite (index_ok _ 0 []) by lia. reflexivity. Qed.
Lemma data_len_ok w p : (1 <= length (pCoeffs p))%nat -> data_len w true p = Ret (4 + length (pCoeffs p) * length (nth 0 (pCoeffs p) []) * w)%nat.
Proof. intros H. unfold data_len. rewrite (degree_ok p H). reflexivity. Qed.
Lemma poly_bytes_length w p : fits_poly w p -> length (poly_bytes w p) = (4 + length (pCoeffs p) * length (nth 0 (pCoeffs p) []) * w)%nat.
Proof.
  intros H. destruct (fits_rows w p H) as (N & k & _ & _ & LN & _ & HF). unfold poly_bytes. rewrite app_length, flat_length. cbn [length]. rewrite LN.
  rewrite (concat_length_const _ N); [lia|]. eapply Forall_impl; [|exact HF]. intros r [Hr _]. exact Hr.
Qed.
Lemma pow2_log k : Z.log2 (Z.of_nat (2 ^ k)) = Z.of_nat k.
Proof. rewrite Nat2Z.inj_pow. change (Z.of_nat 2) with 2. apply Z.log2_pow2. lia. Qed.
Lemma pow2_len k : (k <= 62)%nat -> byte (Len64 (Z.of_nat (2 ^ k)) - 1) = Z.of_nat k.
Proof.
  intros H. unfold Len64. assert (Z.of_nat (2 ^ k) <> 0) by (pose proof (Nat.pow_nonzero 2 k); lia).
  rewrite (proj2 (Z.eqb_neq _ _)) by assumption. rewrite pow2_log. unfold byte. rewrite Z.mod_small by lia. lia.
Qed.

(** Writing to any buffer: the two flags are or-ed with those of the buffer. *)
Lemma splice4 d0 d1 d2 d3 rest cs : splice (d0 :: d1 :: d2 :: d3 :: rest) 4 cs = [d0; d1; d2; d3] ++ cs ++ skipn (length cs) rest.
Proof. reflexivity. Qed.
Lemma write_to_ok w p d0 d1 d2 d3 rest : fits_poly w p -> (length (pCoeffs p) * length (nth 0 (pCoeffs p) []) * w <= length rest)%nat ->
  write_to w p (d0 :: d1 :: d2 :: d3 :: rest) =
  Ret (length (poly_bytes w p), [Z.log2 (Z.of_nat (length (nth 0 (pCoeffs p) []))); Z.of_nat (length (pCoeffs p)); (if pNTT p then 1 else d2); (if pMForm p then 1 else d3)] ++
    flat_map (be_bytes w) (concat (pCoeffs p)) ++ skipn (length (flat_map (be_bytes w) (concat (pCoeffs p)))) rest).
Proof.
  intros H Hd. destruct (fits_rows w p H) as (N & k & Hk & EN & LN & HR & HF). unfold write_to. rewrite (degree_ok p) by lia. cbn [bind].
  rewrite data_len_ok by lia. cbn [bind]. rewrite (proj2 (Nat.ltb_ge _ _)) by (cbn [length]; lia).
  rewrite put_ok by (cbn; lia). cbn [bind]. change (splice (d0 :: d1 :: d2 :: d3 :: rest) 0 [byte (Len64 (Z.of_nat (length (nth 0 (pCoeffs p) []))) - 1)]) with (byte (Len64 (Z.of_nat (length (nth 0 (pCoeffs p) []))) - 1) :: d1 :: d2 :: d3 :: rest).
  set (x0 := byte (Len64 _ - 1)). assert (E0 : x0 = Z.log2 (Z.of_nat (length (nth 0 (pCoeffs p) [])))) by (unfold x0; rewrite LN, EN, pow2_len, pow2_log by exact Hk; reflexivity).
  rewrite put_ok by (cbn; lia). cbn [bind]. unfold LenModuli. set (x1 := byte (Z.of_nat (length (pCoeffs p)))).
  assert (E1 : x1 = Z.of_nat (length (pCoeffs p))) by (unfold x1, byte; apply Z.mod_small; lia).
  change (splice (x0 :: d1 :: d2 :: d3 :: rest) 1 [x1]) with (x0 :: x1 :: d2 :: d3 :: rest).
  assert (P2 : (if pNTT p then put (x0 :: x1 :: d2 :: d3 :: rest) 2 [1] else Ret (x0 :: x1 :: d2 :: d3 :: rest)) = Ret (x0 :: x1 :: (if pNTT p then 1 else d2) :: d3 :: rest)) by (destruct (pNTT p); [rewrite put_ok by (cbn; lia)|]; reflexivity).
  rewrite P2. cbn [bind]. set (x2 := if pNTT p then 1 else d2).
  assert (P3 : (if pMForm p then put (x0 :: x1 :: x2 :: d3 :: rest) 3 [1] else Ret (x0 :: x1 :: x2 :: d3 :: rest)) = Ret (x0 :: x1 :: x2 :: (if pMForm p then 1 else d3) :: rest)) by (destruct (pMForm p); [rewrite put_ok by (cbn; lia)|]; reflexivity).
  rewrite P3. cbn [bind].
  assert (HL : Forall (fun r => length r = N) (pCoeffs p)) by (eapply Forall_impl; [|exact HF]; intros r [Hr _]; exact Hr).
  rewrite LN in *. rewrite (write_coeffs_ok w 4 N (pCoeffs p) _ (length (pCoeffs p)) HL) by (cbn [length]; lia). rewrite firstn_all, splice4, E0, E1. f_equal. f_equal.
  rewrite (poly_bytes_length w p H), LN. reflexivity.
Qed.

Lemma shl_int_small k : (k <= 62)%nat -> shl_int (Z.of_nat k) = Z.of_nat (2 ^ k).
Proof. intros H. unfold shl_int. rewrite (proj2 (Z.ltb_lt _ _)) by lia. rewrite Nat2Z.inj_pow. reflexivity. Qed.

(** Decoding onto any target. *)
Lemma decode_poly_ok w p tgt x2 x3 tail : fits_poly w p -> (pCoeffs tgt = [] \/ length (pCoeffs p) <= length (pCoeffs tgt))%nat ->
  decode_poly w tgt ([Z.log2 (Z.of_nat (length (nth 0 (pCoeffs p) []))); Z.of_nat (length (pCoeffs p)); x2; x3] ++ flat_map (be_bytes w) (concat (pCoeffs p)) ++ tail) =
  Ret (length (poly_bytes w p), mkPoly (pCoeffs p ++ skipn (length (pCoeffs p)) (pCoeffs tgt)) ((x2 =? 1) || pNTT tgt) ((x3 =? 1) || pMForm tgt)).
Proof.
  intros H Ht. destruct (fits_rows w p H) as (N & k & Hk & EN & LN & HR & HF). unfold decode_poly. cbn [app index nth_error bind].
  rewrite LN, EN, pow2_log, (shl_int_small k Hk), <- EN, Nat2Z.id.
  set (hdr := [Z.of_nat k; Z.of_nat (length (pCoeffs p)); x2; x3]).
  change (Z.of_nat k :: Z.of_nat (length (pCoeffs p)) :: x2 :: x3 :: flat_map (be_bytes w) (concat (pCoeffs p)) ++ tail) with (hdr ++ flat_map (be_bytes w) (concat (pCoeffs p)) ++ tail).
  set (cs0 := match pCoeffs tgt with [] => repeat [] (length (pCoeffs p)) | _ => _ end).
  assert (LC : (length (pCoeffs p) <= length cs0)%nat) by (unfold cs0; destruct (pCoeffs tgt); [rewrite repeat_length; lia|destruct Ht; [discriminate|assumption]]).
  assert (SC : skipn (length (pCoeffs p)) cs0 = skipn (length (pCoeffs p)) (pCoeffs tgt)).
  { unfold cs0. destruct (pCoeffs tgt); [|reflexivity]. rewrite skipn_nil. apply skipn_all2. rewrite repeat_length. lia. }
  rewrite (decode_coeffs_ok w 4 N (length (pCoeffs p)) cs0) by (try exact LC; rewrite !app_length, flat_length, (concat_length_const _ N) by (eapply Forall_impl; [|exact HF]; intros r [Hr _]; exact Hr); cbn [hdr length]; lia).
  cbn [bind]. rewrite SC. pose proof (rows_at_flat w hdr (pCoeffs p) N tail HF) as E. change (length hdr) with 4%nat in E. rewrite E.
  rewrite (poly_bytes_length w p H), LN. reflexivity.
Qed.

Lemma poly_bytes_flags w p : poly_bytes w p = [Z.log2 (Z.of_nat (length (nth 0 (pCoeffs p) []))); Z.of_nat (length (pCoeffs p)); flag (pNTT p); flag (pMForm p)] ++ flat_map (be_bytes w) (concat (pCoeffs p)).
Proof. reflexivity. Qed.
Lemma flag_1 b : (flag b =? 1) = b.
Proof. destruct b; reflexivity. Qed.

(** Decoding the format into a new polynomial. *)
Lemma decode_new w p tail : fits_poly w p -> decode_poly w newPoly (poly_bytes w p ++ tail) = Ret (length (poly_bytes w p), p).
Proof.
  intros H. rewrite poly_bytes_flags at 1. rewrite <- app_assoc. rewrite (decode_poly_ok w p newPoly _ _ tail H) by (left; reflexivity).
  cbn [newPoly pCoeffs pNTT pMForm]. rewrite skipn_nil, app_nil_r, !flag_1, !orb_false_r. destruct p; reflexivity.
Qed.
(** Writing to a buffer of zeros. *)
Lemma write_zeros w p n : fits_poly w p -> (length (poly_bytes w p) <= n)%nat ->
  write_to w p (repeat 0 n) = Ret (length (poly_bytes w p), poly_bytes w p ++ repeat 0 (n - length (poly_bytes w p))).
Proof.
  intros H Hn. pose proof (poly_bytes_length w p H) as LB. destruct n as [|[|[|[|n]]]]; try (exfalso; lia). cbn [repeat].
  rewrite (write_to_ok w p 0 0 0 0 (repeat 0 n) H) by (rewrite repeat_length; lia). f_equal. f_equal. rewrite poly_bytes_flags. rewrite <- app_assoc.
  unfold flag. f_equal. f_equal. rewrite poly_bytes_flags in *. rewrite app_length in LB, Hn |- *. cbn [length] in *.
  set (m := length (flat_map _ _)) in *. clearbody m.
  assert (G : forall a b, (a <= b)%nat -> skipn a (repeat 0 b) = repeat 0 (b - a)).
  { clear. induction a as [|a IH]; intros b Hb; [rewrite Nat.sub_0_r; reflexivity|]. destruct b; [lia|]. cbn [repeat skipn Nat.sub]. apply IH. lia. }
  rewrite G by lia. f_equal. 
Qed.

Lemma marshal_ok p : fits_poly 8 p -> MarshalBinary p = Ret (poly_bytes 8 p).
Proof.
  intros H. assert (HR : (1 <= length (pCoeffs p))%nat) by (destruct H; lia). unfold MarshalBinary. rewrite (data_len_ok 8 p HR). cbn [bind].
  rewrite <- (poly_bytes_length 8 p H). unfold WriteTo. rewrite (write_zeros 8 p _ H (Nat.le_refl _)). cbn [bind].
  rewrite Nat.sub_diag. cbn [repeat]. rewrite app_nil_r. reflexivity.
Qed.

Lemma int_wrap_small x : 0 <= x < 2 ^ 63 -> int_wrap x = x.
Proof. intros H. unfold int_wrap. rewrite Z.mod_small by (unfold W; lia). rewrite (proj2 (Z.ltb_lt _ _)) by lia. reflexivity. Qed.
Lemma int_wrap_case a b : 0 <= a -> 0 <= b < 2 ^ 63 -> a = b -> a = int_wrap b.
Proof. intros. rewrite int_wrap_small by lia. assumption. Qed.

(** UnmarshalBinary of a format followed by at most 7 bytes, onto any target. *)
Lemma unmarshal_ok p tgt x2 x3 tail : fits_poly 8 p -> (pCoeffs tgt = [] \/ length (pCoeffs p) <= length (pCoeffs tgt))%nat -> (length tail < 8)%nat ->
  Z.of_nat (length (pCoeffs p)) * Z.of_nat (length (nth 0 (pCoeffs p) [])) < 2 ^ 63 ->
  UnmarshalBinary tgt ([Z.log2 (Z.of_nat (length (nth 0 (pCoeffs p) []))); Z.of_nat (length (pCoeffs p)); x2; x3] ++ flat_map (be_bytes 8) (concat (pCoeffs p)) ++ tail) =
  Ret (mkPoly (pCoeffs p ++ skipn (length (pCoeffs p)) (pCoeffs tgt)) ((x2 =? 1) || pNTT tgt) ((x3 =? 1) || pMForm tgt)).
Proof.
  intros H Ht Htail Hsize. pose proof (decode_poly_ok 8 p tgt x2 x3 tail H Ht) as D.
  destruct (fits_rows 8 p H) as (N & k & Hk & EN & LN & HR & HF).
  assert (HL : Forall (fun r => length r = N) (pCoeffs p)) by (eapply Forall_impl; [|exact HF]; intros r [Hr _]; exact Hr).
  unfold UnmarshalBinary. rewrite LN in *. assert (EL : Z.log2 (Z.of_nat N) = Z.of_nat k) by (rewrite EN; apply pow2_log). rewrite EL in *.
  set (body := flat_map (be_bytes 8) (concat (pCoeffs p))) in *.
  assert (LB : length body = (length (pCoeffs p) * N * 8)%nat) by (unfold body; rewrite flat_length, (concat_length_const _ N HL); reflexivity).
  clearbody body. cbn [app index nth_error bind] in *. rewrite (shl_int_small k Hk), <- EN.
  assert (E : (Z.of_nat (length (Z.of_nat k :: Z.of_nat (length (pCoeffs p)) :: x2 :: x3 :: body ++ tail) - 4) / 8 =? int_wrap (Z.of_nat N * Z.of_nat (length (pCoeffs p)))) = true).
  { apply Z.eqb_eq. cbn [length]. rewrite app_length, LB. generalize dependent (length (pCoeffs p)). intros m. intros. clear - Hsize Htail.
    apply int_wrap_case; [|lia|].
    - apply Z.div_pos; lia.
    - symmetry. apply (Z.div_unique _ 8 _ (Z.of_nat (length tail))); lia. }
  rewrite E. cbn [negb]. unfold DecodePolyNew. rewrite D. reflexivity.
Qed.
