(** Switching keys, relinearization keys, sets of rotation keys, and ciphertexts with a scale. *)
From Flocq Require Import IEEE754.Binary IEEE754.Bits.
From Coq Require Import Permutation.
From Verif Require Import Word Arith Ring NTT RingOps Float64 Codec CodecSpec CodecProofs CodecTop.

Definition pair_bytes (v : PolyQP * PolyQP) : bytes := qp_bytes (fst v) ++ qp_bytes (snd v).
Lemma pair_len v : full_qp (fst v) -> full_qp (snd v) ->
  (let* l0 := qp_data_len true (fst v) in let* l1 := qp_data_len true (snd v) in Ret (l0 + l1)%nat) = Ret (length (pair_bytes v)).
Proof. intros H1 H2. rewrite !qp_len by (apply full_fits; assumption). cbn [bind]. unfold pair_bytes. rewrite app_length. reflexivity. Qed.
Lemma fits_pair k v : fits_swk k -> In v k -> full_qp (fst v) /\ full_qp (snd v).
Proof. intros [_ H] Hv. exact (proj1 (Forall_forall _ _) H v Hv). Qed.

Lemma swk_len k : fits_swk k -> swk_data_len true k = Ret (length (swk_bytes k)).
Proof.
  intros H. unfold swk_data_len. rewrite (sum_len_ok _ pair_bytes); [reflexivity|]. intros v Hv. destruct (fits_pair k v H Hv). apply pair_len; assumption.
Qed.
Lemma swk_encode_ok k pre n : fits_swk k -> (length (swk_bytes k) <= n)%nat ->
  swk_encode k (length pre) (pre ++ repeat 0 n) = Ret ((length pre + length (swk_bytes k))%nat, (pre ++ swk_bytes k) ++ repeat 0 (n - length (swk_bytes k))).
Proof.
  intros H Hn. unfold swk_encode, swk_bytes in *. cbn [length] in *. destruct n as [|n]; [lia|]. apply le_S_n in Hn. cbn [repeat].
  rewrite put_ok by (rewrite app_length; cbn [length]; rewrite repeat_length; lia). cbn [bind]. unfold splice.
  rewrite firstn_exact. cbn [length]. rewrite <- skipn_add, skipn_exact. cbn [skipn]. rewrite byte_small by (destruct H; lia).
  pose proof (write_list (fun v pointer data => let* l0 := qp_data_len true (fst v) in
      let* '(pointer, data) := write_in (qp_write_to (fst v)) l0 data pointer in
      let* l1 := qp_data_len true (snd v) in
      write_in (qp_write_to (snd v)) l1 data pointer) pair_bytes k) as A.
  specialize (fun B => A B (pre ++ [Z.of_nat (length k)]) n Hn). rewrite !app_length in A. cbn [length] in A. rewrite Nat.add_1_r in A.
  rewrite <- !app_assoc in A. cbn [app] in A. cbn [app].
  assert (B : forall (v : PolyQP * PolyQP) (pre : bytes) (m : nat), In v k -> (length (pair_bytes v) <= m)%nat ->
    (let* l0 := qp_data_len true (fst v) in
      let* '(pointer, data) := write_in (qp_write_to (fst v)) l0 (pre ++ repeat 0 m) (length pre) in
      let* l1 := qp_data_len true (snd v) in
      write_in (qp_write_to (snd v)) l1 data pointer) = Ret ((length pre + length (pair_bytes v))%nat, (pre ++ pair_bytes v) ++ repeat 0 (m - length (pair_bytes v)))).
  { clear - H. intros v pre m Hv Hm. destruct (fits_pair k v H Hv) as [F0 F1]. apply full_fits in F0, F1. unfold pair_bytes in *. rewrite app_length in *.
    rewrite !qp_len by assumption. cbn [bind]. rewrite (write_in_ok _ _ pre m (qp_writes _ F0)) by lia. cbn [bind]. rewrite <- app_length.
    rewrite (write_in_ok _ _ (pre ++ qp_bytes (fst v)) _ (qp_writes _ F1)) by lia. rewrite !app_length. rewrite <- !app_assoc. do 2 f_equal; [lia|]. do 4 f_equal. lia. }
  specialize (A B). etransitivity; [exact A|]. change (flat_map (fun v => qp_bytes (fst v) ++ qp_bytes (snd v)) k) with (flat_map pair_bytes k). f_equal. f_equal; [lia|]. cbn [Nat.sub]. rewrite <- app_assoc. reflexivity.
Qed.
Lemma swk_reads k : fits_swk k -> reads swk_decode (swk_bytes k) k.
Proof.
  intros H tail. unfold swk_decode, swk_bytes. cbn [app index nth_error bind]. rewrite Nat2Z.id.
  pose proof (read_list (fun data => let* '(pt, v0) := read_at (qp_decode (mkQP (Some newPoly) None)) data 0 in let* '(pt, v1) := read_at (qp_decode (mkQP None (Some newPoly))) data pt in Ret (pt, (v0, v1))) pair_bytes k [Z.of_nat (length k)] tail) as A.
  specialize (fun B => A B). cbn [app length] in A |- *.
  assert (B : forall x, In x k -> reads (fun data => let* '(pt, v0) := read_at (qp_decode (mkQP (Some newPoly) None)) data 0 in let* '(pt, v1) := read_at (qp_decode (mkQP None (Some newPoly))) data pt in Ret (pt, (v0, v1))) (pair_bytes x) x).
  { clear - H. intros [x0 x1] Hx t. destruct (fits_pair k _ H Hx) as [F0 F1]. cbn [fst snd] in F0, F1. unfold pair_bytes. cbn [fst snd]. rewrite <- app_assoc.
    pose proof (read_at_ok _ _ _ [] (qp_bytes x1 ++ t) (full_reads (mkQP (Some newPoly) None) x0 F0)) as R. cbn [app length Nat.add] in R. rewrite R. cbn [bind].
    rewrite (read_at_ok _ _ _ (qp_bytes x0) t (full_reads (mkQP None (Some newPoly)) x1 F1)). cbn [bind]. rewrite app_length. reflexivity. }
  specialize (A B). unfold decode_list in A. change (flat_map (fun v => qp_bytes (fst v) ++ qp_bytes (snd v)) k) with (flat_map pair_bytes k). etransitivity; [|exact A]. clear A B.
  set (data := Z.of_nat (length k) :: flat_map pair_bytes k ++ tail). clearbody data. generalize (seq 0 (length k)). generalize (1%nat, @nil (PolyQP * PolyQP)).
  intros st l. revert st. induction l as [|i l IH]; intros [pt acc]; [reflexivity|]. cbn [loop].
  unfold read_at, tail_from. destruct (Nat.leb_spec pt (length data)) as [Hp|Hp]; cbn [bind]; [|reflexivity]. cbn [Nat.leb bind skipn].
  destruct (qp_decode (mkQP (Some newPoly) None) (skipn pt data)) as [[i0 v0]| |]; cbn [bind]; [|reflexivity..].
  rewrite skipn_length, skipn_add. cbn [Nat.add].
  destruct (Nat.leb_spec (pt + i0) (length data)) as [H1|H1].
  - rewrite (proj2 (Nat.leb_le _ _)) by lia. cbn [bind]. destruct (qp_decode (mkQP None (Some newPoly)) (skipn (pt + i0) data)) as [[i1 v1]| |]; cbn [bind]; [|reflexivity..].
    rewrite <- Nat.add_assoc. apply IH.
  - rewrite (proj2 (Nat.leb_gt _ _)) by lia. reflexivity.
Qed.

Lemma swk_round_trip k tail : fits_swk k -> swk_marshal k = Ret (swk_bytes k) /\ swk_unmarshal (swk_bytes k ++ tail) = Ret k.
Proof.
  intros H. split.
  - unfold swk_marshal. rewrite (swk_len k H). cbn [bind]. pose proof (swk_encode_ok k [] _ H (Nat.le_refl _)) as A. cbn [app length Nat.add] in A. rewrite A. cbn [bind].
    rewrite Nat.sub_diag. cbn [repeat]. rewrite app_nil_r. reflexivity.
  - unfold swk_unmarshal. rewrite (swk_reads k H tail). reflexivity.
Qed.
Lemma rlk_round_trip ks tail : (length ks <= 255)%nat -> Forall fits_swk ks -> rlk_marshal ks = Ret (rlk_bytes ks) /\ rlk_unmarshal (rlk_bytes ks ++ tail) = Ret ks.
Proof.
  intros HL HF. assert (HI : forall k, In k ks -> fits_swk k) by (apply Forall_forall; exact HF). split.
  - unfold rlk_marshal. rewrite (sum_len_ok _ swk_bytes) by (intros k Hk; apply swk_len; apply HI; exact Hk). cbn [bind Nat.add repeat].
    unfold put. cbn [length Nat.add Nat.leb firstn app skipn bind]. rewrite byte_small by exact HL.
    pose proof (write_list (fun k pointer data => swk_encode k pointer data) swk_bytes ks) as A.
    specialize (A ltac:(intros k pre n Hk Hn; apply swk_encode_ok; [apply HI; exact Hk|exact Hn]) [Z.of_nat (length ks)] _ (Nat.le_refl _)).
    cbn [length app] in A. rewrite A. cbn [bind]. rewrite Nat.sub_diag. cbn [repeat]. rewrite app_nil_r. reflexivity.
  - unfold rlk_unmarshal, rlk_bytes. cbn [app index nth_error bind]. rewrite Nat2Z.id.
    pose proof (read_list swk_decode swk_bytes ks [Z.of_nat (length ks)] tail) as A.
    specialize (A ltac:(intros k Hk; apply swk_reads; apply HI; exact Hk)). cbn [app length] in A. rewrite A. reflexivity.
Qed.

(** ** Rotation keys *)
Definition entry_bytes (e : Z * swk) : bytes := be_bytes 4 (fst e) ++ swk_bytes (snd e).
Lemma rtk_marshal_ok ks : Forall (fun e => fits_swk (snd e)) ks -> rtk_marshal ks = Ret (rtk_bytes ks).
Proof.
  intros HF. assert (HI : forall e, In e ks -> fits_swk (snd e)) by (apply Forall_forall; exact HF). unfold rtk_marshal.
  rewrite (sum_len_ok _ entry_bytes) by (intros e He; rewrite (swk_len _ (HI e He)); cbn [bind]; unfold entry_bytes; rewrite app_length, be_bytes_length; reflexivity).
  cbn [bind].
  pose proof (write_list (fun e pointer data => let '(galEl, k) := e in let* data := put data pointer (be_bytes 4 galEl) in swk_encode k (pointer + 4) data) entry_bytes ks) as A.
  assert (B : forall (x : Z * swk) (pre : bytes) (n : nat), In x ks -> (length (entry_bytes x) <= n)%nat ->
    (let '(galEl, k) := x in let* data := put (pre ++ repeat 0 n) (length pre) (be_bytes 4 galEl) in swk_encode k (length pre + 4) data) =
    Ret ((length pre + length (entry_bytes x))%nat, (pre ++ entry_bytes x) ++ repeat 0 (n - length (entry_bytes x)))).
  { intros [g k] pre n Hx Hn. unfold entry_bytes in *. cbn [fst snd] in *. rewrite app_length, be_bytes_length in *.
    rewrite put_ok by (rewrite app_length, be_bytes_length, repeat_length; lia). cbn [bind]. unfold splice. rewrite be_bytes_length, firstn_exact, <- skipn_add, skipn_exact, skipn_repeat.
    rewrite app_assoc. replace (length pre + 4)%nat with (length (pre ++ be_bytes 4 g)) by (rewrite app_length, be_bytes_length; reflexivity).
    rewrite swk_encode_ok by (try exact (HI _ Hx); lia). rewrite !app_length, be_bytes_length, <- !app_assoc. do 2 f_equal; [lia|]. do 4 f_equal. lia. }
  specialize (A B [] _ (Nat.le_refl _)). cbn [length app Nat.add] in A.
  match goal with |- bind ?L _ = _ => match type of A with ?L' = _ => replace L with L' end end.
  - rewrite A. cbn [bind]. rewrite Nat.sub_diag. cbn [repeat]. rewrite app_nil_r. reflexivity.
  - clear. generalize (0%nat, repeat 0 (length (flat_map entry_bytes ks))). induction ks as [|[g k] ks IH]; intros [pt d]; [reflexivity|]. cbn [loop].
    destruct (put d pt (be_bytes 4 g)) as [d'| |]; cbn [bind]; [|reflexivity..]. destruct (swk_encode k (pt + 4) d') as [st| |]; cbn [bind]; [apply IH|reflexivity..].
Qed.
Lemma map_set_new m g k : ~ In g (map fst m) -> map_set m g k = m ++ [(g, k)].
Proof.
  induction m as [|[g' k'] m IH]; intros H; [reflexivity|]. cbn [map_set app map fst In] in *. rewrite (proj2 (Z.eqb_neq _ _)) by (intros E; apply H; left; symmetry; exact E).
  rewrite IH by (intros E; apply H; right; exact E). reflexivity.
Qed.
Lemma rtk_decode_ok ks : forall m fuel, Forall (fun e => 0 <= fst e < 2 ^ 32 /\ fits_swk (snd e)) ks -> NoDup (map fst (m ++ ks)) -> (length ks <= fuel)%nat ->
  rtk_decode fuel (rtk_bytes ks) m = Ret (m ++ ks).
Proof.
  induction ks as [|[g k] ks IH]; intros m fuel HF HN Hf; [rewrite app_nil_r; destruct fuel; reflexivity|].
  destruct fuel as [|fuel]; [cbn in Hf; lia|]. inversion HF as [|x y [Hg Hk] HF']; subst. cbn [fst snd] in Hg, Hk.
  assert (NG : ~ In g (map fst m)).
  { rewrite map_app in HN. cbn [map fst] in HN. apply NoDup_remove_2 in HN. intros E. apply HN. apply in_or_app. left. exact E. }
  unfold rtk_bytes. cbn [flat_map fst snd]. fold (rtk_bytes ks). rewrite <- app_assoc.
  assert (S4 : slice (be_bytes 4 g ++ swk_bytes k ++ rtk_bytes ks) 0 4 = Ret (be_bytes 4 g)).
  { unfold slice. rewrite (proj2 (Nat.leb_le _ _)) by (rewrite app_length, be_bytes_length; lia). cbn [skipn].
    replace 4%nat with (length (be_bytes 4 g)) at 1 by apply be_bytes_length. rewrite firstn_exact. reflexivity. }
  assert (T4 : tail_from (be_bytes 4 g ++ swk_bytes k ++ rtk_bytes ks) 4 = Ret (swk_bytes k ++ rtk_bytes ks)).
  { unfold tail_from. rewrite (proj2 (Nat.leb_le _ _)) by (rewrite app_length, be_bytes_length; lia).
    replace 4%nat with (length (be_bytes 4 g)) at 1 by apply be_bytes_length. rewrite skipn_exact. reflexivity. }
  assert (TK : tail_from (swk_bytes k ++ rtk_bytes ks) (length (swk_bytes k)) = Ret (rtk_bytes ks)).
  { unfold tail_from. rewrite (proj2 (Nat.leb_le _ _)) by (rewrite app_length; lia). rewrite skipn_exact. reflexivity. }
  assert (NE : exists b l, be_bytes 4 g ++ swk_bytes k ++ rtk_bytes ks = b :: l) by (cbn [be_bytes app]; eauto).
  destruct NE as (b & l & E). cbn [rtk_decode]. rewrite E in *. cbv iota beta. rewrite S4. cbn [bind]. rewrite T4. cbn [bind].
  rewrite (swk_reads k Hk (rtk_bytes ks)). cbn [bind]. rewrite TK. cbn [bind].
  rewrite be_value_bytes. rewrite Z.mod_small by exact Hg. rewrite map_set_new by exact NG.
  rewrite IH; [rewrite <- app_assoc; reflexivity|exact HF'|rewrite <- app_assoc; exact HN|cbn in Hf; lia].
Qed.
Lemma rtk_bytes_min ks : (length ks <= length (rtk_bytes ks))%nat.
Proof. induction ks as [|e ks IH]; [cbn; lia|]. unfold rtk_bytes in *. cbn [flat_map length]. rewrite !app_length, be_bytes_length. lia. Qed.
Lemma rtk_round_trip ks : fits_rtk ks -> rtk_marshal ks = Ret (rtk_bytes ks) /\ rtk_unmarshal (rtk_bytes ks) = Ret ks.
Proof.
  intros [HN HF]. split; [apply rtk_marshal_ok; eapply Forall_impl; [|exact HF]; intros e [_ H]; exact H|]. unfold rtk_unmarshal.
  rewrite (rtk_decode_ok ks [] _ HF HN (rtk_bytes_min ks)). reflexivity.
Qed.
Lemma map_get_perm ks ks' g : NoDup (map fst ks) -> Permutation ks ks' -> map_get ks g = map_get ks' g.
Proof.
  intros HN HP. unfold map_get. induction HP as [|[g1 k1] l l' HP IH|[g1 k1] [g2 k2] l|l l' l'' H1 IH1 H2 IH2].
  - reflexivity.
  - cbn [map fst] in HN. inversion HN; subst. cbn [find fst]. destruct (g1 =? g); [reflexivity|apply IH; assumption].
  - cbn [map fst find] in *. inversion HN as [|x y A B]; subst. destruct (Z.eqb_spec g2 g), (Z.eqb_spec g1 g); try reflexivity. subst. exfalso. apply A. left. reflexivity.
  - rewrite IH1 by exact HN. apply IH2. eapply Permutation_NoDup; [|exact HN]. apply Permutation_map. exact H1.
Qed.

(** ** Scales *)
Lemma float_bits x : 0 <= Float64bits x < 2 ^ 64 /\ Float64frombits (Float64bits x) = x.
Proof.
  split.
  - unfold Float64bits, bits_of_b64. pose proof (bits_of_binary_float_range 52 11 eq_refl eq_refl (BSN2B 53 1024 default_nan_pl64 x)) as H. exact H.
  - unfold Float64frombits, Float64bits, b64_of_bits, bits_of_b64. rewrite binary_float_of_bits_of_binary_float. apply B2BSN_BSN2B.
Qed.
Lemma ckks_round_trip v scale tail : fits_ct v ->
  ckks_marshal v scale = Ret (le_bytes 8 (Float64bits scale) ++ ct_bytes v) /\
  ckks_unmarshal ((le_bytes 8 (Float64bits scale) ++ ct_bytes v) ++ tail) = match tail with [] => Ret (v, scale) | _ => Fail end.
Proof.
  intros H. split; [unfold ckks_marshal; rewrite (proj1 (ct_marshal_ok v H)); reflexivity|].
  assert (L8 : length (le_bytes 8 (Float64bits scale)) = 8%nat) by (unfold le_bytes; rewrite rev_length, be_bytes_length; reflexivity).
  unfold ckks_unmarshal. pose proof (ct_bytes_min v H) as M. rewrite (proj2 (Nat.ltb_ge _ _)) by (rewrite !app_length; lia).
  rewrite <- app_assoc. unfold slice, tail_from. rewrite !(proj2 (Nat.leb_le _ _)) by (rewrite !app_length; lia). cbn [bind skipn Nat.sub].
  assert (F8 : firstn 8 (le_bytes 8 (Float64bits scale) ++ ct_bytes v ++ tail) = le_bytes 8 (Float64bits scale)) by (rewrite <- L8 at 1; apply firstn_exact).
  assert (S8 : skipn 8 (le_bytes 8 (Float64bits scale) ++ ct_bytes v ++ tail) = ct_bytes v ++ tail) by (rewrite <- L8 at 1; apply skipn_exact).
  cbn [skipn] in *. rewrite F8, S8. rewrite (ct_unmarshal_ok v tail H). destruct tail; [|reflexivity]. cbn [bind]. f_equal. f_equal.
  unfold le_value, le_bytes. rewrite rev_involutive, be_value_bytes. destruct (float_bits scale) as [R E]. rewrite Z.mod_small by exact R. exact E.
Qed.

(** ** Truncated bytes
    A decoder that accepts some bytes accepts them with the same result whatever follows, and has not read past their
    end; so it accepts no proper prefix of a format it reads. *)
Definition stable {A} (f : bytes -> res (nat * A)) : Prop :=
  forall data n x, f data = Ret (n, x) -> (n <= length data)%nat /\ forall tail, f (data ++ tail) = Ret (n, x).
Lemma stable_prefix {A} (f : bytes -> res (nat * A)) bs x m : stable f -> reads f bs x -> (m < length bs)%nat -> forall r, f (firstn m bs) <> Ret r.
Proof.
  intros S R Hm [n y] E. destruct (S _ _ _ E) as [Hn HT]. specialize (HT (skipn m bs)). rewrite firstn_skipn in HT. specialize (R []). rewrite app_nil_r in R.
  rewrite R in HT. injection HT as <- _. rewrite firstn_length in Hn. lia.
Qed.
Lemma index_app (data tail : bytes) i b : index data i = Ret b -> index (data ++ tail) i = Ret b /\ (i < length data)%nat.
Proof.
  unfold index. destruct (nth_error data i) as [c|] eqn:E; [|discriminate]. intros H. assert (i < length data)%nat by (apply nth_error_Some; rewrite E; discriminate).
  rewrite nth_error_app1 by assumption. rewrite E. split; [exact H|assumption].
Qed.
Lemma decode_coeffs_stable w N k coeffs data pointer r : decode_coeffs w pointer N k coeffs data = Ret r -> (pointer <= length data)%nat ->
  (fst r <= length data)%nat /\ forall tail, decode_coeffs w pointer N k coeffs (data ++ tail) = Ret r.
Proof.
  intros H Hp. destruct (Z.ltb_spec N 0) as [HN|HN].
  - destruct k as [|k]; [cbn in H; injection H as <-; split; [exact Hp|reflexivity]|]. cbn in H. rewrite (proj2 (Z.ltb_lt _ _) HN) in H. discriminate H.
  - destruct (Z_of_nat_complete N HN) as [n ->].
    destruct (Nat.le_gt_cases k (length coeffs)) as [H1|H1]; [|rewrite decode_coeffs_bad in H by (try left; lia); discriminate H].
    destruct (Nat.le_gt_cases (pointer + k * n * w) (length data)) as [H2|H2]; [|rewrite decode_coeffs_bad in H by (try right; lia); discriminate H].
    rewrite decode_coeffs_ok in H by assumption. injection H as <-. split; [exact H2|]. intros tail.
    rewrite decode_coeffs_ok by (rewrite ?app_length; lia). do 3 f_equal. unfold rows_at. apply map_ext_in. intros i Hi. apply in_seq in Hi.
    apply map_ext_in. intros j Hj. apply in_seq in Hj. unfold coeff_at. f_equal.
    assert (B : (pointer + (i * n + j) * w + w <= length data)%nat).
    { assert (B1 : (i * n + j + 1 <= k * n)%nat) by (clear - Hi Hj; nia). apply (Nat.mul_le_mono_r _ _ w) in B1. clear - B1 H2. lia. }
    rewrite skipn_app, firstn_app, skipn_length. replace (w - (length data - (pointer + (i * n + j) * w)))%nat with 0%nat by lia. cbn [firstn]. apply app_nil_r.
Qed.
Lemma decode_poly_stable w p : stable (decode_poly w p).
Proof.
  intros data n x H. unfold decode_poly in *. destruct (index data 0) as [b0| |] eqn:E0; try discriminate H. destruct (index data 1) as [b1| |] eqn:E1; try discriminate H.
  destruct (index data 2) as [b2| |] eqn:E2; try discriminate H. destruct (index data 3) as [b3| |] eqn:E3; try discriminate H. cbn [bind] in H.
  destruct (decode_coeffs _ _ _ _ _ data) as [[pt cs]| |] eqn:D; try discriminate H. cbn [bind] in H. injection H as <- <-.
  destruct (decode_coeffs_stable _ _ _ _ _ _ _ D) as [B HT]; [pose proof (proj2 (index_app data [] 3 b3 E3)); lia|]. split; [exact B|]. intros tail.
  rewrite (proj1 (index_app _ tail _ _ E0)), (proj1 (index_app _ tail _ _ E1)), (proj1 (index_app _ tail _ _ E2)), (proj1 (index_app _ tail _ _ E3)). cbn [bind].
  rewrite HT. reflexivity.
Qed.
Lemma read_at_stable {A} (f : bytes -> res (nat * A)) data pt n x : stable f -> read_at f data pt = Ret (n, x) ->
  (n <= length data)%nat /\ forall tail, read_at f (data ++ tail) pt = Ret (n, x).
Proof.
  intros S. unfold read_at, tail_from. destruct (Nat.leb_spec pt (length data)) as [Hp|Hp]; [|discriminate]. cbn [bind].
  destruct (f (skipn pt data)) as [[i a]| |] eqn:E; try discriminate. cbn [bind]. intros H. injection H as <- <-. destruct (S _ _ _ E) as [B HT]. rewrite skipn_length in B.
  split; [lia|]. intros tail. rewrite (proj2 (Nat.leb_le _ _)) by (rewrite app_length; lia). cbn [bind].
  rewrite skipn_app. replace (pt - length data)%nat with 0%nat by lia. cbn [skipn]. rewrite HT. reflexivity.
Qed.
Lemma loop_stable {A} (f : bytes -> nat * A -> nat -> res (nat * A)) :
  (forall data st i n x, f data st i = Ret (n, x) -> (n <= length data)%nat /\ forall tail, f (data ++ tail) st i = Ret (n, x)) ->
  forall l data st n x, loop (f data) l st = Ret (n, x) -> (fst st <= length data)%nat -> (n <= length data)%nat /\ forall tail, loop (f (data ++ tail)) l st = Ret (n, x).
Proof.
  intros H. induction l as [|i l IH]; intros data st n x E Hs; [injection E as ->; split; [exact Hs|reflexivity]|]. cbn [loop] in *.
  destruct (f data st i) as [[n1 x1]| |] eqn:E1; try discriminate E. cbn [bind] in E. destruct (H _ _ _ _ _ E1) as [B HT]. destruct (IH _ _ _ _ E B) as [B2 HT2].
  split; [exact B2|]. intros tail. rewrite HT. cbn [bind]. apply HT2.
Qed.
Lemma decode_list_stable {A} (f : bytes -> res (nat * A)) k data pt n x : stable f -> decode_list f k data pt = Ret (n, x) -> (pt <= length data)%nat ->
  (n <= length data)%nat /\ forall tail, decode_list f k (data ++ tail) pt = Ret (n, x).
Proof.
  intros S H Hp. unfold decode_list in *.
  apply (loop_stable (fun data '(pointer, l) (_ : nat) => let* '(pointer, x) := read_at f data pointer in Ret (pointer, l ++ [x]))); [|exact H|exact Hp].
  clear - S. intros data [pt l] i n x H. destruct (read_at f data pt) as [[m y]| |] eqn:E; try discriminate H. cbn [bind] in H. injection H as <- <-.
  destruct (read_at_stable f _ _ _ _ S E) as [B HT]. split; [exact B|]. intros tail. rewrite HT. reflexivity.
Qed.
Lemma qp_decode_stable p : stable (qp_decode p).
Proof.
  intros data n x H. unfold qp_decode in *. destruct (index data 0) as [b0| |] eqn:E0; try discriminate H. cbn [bind] in H.
  destruct (index data 1) as [b1| |] eqn:E1; [|destruct (b0 =? 1); cbn [bind] in H; [destruct (read_at _ data 2) as [[]| |]; discriminate H|discriminate H]..].
  destruct (index_app _ [] _ _ E1) as [_ L1].
  pose proof (decode_poly_stable 8 newPoly) as SP. fold DecodePolyNew in SP.
  assert (S1 : forall q pt, (if b0 =? 1 then let* '(pt, q) := read_at (DecodePolyNew newPoly) data 2 in Ret (pt, Some q) else Ret (2%nat, qpQ p)) = Ret (pt, q) ->
    (pt <= length data)%nat /\ forall tail, (if b0 =? 1 then let* '(pt, q) := read_at (DecodePolyNew newPoly) (data ++ tail) 2 in Ret (pt, Some q) else Ret (2%nat, qpQ p)) = Ret (pt, q)).
  { intros q pt E. destruct (b0 =? 1); [|injection E as <- <-; split; [lia|reflexivity]]. destruct (read_at (DecodePolyNew newPoly) data 2) as [[i y]| |] eqn:R; try discriminate E.
    injection E as <- <-. destruct (read_at_stable _ _ _ _ _ SP R) as [B HT]. split; [exact B|]. intros tail. rewrite HT. reflexivity. }
  destruct (if b0 =? 1 then _ else _) as [[pt q]| |] eqn:EQ in H; try discriminate H. destruct (S1 _ _ EQ) as [B1 T1]. cbn [bind] in H.
  assert (S2 : forall r pt2, (if b1 =? 1 then let* '(pt, r) := read_at (DecodePolyNew newPoly) data pt in Ret (pt, Some r) else Ret (pt, qpP p)) = Ret (pt2, r) ->
    (pt2 <= length data)%nat /\ forall tail, (if b1 =? 1 then let* '(pt, r) := read_at (DecodePolyNew newPoly) (data ++ tail) pt in Ret (pt, Some r) else Ret (pt, qpP p)) = Ret (pt2, r)).
  { intros r pt2 E. destruct (b1 =? 1); [|injection E as <- <-; split; [lia|reflexivity]]. destruct (read_at (DecodePolyNew newPoly) data pt) as [[i y]| |] eqn:R; try discriminate E.
    injection E as <- <-. destruct (read_at_stable _ _ _ _ _ SP R) as [B HT]. split; [exact B|]. intros tail. rewrite HT. reflexivity. }
  destruct (if b1 =? 1 then _ else _) as [[pt2 r]| |] eqn:ER in H; try discriminate H. destruct (S2 _ _ ER) as [B2 T2]. cbn [bind] in H. injection H as <- <-.
  split; [exact B2|]. intros tail. rewrite (proj1 (index_app _ tail _ _ E0)), (proj1 (index_app _ tail _ _ E1)). cbn [bind]. rewrite T1. cbn [bind]. rewrite T2. reflexivity.
Qed.
Lemma swk_decode_stable : stable swk_decode.
Proof.
  intros data n x H. unfold swk_decode in *. destruct (index data 0) as [b0| |] eqn:E0; try discriminate H. cbn [bind] in H. destruct (index_app _ [] _ _ E0) as [_ L0].
  pose proof (loop_stable (fun data '(pointer, l) (_ : nat) =>
      let* '(pointer, v0) := read_at (qp_decode (mkQP (Some newPoly) None)) data pointer in
      let* '(pointer, v1) := read_at (qp_decode (mkQP None (Some newPoly))) data pointer in
      Ret (pointer, l ++ [(v0, v1)]))) as LS.
  specialize (fun A => LS A _ _ _ _ _ H L0).
  match type of LS with ?P -> _ => assert (A : P) end.
  { clear. intros data [pt l] i n x H. destruct (read_at _ data pt) as [[p1 v0]| |] eqn:R1 in H; try discriminate H. cbn [bind] in H.
    destruct (read_at _ data p1) as [[p2 v1]| |] eqn:R2 in H; try discriminate H. cbn [bind] in H. injection H as <- <-.
    destruct (read_at_stable _ _ _ _ _ (qp_decode_stable _) R1) as [_ T1]. destruct (read_at_stable _ _ _ _ _ (qp_decode_stable _) R2) as [B2 T2].
    split; [exact B2|]. intros tail. rewrite T1. cbn [bind]. rewrite T2. reflexivity. }
  destruct (LS A) as [B T]. split; [exact B|]. intros tail. rewrite (proj1 (index_app _ tail _ _ E0)). cbn [bind]. exact (T tail).
Qed.

Lemma unmarshal_prefix p m : fits_poly 8 p -> (m < length (poly_bytes 8 p))%nat -> forall r, UnmarshalBinary newPoly (firstn m (poly_bytes 8 p)) <> Ret r.
Proof.
  intros H Hm r E. unfold UnmarshalBinary in E. destruct (index _ 0); try discriminate E. destruct (index _ 1); try discriminate E. destruct (index _ 2); try discriminate E.
  destruct (index _ 3); try discriminate E. cbn [bind] in E. destruct (negb _); [discriminate E|].
  destruct (DecodePolyNew newPoly (firstn m (poly_bytes 8 p))) as [[n q]| |] eqn:D; try discriminate E.
  exact (stable_prefix _ _ _ m (decode_poly_stable 8 newPoly) (poly_reads p H) Hm _ D).
Qed.
Lemma bind_not {A B} (m : res A) (k : A -> res B) : (forall a, m <> Ret a) -> forall b, bind m k <> Ret b.
Proof. intros H b. destruct m as [a| |]; [exfalso; exact (H a eq_refl)|discriminate..]. Qed.
Lemma bind_pair_not {A B C} (m : res (A * B)) (k : A * B -> res C) : (forall a, m <> Ret a) -> forall b, bind m k <> Ret b.
Proof. intros H b. destruct m as [a| |]; [exfalso; exact (H a eq_refl)|discriminate..]. Qed.

(** A list decoded from data[pt:], as a decoder that also counts the pt first bytes. *)
Definition counted {A} (f : bytes -> res (nat * A)) (data : bytes) : res (nat * list A) := let* b0 := index data 0 in decode_list f (Z.to_nat b0) data 1.
Lemma counted_stable {A} (f : bytes -> res (nat * A)) : stable f -> stable (counted f).
Proof.
  intros S data n x H. unfold counted in *. destruct (index data 0) as [b0| |] eqn:E0; try discriminate H. cbn [bind] in H. destruct (index_app _ [] _ _ E0) as [_ L0].
  destruct (decode_list_stable f _ _ _ _ _ S H L0) as [B T]. split; [exact B|]. intros tail. rewrite (proj1 (index_app _ tail _ _ E0)). cbn [bind]. apply T.
Qed.
Lemma counted_reads {A} (f : bytes -> res (nat * A)) (enc : A -> bytes) l : (forall x, In x l -> reads f (enc x) x) -> reads (counted f) (Z.of_nat (length l) :: flat_map enc l) l.
Proof.
  intros H tail. unfold counted. cbn [app index nth_error bind]. rewrite Nat2Z.id. exact (read_list f enc l [Z.of_nat (length l)] tail H).
Qed.
Lemma ct_prefix v m : fits_ct v -> (m < length (ct_bytes v))%nat -> forall r, ct_unmarshal (firstn m (ct_bytes v)) <> Ret r.
Proof.
  intros H Hm r E. unfold ct_unmarshal in E. destruct (Nat.ltb _ _); [discriminate E|].
  pose proof (stable_prefix (counted (DecodePolyNew newPoly)) (ct_bytes v) v m (counted_stable _ (decode_poly_stable 8 newPoly))
    (counted_reads _ _ v (fun x Hx => poly_reads x (fits_ct_poly v x H Hx))) Hm) as P. unfold counted in P.
  destruct (index _ 0) as [b0| |]; try discriminate E. cbn [bind] in *.
  destruct (decode_list _ _ _ _) as [[n x]| |] in E, P; try discriminate E. exact (P _ eq_refl).
Qed.
Lemma ckks_prefix v scale m : fits_ct v -> (m < length (le_bytes 8 (Float64bits scale) ++ ct_bytes v))%nat ->
  forall r, ckks_unmarshal (firstn m (le_bytes 8 (Float64bits scale) ++ ct_bytes v)) <> Ret r.
Proof.
  intros H Hm r E. unfold ckks_unmarshal in E. destruct (Nat.ltb_spec (length (firstn m (le_bytes 8 (Float64bits scale) ++ ct_bytes v))) 10) as [_|H10]; [discriminate E|].
  assert (L8 : length (le_bytes 8 (Float64bits scale)) = 8%nat) by (unfold le_bytes; rewrite rev_length, be_bytes_length; reflexivity).
  set (h := le_bytes 8 (Float64bits scale)) in *. clearbody h. rewrite firstn_length in H10. rewrite app_length in Hm.
  rewrite firstn_app in E. rewrite (firstn_all2 h) in E by lia. rewrite L8 in *.
  unfold slice, tail_from in E. rewrite !(proj2 (Nat.leb_le _ _)) in E by (rewrite app_length; lia). cbn [bind] in E.
  assert (S8 : forall t, skipn 8 (h ++ t) = t) by (intros t; rewrite <- L8 at 1; apply skipn_exact). rewrite S8 in E.
  pose proof (ct_prefix v (m - 8) H ltac:(lia)) as P. destruct (ct_unmarshal _) as [y| |] in E, P; try discriminate E. exact (P _ eq_refl).
Qed.
Lemma sk_prefix sk m : fits_qp sk -> (m < length (qp_bytes sk))%nat -> forall r, sk_unmarshal newQP (firstn m (qp_bytes sk)) <> Ret r.
Proof. intros H Hm. unfold sk_unmarshal. apply bind_not. exact (stable_prefix _ _ _ m (qp_decode_stable newQP) (qp_reads sk H) Hm). Qed.
Lemma pk_prefix p0 p1 m : fits_qp p0 -> fits_qp p1 -> (m < length (qp_bytes p0 ++ qp_bytes p1))%nat ->
  forall r, pk_unmarshal (newQP, newQP) (firstn m (qp_bytes p0 ++ qp_bytes p1)) <> Ret r.
Proof.
  intros H0 H1 Hm r E. unfold pk_unmarshal in E. cbn [fst snd] in E. set (data := firstn m (qp_bytes p0 ++ qp_bytes p1)) in *.
  destruct (read_at (qp_decode newQP) data 0) as [[n x]| |] eqn:R0; try discriminate E. cbn [bind] in E.
  destruct (read_at (qp_decode newQP) data n) as [[n2 x2]| |] eqn:R1; try discriminate E. clear E.
  destruct (read_at_stable _ _ _ _ _ (qp_decode_stable _) R0) as [_ T0]. destruct (read_at_stable _ _ _ _ _ (qp_decode_stable _) R1) as [B T1].
  specialize (T0 (skipn m (qp_bytes p0 ++ qp_bytes p1))). specialize (T1 (skipn m (qp_bytes p0 ++ qp_bytes p1))). unfold data in T0, T1. rewrite firstn_skipn in T0, T1.
  pose proof (read_at_ok _ _ _ [] (qp_bytes p1) (qp_reads p0 H0)) as A0. cbn [app length Nat.add] in A0. rewrite A0 in T0.
  assert (R : forall (a b : nat) (x y : PolyQP), Ret (a, x) = Ret (b, y) -> a = b) by (clear; intros a b x y E; injection E as -> _; reflexivity).
  apply R in T0. subst n.
  pose proof (read_at_ok _ _ _ (qp_bytes p0) [] (qp_reads p1 H1)) as A1. rewrite app_nil_r in A1. rewrite A1 in T1. apply R in T1. subst n2.
  unfold data in B. rewrite firstn_length, !app_length in *. lia.
Qed.
Lemma swk_prefix k m : fits_swk k -> (m < length (swk_bytes k))%nat -> forall r, swk_unmarshal (firstn m (swk_bytes k)) <> Ret r.
Proof. intros H Hm. unfold swk_unmarshal. apply bind_not. exact (stable_prefix _ _ _ m swk_decode_stable (swk_reads k H) Hm). Qed.
Lemma rlk_prefix ks m : Forall fits_swk ks -> (m < length (rlk_bytes ks))%nat -> forall r, rlk_unmarshal (firstn m (rlk_bytes ks)) <> Ret r.
Proof.
  intros H Hm r E. unfold rlk_unmarshal in E.
  pose proof (stable_prefix (counted swk_decode) (rlk_bytes ks) ks m (counted_stable _ swk_decode_stable)
    (counted_reads _ _ ks (fun x Hx => swk_reads x (proj1 (Forall_forall _ _) H x Hx))) Hm) as P. unfold counted in P.
  destruct (index _ 0) as [b0| |]; try discriminate E. cbn [bind] in *.
  destruct (decode_list _ _ _ _) as [[n x]| |] in E, P; try discriminate E. exact (P _ eq_refl).
Qed.

(** ** The statements of P_Codec.v *)
Lemma poly_round_trip p : fits_poly 8 p -> Z.of_nat (length (pCoeffs p)) * Z.of_nat (length (nth 0 (pCoeffs p) [])) < 2 ^ 63 ->
  MarshalBinary p = Ret (poly_bytes 8 p) /\ data_len 8 true p = Ret (length (poly_bytes 8 p)) /\ UnmarshalBinary newPoly (poly_bytes 8 p) = Ret p.
Proof.
  intros H Hs. split; [exact (marshal_ok p H)|]. split; [exact (poly_len p H)|]. rewrite poly_bytes_flags.
  pose proof (unmarshal_ok p newPoly (flag (pNTT p)) (flag (pMForm p)) [] H (or_introl eq_refl) ltac:(cbn; lia) Hs) as U. rewrite app_nil_r in U.
  etransitivity; [exact U|]. cbn [newPoly pCoeffs pNTT pMForm]. rewrite skipn_nil, app_nil_r, !flag_1, !orb_false_r. destruct p; reflexivity.
Qed.
Lemma unmarshal_onto p tgt : fits_poly 8 p -> (pCoeffs tgt = [] \/ length (pCoeffs p) <= length (pCoeffs tgt))%nat ->
  Z.of_nat (length (pCoeffs p)) * Z.of_nat (length (nth 0 (pCoeffs p) [])) < 2 ^ 63 ->
  UnmarshalBinary tgt (poly_bytes 8 p) =
  Ret (mkPoly (pCoeffs p ++ skipn (length (pCoeffs p)) (pCoeffs tgt)) (pNTT p || pNTT tgt) (pMForm p || pMForm tgt)).
Proof.
  intros H Ht Hs. rewrite poly_bytes_flags. pose proof (unmarshal_ok p tgt (flag (pNTT p)) (flag (pMForm p)) [] H Ht ltac:(cbn; lia) Hs) as U. rewrite app_nil_r in U.
  etransitivity; [exact U|]. rewrite !flag_1. reflexivity.
Qed.
Lemma write_any w p data : fits_poly w p ->
  write_to w p data =
    if Nat.ltb (length data) (length (poly_bytes w p)) then Fail
    else Ret (length (poly_bytes w p),
      [Z.log2 (Z.of_nat (length (nth 0 (pCoeffs p) []))); Z.of_nat (length (pCoeffs p)); (if pNTT p then 1 else nth 2 data 0); (if pMForm p then 1 else nth 3 data 0)] ++
      flat_map (be_bytes w) (concat (pCoeffs p)) ++ skipn (length (poly_bytes w p)) data).
Proof.
  intros H. pose proof (poly_bytes_length w p H) as LB. assert (H1 : (1 <= length (pCoeffs p))%nat) by (destruct H; lia).
  destruct (Nat.ltb_spec (length data) (length (poly_bytes w p))) as [HL|HL].
  - unfold write_to. rewrite (degree_ok p H1). cbn [bind]. rewrite (data_len_ok w p H1). cbn [bind]. rewrite <- LB. rewrite (proj2 (Nat.ltb_lt _ _) HL). reflexivity.
  - destruct data as [|d0 [|d1 [|d2 [|d3 rest]]]]; try (exfalso; cbn [length] in HL; lia). rewrite (write_to_ok w p d0 d1 d2 d3 rest H) by (cbn [length] in HL; lia).
    cbn [nth]. rewrite (poly_bytes_flags w p), app_length. reflexivity.
Qed.
Lemma header_panics : exists data, length data = 4%nat /\ Forall is_byte data /\ UnmarshalBinary newPoly data = Panic.
Proof. exists [62; 4; 0; 0]. split; [reflexivity|]. split; [repeat constructor; cbn; lia|]. vm_compute. reflexivity. Qed.
Lemma rows_256 : exists p data, length (pCoeffs p) = 256%nat /\ MarshalBinary p = Ret data /\
  UnmarshalBinary newPoly data = Fail /\ DecodePolyNew newPoly data = Ret (4%nat, newPoly).
Proof.
  exists (mkPoly (repeat [3] 256) false false), ([0; 0; 0; 0] ++ flat_map (be_bytes 8) (repeat 3 256)). split; [reflexivity|]. split; [vm_compute; reflexivity|].
  split; vm_compute; reflexivity.
Qed.
Lemma fits_small w l b c : (forall x, In x l -> 0 <= x < 256 ^ Z.of_nat w) -> length l = 1%nat -> fits_poly w (mkPoly [l] b c).
Proof.
  intros H HL. split; [cbn; lia|]. exists 0%nat. split; [lia|]. cbn [pCoeffs]. constructor; [|constructor]. split; [exact HL|]. apply Forall_forall. exact H.
Qed.
Lemma dirty_buffer : exists p data n data' q, fits_poly 8 p /\ length data = length (poly_bytes 8 p) /\
  WriteTo p data = Ret (n, data') /\ DecodePolyNew newPoly data' = Ret (n, q) /\ pNTT p = false /\ pNTT q = true.
Proof.
  exists (mkPoly [[3]] false false), (repeat 1 12), 12%nat, [0; 1; 1; 1; 0; 0; 0; 0; 0; 0; 0; 3], (mkPoly [[3]] true true).
  split; [apply fits_small; [intros x [<-|[]]; cbn; lia|reflexivity]|]. split; [reflexivity|]. split; [vm_compute; reflexivity|]. split; [vm_compute; reflexivity|]. split; reflexivity.
Qed.
Lemma used_target : exists p tgt q, fits_poly 8 p /\ UnmarshalBinary tgt (poly_bytes 8 p) = Ret q /\
  pNTT p = false /\ pNTT q = true /\ length (pCoeffs p) = 2%nat /\ length (pCoeffs q) = 3%nat.
Proof.
  exists (mkPoly [[3]; [4]] false false), (mkPoly [[7]; [8]; [9]] true false), (mkPoly [[3]; [4]; [9]] true false).
  split; [split; [cbn; lia|exists 0%nat; split; [lia|repeat constructor; cbn; lia]]|]. split; [vm_compute; reflexivity|]. repeat split; reflexivity.
Qed.
Lemma trailing_accepted : exists p tail, fits_poly 8 p /\ length tail = 7%nat /\ UnmarshalBinary newPoly (poly_bytes 8 p ++ tail) = Ret p.
Proof.
  exists (mkPoly [[3]] true false), (repeat 255 7). split; [apply fits_small; [intros x [<-|[]]; cbn; lia|reflexivity]|]. split; [reflexivity|]. vm_compute. reflexivity.
Qed.
Lemma words_32 : exists p n data q, fits_poly 8 p /\ WriteTo32 p (repeat 0 12) = Ret (n, data) /\ DecodePolyNew32 newPoly data = Ret (n, q) /\ q <> p.
Proof.
  exists (mkPoly [[2 ^ 32 + 3]] true false), 8%nat, [0; 1; 1; 0; 0; 0; 0; 3; 0; 0; 0; 0], (mkPoly [[3]] true false).
  split; [apply fits_small; [intros x [<-|[]]; cbn; lia|reflexivity]|]. split; [vm_compute; reflexivity|]. split; [vm_compute; reflexivity|]. discriminate.
Qed.
Lemma ct_round_trip v : fits_ct v ->
  ct_marshal v = Ret (ct_bytes v) /\ ct_data_len true v = Ret (length (ct_bytes v)) /\
  (forall tail, ct_unmarshal (ct_bytes v ++ tail) = match tail with [] => Ret v | _ => Fail end) /\
  (forall m r, (m < length (ct_bytes v))%nat -> ct_unmarshal (firstn m (ct_bytes v)) <> Ret r).
Proof. intros H. destruct (ct_marshal_ok v H) as [A B]. exact (conj A (conj B (conj (fun tail => ct_unmarshal_ok v tail H) (fun m r Hm => ct_prefix v m H Hm r)))). Qed.
Lemma ckks_round v scale : fits_ct v ->
  exists data, ckks_marshal v scale = Ret data /\ length data = (8 + length (ct_bytes v))%nat /\
  (forall tail, ckks_unmarshal (data ++ tail) = match tail with [] => Ret (v, scale) | _ => Fail end) /\
  (forall m r, (m < length data)%nat -> ckks_unmarshal (firstn m data) <> Ret r).
Proof.
  intros H. exists (le_bytes 8 (Float64bits scale) ++ ct_bytes v). split; [exact (proj1 (ckks_round_trip v scale [] H))|].
  split; [rewrite app_length; unfold le_bytes; rewrite rev_length, be_bytes_length; reflexivity|].
  split; [intros tail; exact (proj2 (ckks_round_trip v scale tail H))|]. intros m r Hm. exact (ckks_prefix v scale m H Hm r).
Qed.
Lemma rtk_any_order ks ks' : fits_rtk ks -> Permutation ks ks' ->
  exists data ks'', rtk_marshal ks' = Ret data /\ rtk_unmarshal data = Ret ks'' /\ length ks'' = length ks /\ forall g, map_get ks'' g = map_get ks g.
Proof.
  intros H HP. assert (H' : fits_rtk ks').
  { destruct H as [HN HF]. split; [eapply Permutation_NoDup; [apply Permutation_map; exact HP|exact HN]|]. apply Forall_forall. intros x Hx.
    apply (proj1 (Forall_forall _ _) HF). apply (Permutation_in x (Permutation_sym HP) Hx). }
  destruct (rtk_round_trip ks' H') as [A B]. exists (rtk_bytes ks'), ks'. split; [exact A|]. split; [exact B|].
  split; [symmetry; apply Permutation_length; exact HP|]. intros g. symmetry. apply map_get_perm; [exact (proj1 H)|exact HP].
Qed.
Definition tiny : Poly := mkPoly [[3]] true false.
Lemma tiny_fits : fits_poly 8 tiny.
Proof. apply fits_small; [intros x [<-|[]]; cbn; lia|reflexivity]. Qed.
Lemma nil_special : exists k data k', swk_marshal k = Ret data /\ swk_unmarshal data = Ret k' /\
  Forall (fun v => qpP (fst v) = None /\ qpP (snd v) = None) k /\ Exists (fun v => qpP (snd v) = Some newPoly) k'.
Proof.
  exists [(mkQP (Some tiny) None, mkQP (Some tiny) None)]. eexists. exists [(mkQP (Some tiny) None, mkQP (Some tiny) (Some newPoly))].
  split; [vm_compute; reflexivity|]. split; [vm_compute; reflexivity|]. split; [repeat constructor|apply Exists_cons_hd; reflexivity].
Qed.
Lemma ct_truncated : exists v m, fits_ct v /\ (m < length (ct_bytes v))%nat /\ ct_unmarshal (firstn m (ct_bytes v)) = Panic.
Proof.
  exists [tiny], 11%nat. split; [split; [cbn; lia|constructor; [exact tiny_fits|constructor]]|]. split; [vm_compute; lia|]. vm_compute. reflexivity.
Qed.
Lemma galois_cut : exists k data ks, fits_swk k /\ rtk_marshal [(2 ^ 32 + 5, k)] = Ret data /\ rtk_unmarshal data = Ret ks /\
  map_get ks (2 ^ 32 + 5) = None /\ map_get ks 5 = Some k.
Proof.
  exists [(mkQP (Some tiny) (Some tiny), mkQP (Some tiny) (Some tiny))]. eexists. exists [(5, [(mkQP (Some tiny) (Some tiny), mkQP (Some tiny) (Some tiny))])].
  split; [split; [cbn; lia|constructor; [|constructor]; split; exists tiny, tiny; (split; [reflexivity|split; exact tiny_fits])]|].
  split; [vm_compute; reflexivity|]. split; [vm_compute; reflexivity|]. split; vm_compute; reflexivity.
Qed.
