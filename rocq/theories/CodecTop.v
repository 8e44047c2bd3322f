(** Decoding of arbitrary bytes; pairs of polynomials, ciphertexts and keys. *)
From Verif Require Import Word Arith Ring NTT RingOps Float64 Codec CodecSpec CodecProofs.

(** ** Arbitrary bytes *)
Lemma short_panics p data : (length data < 4)%nat -> UnmarshalBinary p data = Panic.
Proof. intros H. destruct data as [|a [|b [|c [|d l]]]]; try reflexivity. cbn in H. lia. Qed.

(** The number of words of a row for the first byte b. *)
Definition row_len (b : Z) : nat := Z.to_nat (shl_int b).
Lemma shl_int_nonneg b : 0 <= b -> b <> 63 -> shl_int b = Z.of_nat (row_len b).
Proof.
  intros H1 H2. unfold row_len. rewrite Z2Nat.id; [reflexivity|]. unfold shl_int. destruct (b <? 63); [apply Z.pow_nonneg; lia|].
  rewrite (proj2 (Z.eqb_neq _ _) H2). lia.
Qed.
Lemma decode_63 w pointer k coeffs data : (0 < k)%nat -> decode_coeffs w pointer (shl_int 63) k coeffs data = Panic.
Proof. intros H. destruct k; [lia|]. reflexivity. Qed.

Lemma decode_new_inv w data n p : Forall is_byte data -> decode_poly w newPoly data = Ret (n, p) ->
  exists b0 b1 b2 b3 rest, data = b0 :: b1 :: b2 :: b3 :: rest /\ (b1 = 0 \/ b0 <> 63) /\
    n = (4 + Z.to_nat b1 * row_len b0 * w)%nat /\ (n <= length data)%nat /\
    p = mkPoly (rows_at w 4 (row_len b0) (Z.to_nat b1) data) (b2 =? 1) (b3 =? 1).
Proof.
  intros HB H. destruct data as [|b0 [|b1 [|b2 [|b3 rest]]]]; try discriminate H. exists b0, b1, b2, b3, rest. split; [reflexivity|].
  unfold decode_poly in H. cbn [index nth_error bind newPoly pCoeffs pNTT pMForm] in H.
  assert (B0 : 0 <= b0 < 256) by (apply (proj1 (Forall_forall _ _) HB); left; reflexivity).
  assert (B1 : 0 <= b1 < 256) by (apply (proj1 (Forall_forall _ _) HB); right; left; reflexivity).
  set (data := b0 :: b1 :: b2 :: b3 :: rest) in *. assert (L4 : (4 <= length data)%nat) by (cbn; lia). clearbody data.
  assert (F : forall (b x : Z), (if x =? 1 then true else false) = (x =? 1)) by (intros; destruct (x =? 1); reflexivity).
  destruct (Z.eq_dec b1 0) as [->|NZ].
  { cbn in H. injection H as <- <-. split; [left; reflexivity|]. cbn [Z.to_nat Nat.mul Nat.add rows_at seq map]. repeat split; try lia. f_equal; destruct (_ =? 1); reflexivity. }
  destruct (Z.eq_dec b0 63) as [->|N63].
  { rewrite decode_63 in H by lia. discriminate H. }
  rewrite shl_int_nonneg in H by lia.
  destruct (Nat.le_gt_cases (4 + Z.to_nat b1 * row_len b0 * w) (length data)) as [HD|HD].
  - rewrite decode_coeffs_ok in H by (rewrite ?repeat_length; lia). cbn [bind] in H. injection H as <- <-. split; [right; exact N63|].
    split; [reflexivity|]. split; [exact HD|]. rewrite skipn_all2 by (rewrite repeat_length; lia). rewrite app_nil_r. f_equal; destruct (_ =? 1); reflexivity.
  - rewrite decode_coeffs_bad in H by (try right; lia). discriminate H.
Qed.

Lemma int_wrap_le x : 0 <= x -> int_wrap x <= x.
Proof. intros H. unfold int_wrap. pose proof (Z.mod_le x W H eq_refl). destruct (_ <? _); unfold W in *; lia. Qed.

Lemma rows_at_lengths w pointer N k data : length (rows_at w pointer N k data) = k /\ Forall (fun r => length r = N) (rows_at w pointer N k data).
Proof.
  unfold rows_at. split; [rewrite map_length, seq_length; reflexivity|]. apply Forall_forall. intros r Hr. apply in_map_iff in Hr. destruct Hr as (i & <- & _).
  rewrite map_length, seq_length. reflexivity.
Qed.
Lemma unmarshal_sound data p : Forall is_byte data -> UnmarshalBinary newPoly data = Ret p ->
  exists b0 b1 b2 b3 tail, data = [b0; b1; b2; b3] ++ flat_map (be_bytes 8) (concat (pCoeffs p)) ++ tail /\ (length tail < 8)%nat /\
    Z.of_nat (length (pCoeffs p)) = b1 /\ Forall (fun r => length r = row_len b0) (pCoeffs p) /\ pNTT p = (b2 =? 1) /\ pMForm p = (b3 =? 1).
Proof.
  intros HB H. pose proof H as H0. destruct data as [|b0 [|b1 [|b2 [|b3 rest]]]]; try discriminate H. unfold UnmarshalBinary in H. cbn [index nth_error bind] in H.
  destruct (_ =? _) eqn:E in H; [|discriminate H]. cbn [negb] in H. apply Z.eqb_eq in E.
  destruct (DecodePolyNew newPoly (b0 :: b1 :: b2 :: b3 :: rest)) as [[n q]| |] eqn:D; try discriminate H. cbn [bind] in H. injection H as ->.
  destruct (decode_new_inv 8 _ n p HB D) as (c0 & c1 & c2 & c3 & rest' & E1 & E2 & E3 & E4 & E5). injection E1 as <- <- <- <- <-.
  assert (B0 : 0 <= b0 < 256) by (apply (proj1 (Forall_forall _ _) HB); left; reflexivity).
  assert (B1 : 0 <= b1 < 256) by (apply (proj1 (Forall_forall _ _) HB); right; left; reflexivity).
  set (N := row_len b0) in *. set (k := Z.to_nat b1) in *. assert (HBr : Forall is_byte rest) by (do 4 (apply Forall_inv_tail in HB); exact HB).
  destruct (rows_at_lengths 8 4 N k (b0 :: b1 :: b2 :: b3 :: rest)) as [R1 R2].
  assert (EC : flat_map (be_bytes 8) (concat (pCoeffs p)) = firstn (k * N * 8) rest).
  { rewrite E5. cbn [pCoeffs]. rewrite concat_rows_at. rewrite flat_coeff_at by (try exact HB; lia). reflexivity. }
  exists b0, b1, b2, b3, (skipn (k * N * 8) rest). cbn [length] in E, E4. split; [cbn [app]; rewrite EC, firstn_skipn; reflexivity|].
  split.
  - rewrite skipn_length. destruct E2 as [E2|E2].
    + subst b1. change (int_wrap (shl_int b0 * 0)) with (int_wrap (shl_int b0 * 0)) in E. rewrite Z.mul_0_r in E. change (int_wrap 0) with 0 in E.
      assert (Z.of_nat (S (S (S (S (length rest)))) - 4) < 8) by (apply Z.div_small_iff in E; lia). lia.
    + rewrite (shl_int_nonneg b0) in E by lia. fold N in E. pose proof (int_wrap_le (Z.of_nat N * b1) ltac:(nia)) as IW. rewrite <- E in IW.
      assert (EB : b1 = Z.of_nat k) by lia. rewrite EB in IW. clear - IW.
      assert (Z.of_nat (S (S (S (S (length rest)))) - 4) < (Z.of_nat N * Z.of_nat k + 1) * 8) by (pose proof (Z.div_mod (Z.of_nat (S (S (S (S (length rest)))) - 4)) 8); pose proof (Z.mod_pos_bound (Z.of_nat (S (S (S (S (length rest)))) - 4)) 8); lia).
      nia.
  - rewrite E5. cbn [pCoeffs pNTT pMForm]. rewrite R1. split; [lia|]. split; [exact R2|split; reflexivity].
Qed.

Lemma unmarshal_no_panic b0 b1 b2 b3 rest : is_byte b1 -> 0 <= b0 <= 55 -> UnmarshalBinary newPoly (b0 :: b1 :: b2 :: b3 :: rest) <> Panic.
Proof.
  intros B1 B0. unfold UnmarshalBinary. cbn [index nth_error bind]. destruct (_ =? _) eqn:E; [|discriminate]. cbn [negb]. apply Z.eqb_eq in E. unfold DecodePolyNew, decode_poly.
  cbn [index nth_error bind newPoly pCoeffs].
  rewrite (shl_int_nonneg b0) in * by lia. rewrite int_wrap_small in E.
  - rewrite decode_coeffs_ok; [discriminate|rewrite repeat_length; lia|]. cbn [length] in *. destruct B1.
    pose proof (Z.mul_div_le (Z.of_nat (S (S (S (S (length rest)))) - 4)) 8 eq_refl) as M. rewrite E in M. clear E. nia.
  - split; [destruct B1; nia|]. unfold row_len. rewrite Z2Nat.id; unfold shl_int; rewrite (proj2 (Z.ltb_lt _ _)) by lia; [|apply Z.pow_nonneg; lia].
    assert (2 ^ b0 <= 2 ^ 55) by (apply Z.pow_le_mono_r; lia). destruct B1. change (2 ^ 55) with 36028797018963968 in *. change (2 ^ 63) with 9223372036854775808. nia.
Qed.

(** ** Sequences of objects *)
Lemma firstn_exact {A} (a b : list A) : firstn (length a) (a ++ b) = a.
Proof. rewrite firstn_app, Nat.sub_diag. cbn [firstn]. rewrite app_nil_r. apply firstn_all. Qed.
Lemma skipn_exact {A} (a b : list A) : skipn (length a) (a ++ b) = b.
Proof. rewrite skipn_app, Nat.sub_diag, skipn_all. reflexivity. Qed.

(** f writes bs to any buffer of zeros that is long enough. *)
Definition writes (f : bytes -> res (nat * bytes)) (bs : bytes) : Prop :=
  forall n, (length bs <= n)%nat -> f (repeat 0 n) = Ret (length bs, bs ++ repeat 0 (n - length bs)).
(** f reads x from bs, whatever follows. *)
Definition reads {A} (f : bytes -> res (nat * A)) (bs : bytes) (x : A) : Prop := forall tail, f (bs ++ tail) = Ret (length bs, x).

Lemma write_at_ok f bs pre n : writes f bs -> (length bs <= n)%nat ->
  write_at f (pre ++ repeat 0 n) (length pre) = Ret ((length pre + length bs)%nat, (pre ++ bs) ++ repeat 0 (n - length bs)).
Proof.
  intros H Hn. unfold write_at, tail_from. rewrite (proj2 (Nat.leb_le _ _)) by (rewrite app_length; lia). cbn [bind].
  rewrite skipn_exact, (H n Hn). cbn [bind]. rewrite firstn_exact, app_assoc. reflexivity.
Qed.
Lemma skipn_repeat {A} (x : A) a b : skipn a (repeat x b) = repeat x (b - a).
Proof. revert b. induction a as [|a IH]; intros b; [rewrite Nat.sub_0_r; reflexivity|]. destruct b; [reflexivity|]. cbn [repeat skipn Nat.sub]. apply IH. Qed.
Lemma firstn_repeat {A} (x : A) a b : (a <= b)%nat -> firstn a (repeat x b) = repeat x a.
Proof. revert b. induction a as [|a IH]; intros b H; [reflexivity|]. destruct b; [lia|]. cbn [repeat firstn]. f_equal. apply IH. lia. Qed.
Lemma write_in_ok f bs pre n : writes f bs -> (length bs <= n)%nat ->
  write_in f (length bs) (pre ++ repeat 0 n) (length pre) = Ret ((length pre + length bs)%nat, (pre ++ bs) ++ repeat 0 (n - length bs)).
Proof.
  intros H Hn. unfold write_in, slice. rewrite (proj2 (Nat.leb_le _ _)) by (rewrite app_length, repeat_length; lia). cbn [bind].
  rewrite skipn_exact, firstn_repeat by exact Hn. rewrite (H _ (Nat.le_refl _)). cbn [bind]. rewrite Nat.sub_diag. cbn [repeat]. rewrite app_nil_r.
  rewrite firstn_exact, <- skipn_add, skipn_exact, skipn_repeat, <- app_assoc. reflexivity.
Qed.
Lemma read_at_ok {A} (f : bytes -> res (nat * A)) bs x pre tail : reads f bs x ->
  read_at f (pre ++ bs ++ tail) (length pre) = Ret ((length pre + length bs)%nat, x).
Proof.
  intros H. unfold read_at, tail_from. rewrite (proj2 (Nat.leb_le _ _)) by (rewrite app_length; lia). cbn [bind]. rewrite skipn_exact, H. reflexivity.
Qed.

(** Writing and reading lists. *)
Lemma write_list {X} (f : X -> nat -> bytes -> res (nat * bytes)) (enc : X -> bytes) l : 
  (forall x pre n, In x l -> (length (enc x) <= n)%nat -> f x (length pre) (pre ++ repeat 0 n) = Ret ((length pre + length (enc x))%nat, (pre ++ enc x) ++ repeat 0 (n - length (enc x)))) ->
  forall pre n, (length (flat_map enc l) <= n)%nat ->
  loop (fun '(pointer, data) x => f x pointer data) l (length pre, pre ++ repeat 0 n) =
  Ret ((length pre + length (flat_map enc l))%nat, (pre ++ flat_map enc l) ++ repeat 0 (n - length (flat_map enc l))).
Proof.
  induction l as [|x l IH]; intros HF pre n Hn; [cbn [loop flat_map length]; rewrite app_nil_r, Nat.add_0_r, Nat.sub_0_r; reflexivity|].
  cbn [loop flat_map] in *. rewrite app_length in *. rewrite HF by (try (left; reflexivity); lia). cbn [bind].
  rewrite <- app_length. rewrite IH by (try (intros; apply HF; [right; assumption|assumption]); lia). rewrite !app_length. f_equal. f_equal; [lia|].
  rewrite <- !app_assoc. do 4 f_equal. lia.
Qed.
Lemma read_list {A} (f : bytes -> res (nat * A)) (enc : A -> bytes) (l : list A) pre tail : (forall x, In x l -> reads f (enc x) x) ->
  decode_list f (length l) (pre ++ flat_map enc l ++ tail) (length pre) = Ret ((length pre + length (flat_map enc l))%nat, l).
Proof.
  intros H. unfold decode_list.
  assert (G : forall l2 l1, l = l1 ++ l2 -> forall s,
    loop (fun '(pointer, l) (_ : nat) => let* '(pointer, x) := read_at f (pre ++ flat_map enc (l1 ++ l2) ++ tail) pointer in Ret (pointer, l ++ [x])) (seq s (length l2)) ((length pre + length (flat_map enc l1))%nat, l1) =
    Ret ((length pre + length (flat_map enc (l1 ++ l2)))%nat, l1 ++ l2)).
  { induction l2 as [|x l2 IH]; intros l1 E s; [cbn [length seq loop]; rewrite app_nil_r; reflexivity|]. cbn [length seq loop].
    rewrite flat_map_app at 1. cbn [flat_map]. rewrite <- !app_assoc. rewrite (app_assoc pre). rewrite <- app_length.
    rewrite (read_at_ok f (enc x) x) by (apply H; rewrite E; apply in_or_app; right; left; reflexivity). cbn [bind].
    specialize (IH (l1 ++ [x]) ltac:(rewrite <- app_assoc; exact E) (S s)). rewrite <- !app_assoc in IH. cbn [app] in IH.
    rewrite (flat_map_app enc l1 [x]) in IH. cbn [flat_map] in IH. rewrite app_nil_r in IH. rewrite !app_length in IH |- *. rewrite <- Nat.add_assoc. exact IH. }
  specialize (G l [] eq_refl 0%nat). cbn [flat_map app length] in G. rewrite Nat.add_0_r in G. exact G.
Qed.

Lemma poly_writes p : fits_poly 8 p -> writes (WriteTo p) (poly_bytes 8 p).
Proof. intros H n Hn. exact (write_zeros 8 p n H Hn). Qed.
Lemma poly_reads p : fits_poly 8 p -> reads (DecodePolyNew newPoly) (poly_bytes 8 p) p.
Proof. intros H tail. exact (decode_new 8 p tail H). Qed.
Lemma poly_len p : fits_poly 8 p -> data_len 8 true p = Ret (length (poly_bytes 8 p)).
Proof. intros H. rewrite (poly_bytes_length 8 p H). apply data_len_ok. destruct H; lia. Qed.

(** ** Pairs of polynomials *)
Lemma qp_len p : fits_qp p -> qp_data_len true p = Ret (length (qp_bytes p)).
Proof.
  intros [H1 H2]. unfold qp_data_len, qp_bytes. destruct (qpQ p) as [q|], (qpP p) as [r|]; cbn [fits_opt opt mark] in *; rewrite ?poly_len by assumption;
    cbn [bind]; rewrite !app_length; cbn [length]; f_equal; lia.
Qed.
Lemma qp_writes p : fits_qp p -> writes (qp_write_to p) (qp_bytes p).
Proof.
  intros [H1 H2] n Hn. unfold qp_bytes in *. destruct n as [|[|n]]; [cbn in Hn; lia..|]. cbn [repeat]. unfold qp_write_to.
  assert (E1 : forall b c l, put (b :: l) 0 [c] = Ret (c :: l)) by reflexivity.
  assert (E2 : forall a b c l, put (a :: b :: l) 1 [c] = Ret (a :: c :: l)) by reflexivity.
  cbn [app length] in Hn. rewrite app_length in Hn.
  pose proof (fun q m hdr => write_at_ok (WriteTo q) (poly_bytes 8 q) hdr m) as WA.
  destruct (qpQ p) as [q|], (qpP p) as [r|]; cbn [fits_opt opt mark bind] in *; rewrite ?E1, ?E2; cbn [bind]; rewrite ?E2; cbn [bind index nth_error];
    change (0 =? 1) with false; change (1 =? 1) with true; cbn [bind]; rewrite ?app_nil_r in *; cbn [length] in *.
  - pose proof (WA q n [1; 1] (poly_writes q H1) ltac:(lia)) as A. cbn [app length] in A. rewrite A. cbn [bind index nth_error]. change (1 =? 1) with true.
    pose proof (WA r (n - length (poly_bytes 8 q))%nat ([1; 1] ++ poly_bytes 8 q) (poly_writes r H2) ltac:(lia)) as B. cbn [app length] in B. cbn [app Nat.add] in *.
    rewrite B. rewrite <- !app_assoc. cbn [length Nat.sub]. rewrite !app_length. f_equal. f_equal. do 5 f_equal. lia.
  - pose proof (WA q n [1; 0] (poly_writes q H1) ltac:(lia)) as A. cbn [app length] in A. rewrite A. reflexivity.
  - pose proof (WA r n [0; 1] (poly_writes r H2) ltac:(lia)) as A. cbn [app length] in A. rewrite A. reflexivity.
  - cbn [app length Nat.sub]; rewrite ?Nat.sub_0_r; reflexivity.
Qed.
Lemma qp_reads_onto t p : fits_qp p ->
  reads (qp_decode t) (qp_bytes p) (mkQP (match qpQ p with Some q => Some q | None => qpQ t end) (match qpP p with Some q => Some q | None => qpP t end)).
Proof.
  intros [H1 H2] tail. unfold qp_bytes, qp_decode.
  destruct (qpQ p) as [q|], (qpP p) as [r|]; cbn [fits_opt opt mark bind app index nth_error] in *; change (0 =? 1) with false; change (1 =? 1) with true; rewrite ?app_nil_r.
  - rewrite <- app_assoc. pose proof (read_at_ok _ _ _ [1; 1] (poly_bytes 8 r ++ tail) (poly_reads q H1)) as A. cbn [app length] in A. rewrite A. cbn [bind Nat.add].
    pose proof (read_at_ok _ _ _ ([1; 1] ++ poly_bytes 8 q) tail (poly_reads r H2)) as B. rewrite <- app_assoc in B. cbn [app length Nat.add] in B. rewrite B. cbn [bind].
    cbn [length]. rewrite ?app_length. reflexivity.
  - pose proof (read_at_ok _ _ _ [1; 0] tail (poly_reads q H1)) as A. cbn [app length] in A. rewrite A. reflexivity.
  - pose proof (read_at_ok _ _ _ [0; 1] tail (poly_reads r H2)) as A. cbn [app length bind] in A |- *. rewrite A. reflexivity.
  - reflexivity.
Qed.
Lemma qp_reads p : fits_qp p -> reads (qp_decode newQP) (qp_bytes p) p.
Proof. intros H. pose proof (qp_reads_onto newQP p H) as R. destruct p as [[q|] [r|]]; exact R. Qed.
Lemma full_fits p : full_qp p -> fits_qp p.
Proof. intros (q & r & -> & H1 & H2). split; assumption. Qed.
Lemma full_reads t p : full_qp p -> reads (qp_decode t) (qp_bytes p) p.
Proof. intros H. pose proof (qp_reads_onto t p (full_fits p H)) as R. destruct H as (q & r & -> & _). exact R. Qed.

Lemma sk_round_trip sk tail : fits_qp sk -> sk_marshal sk = Ret (qp_bytes sk) /\ sk_unmarshal newQP (qp_bytes sk ++ tail) = Ret sk.
Proof.
  intros H. split.
  - unfold sk_marshal. rewrite (qp_len sk H). cbn [bind]. rewrite (qp_writes sk H _ (Nat.le_refl _)). cbn [bind]. rewrite Nat.sub_diag. cbn [repeat]. rewrite app_nil_r. reflexivity.
  - unfold sk_unmarshal. rewrite (qp_reads sk H tail). reflexivity.
Qed.
Lemma pk_round_trip p0 p1 tail : fits_qp p0 -> fits_qp p1 ->
  pk_marshal (p0, p1) = Ret (qp_bytes p0 ++ qp_bytes p1) /\ pk_unmarshal (newQP, newQP) ((qp_bytes p0 ++ qp_bytes p1) ++ tail) = Ret (p0, p1).
Proof.
  intros H0 H1. split.
  - unfold pk_marshal. cbn [fst snd]. rewrite (qp_len p0 H0), (qp_len p1 H1). cbn [bind].
    pose proof (write_at_ok _ _ [] (length (qp_bytes p0) + length (qp_bytes p1)) (qp_writes p0 H0) ltac:(lia)) as A. cbn [app length Nat.add] in A. rewrite A. cbn [bind].
    rewrite (write_at_ok _ _ (qp_bytes p0) _ (qp_writes p1 H1)) by lia. cbn [bind].
    replace (length (qp_bytes p0) + length (qp_bytes p1) - length (qp_bytes p0) - length (qp_bytes p1))%nat with 0%nat by lia. cbn [repeat]. rewrite app_nil_r. reflexivity.
  - unfold pk_unmarshal. cbn [fst snd]. rewrite <- app_assoc.
    pose proof (read_at_ok _ _ _ [] (qp_bytes p1 ++ tail) (qp_reads p0 H0)) as A. cbn [app length Nat.add] in A. rewrite A. cbn [bind].
    rewrite (read_at_ok _ _ _ (qp_bytes p0) tail (qp_reads p1 H1)). reflexivity.
Qed.

(** ** Ciphertexts *)
Lemma sum_len_ok {A} (f : A -> res nat) (enc : A -> bytes) l : (forall x, In x l -> f x = Ret (length (enc x))) -> sum_len f l = Ret (length (flat_map enc l)).
Proof.
  intros H. unfold sum_len. assert (G : forall l n, (forall x, In x l -> f x = Ret (length (enc x))) -> loop (fun n x => let* m := f x in Ret (n + m)%nat) l n = Ret (n + length (flat_map enc l))%nat).
  { clear. induction l as [|x l IH]; intros n H; [cbn; f_equal; lia|]. cbn [loop flat_map]. rewrite H by (left; reflexivity). cbn [bind]. rewrite IH by (intros; apply H; right; assumption).
    rewrite app_length. f_equal. lia. }
  rewrite G by exact H. reflexivity.
Qed.
Lemma byte_small n : (n <= 255)%nat -> byte (Z.of_nat n) = Z.of_nat n.
Proof. intros H. unfold byte. apply Z.mod_small. lia. Qed.
Lemma fits_ct_poly v x : fits_ct v -> In x v -> fits_poly 8 x.
Proof. intros [_ H] Hx. exact (proj1 (Forall_forall _ _) H x Hx). Qed.

Lemma ct_marshal_ok v : fits_ct v -> ct_marshal v = Ret (ct_bytes v) /\ ct_data_len true v = Ret (length (ct_bytes v)).
Proof.
  intros H. assert (HL : ct_data_len true v = Ret (length (ct_bytes v))).
  { unfold ct_data_len, ct_bytes. rewrite (sum_len_ok _ (poly_bytes 8)) by (intros x Hx; apply poly_len; exact (fits_ct_poly v x H Hx)). reflexivity. }
  split; [|exact HL]. unfold ct_marshal. rewrite HL. cbn [bind ct_bytes length repeat]. unfold put. cbn [length Nat.add Nat.leb firstn app skipn]. cbn [bind].
  rewrite byte_small by (destruct H; lia). 
  pose proof (write_list (fun el pointer data => write_at (WriteTo el) data pointer) (poly_bytes 8) v) as A.
  specialize (A ltac:(intros x pre n Hx Hn; apply write_at_ok; [apply poly_writes; exact (fits_ct_poly v x H Hx)|exact Hn]) [Z.of_nat (length v)] _ (Nat.le_refl _)).
  cbn [length app] in A. rewrite A. cbn [bind]. rewrite Nat.sub_diag. cbn [repeat]. rewrite app_nil_r. reflexivity.
Qed.
Lemma poly_bytes_min p : fits_poly 8 p -> (12 <= length (poly_bytes 8 p))%nat.
Proof.
  intros H. rewrite (poly_bytes_length 8 p H). destruct (fits_rows 8 p H) as (N & k & _ & EN & LN & HR & _). rewrite LN, EN.
  pose proof (Nat.pow_nonzero 2 k). nia.
Qed.
Lemma ct_bytes_min v : fits_ct v -> (13 <= length (ct_bytes v))%nat.
Proof.
  intros H. unfold ct_bytes. cbn [length]. destruct v as [|x v]; [destruct H as [[] _]; cbn in *; lia|]. cbn [flat_map]. rewrite app_length.
  pose proof (poly_bytes_min x (fits_ct_poly _ x H (or_introl eq_refl))). lia.
Qed.
Lemma ct_unmarshal_ok v tail : fits_ct v -> ct_unmarshal (ct_bytes v ++ tail) = match tail with [] => Ret v | _ => Fail end.
Proof.
  intros H. unfold ct_unmarshal. pose proof (ct_bytes_min v H) as M. rewrite (proj2 (Nat.ltb_ge _ _)) by (rewrite app_length; lia).
  unfold ct_bytes at 1. cbn [app index nth_error bind]. rewrite Nat2Z.id. unfold ct_bytes.
  pose proof (read_list (DecodePolyNew newPoly) (poly_bytes 8) v [Z.of_nat (length v)] tail) as A.
  specialize (A ltac:(intros x Hx; apply poly_reads; exact (fits_ct_poly v x H Hx))). cbn [app length] in A |- *. rewrite A. cbn [bind]. rewrite app_length.
  destruct tail; [rewrite (proj2 (Nat.eqb_eq _ _)) by (cbn [length]; lia); reflexivity|]. rewrite (proj2 (Nat.eqb_neq _ _)) by (cbn [length]; lia). reflexivity.
Qed.
