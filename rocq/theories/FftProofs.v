(** The transforms of Fft.v: positions of the values, for any operations. *)
From Coq Require Import ZArith List Lia Bool Arith.
Import ListNotations.
From Verif Require Import Word Ring RingProofs NTT NTTProofs Fft.
Local Open Scope nat_scope.

(** ** Bit reversal *)
Lemma brvn_even L i : brvn (S L) (2 * i) = brvn L i.
Proof. apply Nat2Z.inj. rewrite !brvn_Z. apply rev_bits_even. Qed.
Lemma brvn_odd L i : brvn (S L) (2 * i + 1) = 2 ^ L + brvn L i.
Proof. apply Nat2Z.inj. rewrite Nat2Z.inj_add, !brvn_Z, two_pow_nat. apply rev_bits_odd. Qed.

Lemma div2_pow L : Nat.div2 (2 ^ S L) = 2 ^ L.
Proof. rewrite Nat.pow_succ_r'. apply Nat.div2_double. Qed.

Lemma rev_next_spec L : forall fuel i, L < fuel -> S i < 2 ^ L -> rev_next fuel (brvn L i) (Nat.div2 (2 ^ L)) = brvn L (S i).
Proof.
  induction L as [|L IH]; intros fuel i Hf Hi; [cbn in Hi; lia|]. destruct fuel as [|f]; [lia|].
  rewrite div2_pow. cbn [rev_next]. rewrite Nat.pow_succ_r' in Hi.
  destruct (Nat.Even_or_Odd i) as [[c Hc]|[c Hc]].
  - subst i. rewrite brvn_even. assert (B := brvn_lt L c). destruct (Nat.leb_spec (2 ^ L) (brvn L c)); [lia|].
    replace (S (2 * c)) with (2 * c + 1) by lia. rewrite brvn_odd. lia.
  - subst i. rewrite brvn_odd. destruct (Nat.leb_spec (2 ^ L) (2 ^ L + brvn L c)); [|lia].
    replace (2 ^ L + brvn L c - 2 ^ L) with (brvn L c) by lia. replace (S (2 * c + 1)) with (2 * (S c)) by lia.
    rewrite brvn_even. apply IH; lia.
Qed.

Lemma skipn_skipn' {A} n m (l : list A) : skipn n (skipn m l) = skipn (m + n) l.
Proof. revert l. induction m as [|m IH]; intros l; [reflexivity|]. destruct l; [rewrite !skipn_nil; reflexivity|]. cbn [skipn Nat.add]. apply IH. Qed.

  Lemma pow_half l : 0 < l -> 2 ^ l = 2 * 2 ^ (l - 1).
  Proof. intros H. destruct l as [|l]; [lia|]. rewrite Nat.pow_succ_r'. cbn. rewrite Nat.sub_0_r. lia. Qed.
  (** Every position is in one half of one block. *)
  Lemma position l k cnt : 0 < l -> k < cnt * 2 ^ l -> exists b j, b < cnt /\ j < 2 ^ (l - 1) /\ (k = b * 2 ^ l + j \/ k = b * 2 ^ l + (2 ^ (l - 1) + j)).
  Proof.
    intros Hl Hk. assert (P := pow2n_pos l). assert (E := pow_half l Hl). assert (D := Nat.div_mod k (2 ^ l) ltac:(lia)).
    assert (M := Nat.mod_upper_bound k (2 ^ l) ltac:(lia)). set (b := k / 2 ^ l) in *. set (j := k mod 2 ^ l) in *. clearbody b j.
    assert (b < cnt) by nia.
    destruct (Nat.lt_ge_cases j (2 ^ (l - 1))) as [H1|H1].
    - exists b, j. split; [assumption|]. split; [assumption|]. left. lia.
    - exists b, (j - 2 ^ (l - 1)). split; [assumption|]. split; [lia|]. right. lia.
  Qed.

Section Slices.
  Context {T : Type}.
  Variable zero : T.
  Notation nth k l := (List.nth k l zero).

  Lemma set_nth_length i x (l : list T) : i < length l -> length (set_nth i x l) = length l.
  Proof. intros H. unfold set_nth. rewrite app_length, firstn_length. cbn [length]. rewrite skipn_length. lia. Qed.
  Lemma set_nth_nth i x (l : list T) k : i < length l -> nth k (set_nth i x l) = if Nat.eqb k i then x else nth k l.
  Proof.
    intros H. unfold set_nth. destruct (Nat.eqb_spec k i) as [->|Hk].
    - rewrite app_nth2; rewrite firstn_length, Nat.min_l by lia; [|lia]. rewrite Nat.sub_diag. reflexivity.
    - destruct (Nat.lt_ge_cases k i).
      + rewrite app_nth1 by (rewrite firstn_length; lia). apply nth_firstn. exact H0.
      + rewrite app_nth2; rewrite firstn_length, Nat.min_l by lia; [|lia]. replace (k - i) with (S (k - S i)) by lia.
        cbn [List.nth]. rewrite nth_skipn. f_equal. lia.
  Qed.
  Lemma swap_length i j (l : list T) : i < length l -> j < length l -> length (swap zero i j l) = length l.
  Proof. intros Hi Hj. unfold swap. rewrite set_nth_length; rewrite set_nth_length; auto. Qed.
  Lemma swap_nth i j (l : list T) k : i < length l -> j < length l ->
    nth k (swap zero i j l) = if Nat.eqb k j then nth i l else if Nat.eqb k i then nth j l else nth k l.
  Proof. intros Hi Hj. unfold swap. rewrite set_nth_nth by (rewrite set_nth_length; auto). rewrite set_nth_nth by exact Hi. reflexivity. Qed.

  Lemma reverse_loop L l cnt : 2 ^ L <= length l -> cnt < 2 ^ L -> forall cur, length cur = length l ->
    (forall k, nth k cur = if Nat.ltb k (2 ^ L) && (Nat.ltb k (2 ^ L - cnt) || Nat.ltb (brvn L k) (2 ^ L - cnt)) then nth (brvn L k) l else nth k l) ->
    let out := bit_reverse_loop zero cnt (2 ^ L) (brvn L (2 ^ L - S cnt)) cur in
    length out = length l /\ forall k, nth k out = if Nat.ltb k (2 ^ L) then nth (brvn L k) l else nth k l.
  Proof.
    intros HL. induction cnt as [|c IH]; intros Hc cur Hlen Hcur out.
    - split; [exact Hlen|]. intros k. unfold out. cbn [bit_reverse_loop]. rewrite Hcur, Nat.sub_0_r. destruct (Nat.ltb_spec k (2 ^ L)); reflexivity.
    - unfold out. cbn [bit_reverse_loop]. set (i := 2 ^ L - S c). assert (P : L < 2 ^ L) by (apply Nat.pow_gt_lin_r; lia).
      rewrite rev_next_spec by lia. replace (S (2 ^ L - S (S c))) with i by (unfold i; lia). set (j := brvn L i).
      assert (Hi : i < 2 ^ L) by (unfold i; lia). assert (Hj : j < 2 ^ L) by apply brvn_lt.
      assert (Ej : brvn L j = i) by (apply brvn_invol; exact Hi).
      apply IH; [lia| |].
      + destruct (Nat.ltb i j); [rewrite swap_length by lia|]; exact Hlen.
      + replace (2 ^ L - c) with (S i) by (unfold i; lia). fold i in Hcur.
        assert (Hs : forall k, k < 2 ^ L -> k <> i -> k <> j -> (Nat.ltb k (S i) || Nat.ltb (brvn L k) (S i)) = (Nat.ltb k i || Nat.ltb (brvn L k) i)).
        { intros k Hk H1 H2. assert (brvn L k <> i). { intros E. apply H2. rewrite <- (brvn_invol L k Hk), E. reflexivity. }
          destruct (Nat.ltb_spec k (S i)), (Nat.ltb_spec k i), (Nat.ltb_spec (brvn L k) (S i)), (Nat.ltb_spec (brvn L k) i); cbn; try reflexivity; lia. }
        intros k. destruct (Nat.ltb_spec k (2 ^ L)) as [Hk|Hk]; cbn [andb].
        * destruct (Nat.ltb_spec i j) as [Hij|Hij].
          -- rewrite swap_nth by lia. destruct (Nat.eqb_spec k j) as [->|Hkj].
             { rewrite Ej. rewrite (proj2 (Nat.ltb_lt i (S i))) by lia. rewrite orb_true_r. rewrite Hcur. fold j.
               rewrite (proj2 (Nat.ltb_ge i i)), (proj2 (Nat.ltb_ge j i)) by lia. rewrite andb_false_r. reflexivity. }
             destruct (Nat.eqb_spec k i) as [->|Hki].
             { rewrite (proj2 (Nat.ltb_lt i (S i))) by lia. cbn [orb]. fold j. rewrite Hcur, Ej.
               rewrite (proj2 (Nat.ltb_ge i i)), (proj2 (Nat.ltb_ge j i)) by lia. rewrite andb_false_r. reflexivity. }
             rewrite Hcur, (Hs k Hk Hki Hkj). rewrite (proj2 (Nat.ltb_lt k (2 ^ L)) Hk). reflexivity.
          -- rewrite Hcur, (proj2 (Nat.ltb_lt k (2 ^ L)) Hk). cbn [andb]. destruct (Nat.eq_dec k i) as [->|Hki].
             { fold j. rewrite (proj2 (Nat.ltb_lt i (S i))) by lia. cbn [orb]. rewrite (proj2 (Nat.ltb_ge i i)) by lia. cbn [orb].
               destruct (Nat.ltb_spec j i); [reflexivity|]. replace j with i by lia. reflexivity. }
             destruct (Nat.eq_dec k j) as [->|Hkj].
             { rewrite Ej. rewrite (proj2 (Nat.ltb_lt i (S i))) by lia. rewrite orb_true_r. rewrite (proj2 (Nat.ltb_lt j i)) by lia. reflexivity. }
             rewrite (Hs k Hk Hki Hkj). reflexivity.
        * destruct (Nat.ltb_spec i j); [rewrite swap_nth by lia; destruct (Nat.eqb_spec k j), (Nat.eqb_spec k i); try lia|];
            rewrite Hcur; rewrite (proj2 (Nat.ltb_ge k (2 ^ L)) Hk); reflexivity.
  Qed.

  Lemma bit_reverse L (l : list T) : 2 ^ L <= length l ->
    length (SliceBitReverseInPlace zero l (2 ^ L)) = length l /\
    forall k, nth k (SliceBitReverseInPlace zero l (2 ^ L)) = if Nat.ltb k (2 ^ L) then nth (brvn L k) l else nth k l.
  Proof.
    intros HL. unfold SliceBitReverseInPlace. assert (P := pow2n_pos L).
    pose proof (reverse_loop L l (2 ^ L - 1) HL ltac:(lia) l eq_refl) as H. replace (2 ^ L - S (2 ^ L - 1)) with 0 in H by lia. rewrite brvn_0 in H.
    apply H. intros k. replace (2 ^ L - (2 ^ L - 1)) with 1 by lia. destruct (Nat.ltb_spec k (2 ^ L)); cbn [andb]; [|reflexivity].
    destruct (Nat.ltb_spec k 1) as [H1|H1]; cbn [orb].
    - replace k with 0 by lia. rewrite brvn_0. reflexivity.
    - destruct (Nat.ltb_spec (brvn L k) 1) as [H2|H2]; [|reflexivity]. exfalso. assert (E : brvn L k = 0) by lia.
      assert (k = 0); [|lia]. rewrite <- (brvn_invol L k), E, brvn_0 by assumption. reflexivity.
  Qed.

  (** ** Blocks *)
  Lemma on_blocks_length cnt len f : (forall b : list T, length b = len -> length (f b) = len) ->
    forall xs, cnt * len <= length xs -> length (on_blocks cnt len f xs) = length xs.
  Proof.
    intros Hf. induction cnt as [|c IH]; intros xs Hx; [reflexivity|]. cbn [on_blocks]. rewrite app_length, Hf by (rewrite firstn_length; lia).
    rewrite IH; rewrite skipn_length; lia.
  Qed.
  Lemma on_blocks_nth cnt len f : (forall b : list T, length b = len -> length (f b) = len) ->
    forall xs, cnt * len <= length xs -> forall b j, b < cnt -> j < len ->
    nth (b * len + j) (on_blocks cnt len f xs) = nth j (f (firstn len (skipn (b * len) xs))).
  Proof.
    intros Hf. induction cnt as [|c IH]; intros xs Hx b j Hb Hj; [lia|]. cbn [on_blocks].
    assert (Hl : length (f (firstn len xs)) = len) by (apply Hf; rewrite firstn_length; lia).
    destruct b as [|b].
    - rewrite app_nth1 by lia. reflexivity.
    - rewrite app_nth2 by lia. rewrite Hl. replace (S b * len + j - len) with (b * len + j) by lia.
      rewrite IH; [|rewrite skipn_length; lia|lia|exact Hj]. rewrite skipn_skipn'. reflexivity.
  Qed.
  Lemma on_blocks_keep cnt len f : (forall b : list T, length b = len -> length (f b) = len) ->
    forall xs, cnt * len <= length xs -> forall k, cnt * len <= k -> nth k (on_blocks cnt len f xs) = nth k xs.
  Proof.
    intros Hf. induction cnt as [|c IH]; intros xs Hx k Hk; [reflexivity|]. cbn [on_blocks].
    assert (Hl : length (f (firstn len xs)) = len) by (apply Hf; rewrite firstn_length; lia).
    rewrite app_nth2 by lia. rewrite Hl, IH; [|rewrite skipn_length; lia|lia]. rewrite nth_skipn. f_equal. lia.
  Qed.

  Variables (add sub mul : T -> T -> T).
  Lemma fft_block_length lenh w (b : list T) : length b = 2 * lenh -> length (fft_block add sub mul lenh w b) = 2 * lenh.
  Proof. intros H. unfold fft_block. rewrite app_length, !map2_length, firstn_length, skipn_length, seq_length. lia. Qed.
  Lemma ifft_block_length lenh w (b : list T) : length b = 2 * lenh -> length (ifft_block add sub mul lenh w b) = 2 * lenh.
  Proof. intros H. unfold ifft_block. rewrite app_length, !map2_length, firstn_length, skipn_length, seq_length. lia. Qed.
  Lemma fft_block_nth lenh w (b : list T) j : length b = 2 * lenh -> j < lenh ->
    nth j (fft_block add sub mul lenh w b) = add (nth j b) (mul (nth (lenh + j) b) (w j)) /\
    nth (lenh + j) (fft_block add sub mul lenh w b) = sub (nth j b) (mul (nth (lenh + j) b) (w j)).
  Proof.
    intros H Hj. unfold fft_block. set (lo := firstn lenh b). set (hi := map2 (fun x j => mul x (w j)) (skipn lenh b) (seq 0 lenh)).
    assert (L1 : length lo = lenh) by (unfold lo; rewrite firstn_length; lia).
    assert (L2 : length hi = lenh) by (unfold hi; rewrite map2_length, skipn_length, seq_length; lia).
    assert (N1 : nth j lo = nth j b) by (apply nth_firstn; exact Hj).
    assert (N2 : nth j hi = mul (nth (lenh + j) b) (w j)).
    { unfold hi. rewrite (nth_map2 _ _ _ _ _ zero 0) by (rewrite ?skipn_length, ?seq_length; lia). rewrite nth_skipn, seq_nth by exact Hj. reflexivity. }
    split.
    - rewrite app_nth1 by (rewrite map2_length; lia). rewrite (nth_map2 _ _ _ _ _ zero zero) by lia. rewrite N1, N2. reflexivity.
    - rewrite app_nth2 by (rewrite map2_length; lia). rewrite map2_length, L1, L2, Nat.min_id. replace (lenh + j - lenh) with j by lia.
      rewrite (nth_map2 _ _ _ _ _ zero zero) by lia. rewrite N1, N2. reflexivity.
  Qed.
  Lemma ifft_block_nth lenh w (b : list T) j : length b = 2 * lenh -> j < lenh ->
    nth j (ifft_block add sub mul lenh w b) = add (nth j b) (nth (lenh + j) b) /\
    nth (lenh + j) (ifft_block add sub mul lenh w b) = mul (sub (nth j b) (nth (lenh + j) b)) (w j).
  Proof.
    intros H Hj. unfold ifft_block. set (lo := firstn lenh b). set (hi := skipn lenh b).
    assert (L1 : length lo = lenh) by (unfold lo; rewrite firstn_length; lia).
    assert (L2 : length hi = lenh) by (unfold hi; rewrite skipn_length; lia).
    assert (N1 : nth j lo = nth j b) by (apply nth_firstn; exact Hj).
    assert (N2 : nth j hi = nth (lenh + j) b) by (unfold hi; rewrite nth_skipn; reflexivity).
    split.
    - rewrite app_nth1 by (rewrite map2_length; lia). rewrite (nth_map2 _ _ _ _ _ zero zero) by lia. rewrite N1, N2. reflexivity.
    - rewrite app_nth2 by (rewrite map2_length; lia). rewrite map2_length, L1, L2, Nat.min_id. replace (lenh + j - lenh) with j by lia.
      rewrite (nth_map2 _ _ _ _ _ zero 0) by (rewrite ?map2_length, ?seq_length; lia). rewrite (nth_map2 _ _ _ _ _ zero zero) by lia. rewrite N1, N2, seq_nth by exact Hj. reflexivity.
  Qed.

  Lemma block_nth len b (xs : list T) k : k < len -> nth k (firstn len (skipn (b * len) xs)) = nth (b * len + k) xs.
  Proof. intros Hk. rewrite nth_firstn by exact Hk. rewrite nth_skipn. reflexivity. Qed.

  (** One round, on [cnt] blocks. *)
  Variables (logM : nat) (rot : list Z) (roots : list T).
  Lemma fft_round_spec cnt l xs : 0 < l -> cnt * 2 ^ l <= length xs ->
    let w := root_at zero false logM l rot roots in let h := 2 ^ (l - 1) in
    let out := fft_round add sub mul zero (cnt * 2 ^ l) logM l rot roots xs in
    length out = length xs /\ (forall k, cnt * 2 ^ l <= k -> nth k out = nth k xs) /\
    forall b j, b < cnt -> j < h ->
      nth (b * 2 ^ l + j) out = add (nth (b * 2 ^ l + j) xs) (mul (nth (b * 2 ^ l + (h + j)) xs) (w j)) /\
      nth (b * 2 ^ l + (h + j)) out = sub (nth (b * 2 ^ l + j) xs) (mul (nth (b * 2 ^ l + (h + j)) xs) (w j)).
  Proof.
    intros Hl Hx w h out. assert (E : 2 ^ l = 2 * h) by (apply pow_half; exact Hl). assert (P := pow2n_pos l).
    unfold out, fft_round. rewrite Nat.div_mul by lia. fold h w.
    assert (Hf : forall b, length b = 2 ^ l -> length (fft_block add sub mul h w b) = 2 ^ l) by (rewrite E; apply fft_block_length).
    split; [apply on_blocks_length; assumption|]. split; [intros k Hk; apply on_blocks_keep; assumption|].
    intros b j Hb Hj. rewrite !on_blocks_nth by (try assumption; lia). destruct (fft_block_nth h w (firstn (2 ^ l) (skipn (b * 2 ^ l) xs)) j) as [E1 E2].
    - rewrite <- E. rewrite firstn_length, skipn_length. nia.
    - exact Hj.
    - rewrite E1, E2, !block_nth by lia. split; reflexivity.
  Qed.
  Lemma ifft_round_spec cnt l xs : 0 < l -> cnt * 2 ^ l <= length xs ->
    let w := root_at zero true logM l rot roots in let h := 2 ^ (l - 1) in
    let out := ifft_round add sub mul zero (cnt * 2 ^ l) logM l rot roots xs in
    length out = length xs /\ (forall k, cnt * 2 ^ l <= k -> nth k out = nth k xs) /\
    forall b j, b < cnt -> j < h ->
      nth (b * 2 ^ l + j) out = add (nth (b * 2 ^ l + j) xs) (nth (b * 2 ^ l + (h + j)) xs) /\
      nth (b * 2 ^ l + (h + j)) out = mul (sub (nth (b * 2 ^ l + j) xs) (nth (b * 2 ^ l + (h + j)) xs)) (w j).
  Proof.
    intros Hl Hx w h out. assert (E : 2 ^ l = 2 * h) by (apply pow_half; exact Hl). assert (P := pow2n_pos l).
    unfold out, ifft_round. rewrite Nat.div_mul by lia. fold h w.
    assert (Hf : forall b, length b = 2 ^ l -> length (ifft_block add sub mul h w b) = 2 ^ l) by (rewrite E; apply ifft_block_length).
    split; [apply on_blocks_length; assumption|]. split; [intros k Hk; apply on_blocks_keep; assumption|].
    intros b j Hb Hj. rewrite !on_blocks_nth by (try assumption; lia). destruct (ifft_block_nth h w (firstn (2 ^ l) (skipn (b * 2 ^ l) xs)) j) as [E1 E2].
    - rewrite <- E. rewrite firstn_length, skipn_length. nia.
    - exact Hj.
    - rewrite E1, E2, !block_nth by lia. split; reflexivity.
  Qed.
End Slices.

(** ** The table of the powers of 5 *)
Lemma five_pows_nth m : forall cnt x j, (0 <= x < 2 ^ Z.of_nat m)%Z -> j < cnt ->
  nth j (five_pows cnt x (2 ^ Z.of_nat m)) 0%Z = ((x * 5 ^ Z.of_nat j) mod 2 ^ Z.of_nat m)%Z.
Proof.
  induction cnt as [|c IH]; intros x j Hx Hj; [lia|]. cbn [five_pows]. destruct j as [|j].
  - cbn [nth]. change (5 ^ Z.of_nat 0)%Z with 1%Z. rewrite Z.mul_1_r, Z.mod_small by exact Hx. reflexivity.
  - cbn [nth]. replace (2 ^ Z.of_nat m - 1)%Z with (Z.ones (Z.of_nat m)) by (rewrite Z.ones_equiv; lia).
    rewrite Z.land_ones by lia. rewrite IH by (try lia; apply Z.mod_pos_bound; apply Z.pow_pos_nonneg; lia).
    rewrite Z.mul_mod_idemp_l by (apply Z.pow_nonzero; lia). f_equal. rewrite Nat2Z.inj_succ, Z.pow_succ_r by lia. ring.
Qed.
Lemma five_pows_length cnt : forall x m, length (five_pows cnt x m) = cnt.
Proof. induction cnt as [|c IH]; intros x m; [reflexivity|]. cbn [five_pows length]. rewrite IH. reflexivity. Qed.
Lemma rotGroup_nth m j : j < 2 ^ m -> nth j (rotGroup (2 ^ (m + 2))) 0%Z = (5 ^ Z.of_nat j mod 2 ^ Z.of_nat (m + 2))%Z.
Proof.
  intros Hj. unfold rotGroup. rewrite Nat.shiftr_div_pow2. rewrite Nat.pow_add_r. rewrite Nat.div_mul by (cbn; lia).
  rewrite app_nth1 by (rewrite five_pows_length; exact Hj). rewrite <- Nat.pow_add_r, two_pow_nat, five_pows_nth, Z.mul_1_l; [reflexivity| |exact Hj].
  split; [lia|]. apply Z.pow_gt_1; lia.
Qed.
