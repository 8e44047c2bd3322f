(** The ternary sampler with a given Hamming weight. *)
From Coq Require Import Permutation Znumtheory.
From Verif Require Import Word Arith ModRed ModRedProofs Ring RingProofs NTTProofs RingOps RNSSpec Codec CodecSpec CodecProofs CodecTop Sampler SamplerSpec SamplerProofs SamplerTop SparseProofs.

Lemma next_bit {A} (l : list A) i : (if Nat.eqb (S (i mod 8)) 8 then (tl (skipn (i / 8) l), 0%nat) else (skipn (i / 8) l, S (i mod 8))) = (skipn (S i / 8) l, (S i mod 8)%nat).
Proof.
  pose proof (Nat.div_mod i 8 ltac:(lia)) as DM. pose proof (Nat.mod_upper_bound i 8 ltac:(lia)) as UB. set (d := (i / 8)%nat) in *. set (m := (i mod 8)%nat) in *. clearbody d m. destruct (Nat.eqb_spec (S m) 8) as [E|E].
  - assert (ED : (S i / 8)%nat = S d) by (symmetry; apply (Nat.div_unique _ _ _ 0); lia). assert (EM : (S i mod 8)%nat = 0%nat) by (symmetry; apply (Nat.mod_unique _ _ (S d)); lia).
    rewrite ED, EM. f_equal. clear. revert l. induction d as [|d IH]; intros [|x l]; try reflexivity. cbn [skipn] in *. apply IH.
  - assert (ED : (S i / 8)%nat = d) by (symmetry; apply (Nat.div_unique _ _ _ (S m)); lia). assert (EM : (S i mod 8)%nat = S m) by (symmetry; apply (Nat.mod_unique _ _ d); lia). rewrite ED, EM. reflexivity.
Qed.
Definition bounds_from (N i0 h : nat) : list (Z * Z) := map (fun i => (2 ^ Len64 (Z.of_nat (N - i)) - 1, Z.of_nat (N - i))) (seq i0 h).
Definition sign_values (rb : bytes) (i0 h : nat) : list nat := map (fun t => (Z.to_nat (bit_of rb t) + 1)%nat) (seq i0 h).
Lemma index_ok {A} (l : list A) i d : (i < length l)%nat -> Codec.index l i = Ret (nth i l d).
Proof. intros H. unfold Codec.index. rewrite (nth_error_nth' l d H). reflexivity. Qed.
Lemma index_skipn (rb : bytes) d : (d < length rb)%nat -> Codec.index (skipn d rb) 0 = Ret (nth d rb 0).
Proof. intros H. rewrite (index_ok _ _ 0) by (rewrite skipn_length; lia). rewrite nth_skipn, Nat.add_0_r. reflexivity. Qed.
Lemma len_mask n : 0 < n -> exists L, 0 <= L /\ 2 ^ Len64 n - 1 = Z.ones L /\ n <= 2 ^ L.
Proof. intros H. exists (Z.log2 n + 1). unfold Len64. rewrite (proj2 (Z.eqb_neq n 0)) by lia. pose proof (Z.log2_nonneg n). split; [lia|]. rewrite Z.ones_equiv. split; [lia|]. pose proof (Z.log2_spec n H). replace (Z.log2 n + 1) with (Z.succ (Z.log2 n)) by lia. lia. Qed.
Lemma accepted_nonneg n s p N k k' x : 0 < N -> accepted n s p (2 ^ Len64 N - 1) N k k' x -> 0 <= x < N.
Proof. intros H (A1 & A2 & A3 & _). split; [|exact A3]. destruct (len_mask N H) as (L & HL & E & _). rewrite A2, E, Z.land_ones by exact HL. apply Z.mod_pos_bound, Z.pow_pos_nonneg; lia. Qed.
Lemma drawn_choices n s p N h : forall i0 k js ke, (i0 + h <= N)%nat -> drawn n s p (bounds_from N i0 h) k js ke -> choices (N - i0) (map Z.to_nat js) /\ length js = h.
Proof.
  induction h as [|h IH]; intros i0 k js ke H D; unfold bounds_from in D; cbn [seq map] in D; inversion D as [|? ? ? ? k' v vs ? A D']; subst; [split; [exact I|reflexivity]|]. apply (accepted_nonneg n s p (Z.of_nat (N - i0)) k k' v ltac:(lia)) in A. cbn [map choices length].
  destruct (IH (S i0) (S k') vs ke ltac:(lia) D') as [C L]. replace (N - S i0)%nat with (N - i0 - 1)%nat in C by lia. split; [split; [lia|exact C]|congruence].
Qed.

Lemma sparse_step fuel s N mont ms rb H c0 p1 i0 h free pol k : (i0 + S h = H)%nat -> (H <= N)%nat -> length rb = ((H + 7) / 8)%nat -> length free = (N - i0)%nat ->
  sparse_loop fuel s N mont ms (seq i0 (S h)) free (skipn (i0 / 8) rb) (i0 mod 8) pol (gen_at c0 p1 4 k) =
  let* '(j, g) := rand_below 4 fuel s (Z.of_nat (N - i0)) (2 ^ Len64 (Z.of_nat (N - i0)) - 1) (gen_at c0 p1 4 k) in
  if Nat.ltb (Z.to_nat j) (length free) then
    sparse_loop fuel s N mont ms (seq (S i0) h) (remove_at free (Z.to_nat j)) (skipn (S i0 / 8) rb) (S i0 mod 8) (set_coeff mont ms pol (nth (Z.to_nat j) free 0%nat) (Z.to_nat (bit_of rb i0) + 1)) g
  else Panic.
Proof.
  intros HH HN LR LF. cbn [seq sparse_loop]. destruct (rand_below 4 fuel s _ _ _) as [[j g]| |]; cbn [bind]; [|reflexivity|reflexivity].
  rewrite index_skipn; [|rewrite LR; apply Nat.div_lt_upper_bound; [lia|]; pose proof (Nat.div_mod (H + 7) 8 ltac:(lia)) as DM; pose proof (Nat.mod_upper_bound (H + 7) 8 ltac:(lia)); lia]. cbn [bind].
  destruct (Nat.ltb_spec (Z.to_nat j) (length free)) as [L|L].
  - rewrite (index_ok free _ 0%nat L). cbn [bind]. rewrite next_bit. reflexivity.
  - unfold Codec.index at 1. rewrite (proj2 (nth_error_None free (Z.to_nat j)) L). reflexivity.
Qed.
Lemma sparse_sound fuel s N mont ms rb H c0 p1 : (H <= N)%nat -> length rb = ((H + 7) / 8)%nat -> forall h i0 free pol k, (i0 + h = H)%nat -> length free = (N - i0)%nat ->
  match sparse_loop fuel s N mont ms (seq i0 h) free (skipn (i0 / 8) rb) (i0 mod 8) pol (gen_at c0 p1 4 k) with
  | Ret (free', pol', g') => exists js ke, drawn 4 s p1 (bounds_from N i0 h) k js ke /\ free' = remaining free (map Z.to_nat js) /\
      pol' = writes mont ms (combine (picks free (map Z.to_nat js)) (sign_values rb i0 h)) pol /\ g' = gen_at c0 p1 4 ke
  | Fail => True | Panic => False end.
Proof.
  intros HN LR. induction h as [|h IH]; intros i0 free pol k HH LF.
  - exists [], k. split; [constructor|]. split; [reflexivity|]. split; reflexivity.
  - rewrite (sparse_step fuel s N mont ms rb H) by (try assumption; lia). pose proof (rand_below_sound 4 s (Z.of_nat (N - i0)) (2 ^ Len64 (Z.of_nat (N - i0)) - 1) c0 p1 fuel k) as R. destruct (rand_below 4 fuel s _ _ _) as [[j g]| |]; cbn [bind]; [|exact I|exact R].
    destruct R as (k' & A & ->). pose proof (accepted_nonneg 4 s p1 (Z.of_nat (N - i0)) k k' j ltac:(lia) A) as JB. assert (JL : (Z.to_nat j < length free)%nat) by (rewrite LF; lia). rewrite (proj2 (Nat.ltb_lt _ _) JL).
    specialize (IH (S i0) (remove_at free (Z.to_nat j)) (set_coeff mont ms pol (nth (Z.to_nat j) free 0%nat) (Z.to_nat (bit_of rb i0) + 1)) (S k') ltac:(lia) ltac:(rewrite remove_at_length by exact JL; lia)).
    destruct (sparse_loop _ _ _ _ _ _ _ _ _ _ _) as [[[free' pol'] g']| |]; [|exact I|exact IH]. destruct IH as (js & ke & D & E1 & E2 & E3). exists (j :: js), ke. split; [econstructor; eassumption|]. split; [exact E1|]. split; [|exact E3].
    rewrite E2. reflexivity.
Qed.
Lemma sparse_complete s N mont ms rb H c0 p1 fuel ke : (H <= N)%nat -> length rb = ((H + 7) / 8)%nat -> (ke < fuel)%nat -> forall h i0 free pol k js, (i0 + h = H)%nat -> length free = (N - i0)%nat -> drawn 4 s p1 (bounds_from N i0 h) k js ke ->
  exists x, sparse_loop fuel s N mont ms (seq i0 h) free (skipn (i0 / 8) rb) (i0 mod 8) pol (gen_at c0 p1 4 k) = Ret x.
Proof.
  intros HN LR Hf. induction h as [|h IH]; intros i0 free pol k js HH LF D; [eexists; reflexivity|]. rewrite (sparse_step fuel s N mont ms rb H) by (try assumption; lia).
  unfold bounds_from in D. cbn [seq map] in D. inversion D as [|? ? ? ? k' v vs ? A D']; subst. pose proof (drawn_le _ _ _ _ _ _ _ D') as [LE _]. pose proof (accepted_nonneg 4 s p1 (Z.of_nat (N - i0)) k k' v ltac:(lia) A) as JB. assert (A1 := proj1 A).
  rewrite (rand_below_complete 4 s _ _ c0 p1 k' v (k' - k) k fuel ltac:(lia) ltac:(lia) A). cbn [bind]. assert (JL : (Z.to_nat v < length free)%nat) by (rewrite LF; lia). rewrite (proj2 (Nat.ltb_lt _ _) JL).
  apply (IH (S i0) _ _ (S k') vs); [lia|rewrite remove_at_length by exact JL; lia|exact D'].
Qed.

(** The values of the three coefficients. *)
Definition trit (v : nat) : Z := match v with 1%nat => 1 | 2%nat => -1 | _ => 0 end.
Lemma matrix_value c r mont k v : 2 <= c -> built_ring c r -> (k < length (rmods r))%nat -> (v < 3)%nat -> nth v (matrixValues mont (rmod r k)) 0 = (factor mont * trit v) mod mq (rmod r k).
Proof.
  intros Hc HB Hk Hv. assert (Im : In (rmod r k) (rmods r)) by (apply nth_In; exact Hk). destruct (built_masks c r Hc HB _ Im) as (L & HL & _ & HQ). set (m := rmod r k) in *.
  assert (WF : exists l, wf_modp l m). { destruct HB as (fuel & N & ms & H & HN & Hms). destruct (NewRing_wf fuel N ms r HN) as (l & _ & Hw & _); [intros q Hq; specialize (Hms q Hq); unfold W in *; nia|exact H|]. exists l. apply (wfr_mods _ _ _ Hw). exact Im. }
  destruct WF as (l & WF). pose proof (wf_W _ _ WF) as W2. assert (PL : 0 < 2 ^ (L - 1)) by (apply Z.pow_pos_nonneg; lia).
  assert (Q2 : 2 <= mq m) by lia. assert (QW : mq m < W) by (assert (2 ^ L <= 2 ^ 63) by (apply Z.pow_le_mono_r; lia); change (2 ^ 63) with 9223372036854775808 in *; unfold W; lia).
  unfold matrixValues, factor. destruct mont.
  - destruct v as [|[|[|v]]]; [| | |lia]; cbn [nth trit]; rewrite ?Z.mul_0_r, ?Z.mod_0_l by lia; try reflexivity.
    + rewrite (wf_bred _ _ WF), MForm_correct by lia. f_equal.
    + rewrite (wf_bred _ _ WF), MForm_correct by lia. replace ((mq m - 1) * W) with (W * -1 + W * mq m) by ring. apply Z_mod_plus_full.
  - destruct v as [|[|[|v]]]; [| | |lia]; cbn [nth trit]; [symmetry; apply Z.mod_0_l; lia|symmetry; apply Z.mod_small; lia|]. change (1 * -1) with (-1). apply Z.mod_unique_pos with (q := -1); lia.
Qed.

Lemma bit_of_range b t : 0 <= bit_of b t < 2.
Proof. unfold bit_of. apply Z.mod_pos_bound. lia. Qed.
Lemma trit_sign b t : trit (Z.to_nat (bit_of b t) + 1) = 1 - 2 * bit_of b t.
Proof. pose proof (bit_of_range b t) as B. destruct (Z.eq_dec (bit_of b t) 0) as [->|]; [reflexivity|]. replace (bit_of b t) with 1 by lia. reflexivity. Qed.
Lemma combine_fst {A B} : forall (l : list A) (l' : list B), length l = length l' -> map fst (combine l l') = l.
Proof. induction l as [|a l IH]; intros [|b l'] H; cbn in *; try lia; [reflexivity|]. f_equal. apply IH. lia. Qed.
Lemma zero_writes mont ms idx : forall pol, fold_left (fun pol i => set_coeff mont ms pol i 0) idx pol = writes mont ms (map (fun i => (i, 0%nat)) idx) pol.
Proof. unfold writes. induction idx as [|i idx IH]; intros pol; [reflexivity|]. cbn [fold_left map fst snd]. apply IH. Qed.
(** The exponent read off a list of writes. *)
Definition written (ws : list (nat * nat)) (i : nat) : Z := match find (fun w => Nat.eqb (fst w) i) ws with Some w => trit (snd w) | None => 0 end.
Lemma written_in ws i v : NoDup (map fst ws) -> In (i, v) ws -> written ws i = trit v.
Proof.
  intros ND I. unfold written. induction ws as [|[p u] ws IH]; [contradiction|]. cbn [find map fst] in *. apply NoDup_cons_iff in ND. destruct ND as [NI ND]. destruct (Nat.eqb_spec p i) as [->|E].
  - cbn [snd]. destruct I as [I|I]; [injection I as ->; reflexivity|]. exfalso. apply NI. apply (in_map fst) in I. exact I.
  - destruct I as [I|I]; [injection I as -> ->; congruence|]. apply IH; assumption.
Qed.
Lemma writes_signed c r mont level ws pol : 2 <= c -> built_ring c r -> (level < length (rmods r))%nat -> has_rows (rN r) level pol ->
  NoDup (map fst ws) -> (forall i, In i (map fst ws) <-> (i < rN r)%nat) -> (forall w, In w ws -> (snd w < 3)%nat) ->
  signed_rows r level (factor mont) (written ws) pol (writes mont (firstn (level + 1) (rmods r)) ws pol).
Proof.
  intros Hc HB HL (HP1 & HP2) ND HC HV. assert (LM : length (firstn (level + 1) (rmods r)) = (level + 1)%nat) by (apply firstn_len; lia). split; [apply writes_length|]. split; [intros k Hk; apply writes_above; lia|]. intros k Hk.
  apply nth_ext with (d := 0) (d' := 0); [rewrite writes_row_length, map_length, seq_length; apply HP2; exact Hk|]. rewrite writes_row_length, (HP2 k Hk). intros i Hi.
  assert (Ii := proj2 (HC i) Hi). apply in_map_iff in Ii. destruct Ii as ([i' v] & <- & Iw). cbn [fst] in *.
  destruct (writes_value mont (firstn (level + 1) (rmods r)) (rN r) k ws ltac:(lia) ND pol ltac:(lia) (HP2 k Hk)) as [A _]; [apply Forall_forall; intros w Iw'; apply HC, in_map; exact Iw'|]. rewrite (A i' v Iw). rewrite nth_firstn by lia. fold (rmod r k).
  rewrite (matrix_value c r mont k v Hc HB ltac:(lia) (HV _ Iw)). rewrite (nth_indep _ 0 ((factor mont * written ws 0%nat) mod mq (rmod r k))) by (rewrite map_length, seq_length; exact Hi). rewrite (map_nth (fun i => (factor mont * written ws i) mod mq (rmod r k))), seq_nth by exact Hi. cbn [Nat.add].
  rewrite (written_in ws i' v ND Iw). reflexivity.
Qed.
Lemma signed_rows_unique r level f e e' pol p1 p2 : (forall i, (i < rN r)%nat -> e i = e' i) -> signed_rows r level f e pol p1 -> signed_rows r level f e' pol p2 -> p1 = p2.
Proof.
  intros HE (L1 & A1 & B1) (L2 & A2 & B2). apply nth_ext with (d := []) (d' := []); [congruence|]. intros k _. destruct (Nat.le_gt_cases k level) as [H|H]; [|rewrite A1, A2 by exact H; reflexivity]. rewrite B1, B2 by exact H. apply map_ext_in. intros i Hi. apply in_seq in Hi. rewrite HE by lia. reflexivity.
Qed.
Lemma sparse_unique ps sg e e' : sparse ps sg e -> sparse ps sg e' -> forall i, e i = e' i.
Proof.
  intros (A1 & A2) (B1 & B2) i. destruct (in_dec Nat.eq_dec i ps) as [I|I]; [|rewrite A2, B2 by exact I; reflexivity]. destruct (In_nth ps i 0%nat I) as (t & Ht & <-). rewrite A1, B1 by exact Ht. reflexivity.
Qed.
Lemma sparse_writes N rb h js : (h <= N)%nat -> length js = h -> choices N js ->
  let ws := combine (picks (seq 0 N) js) (sign_values rb 0 h) ++ map (fun i => (i, 0%nat)) (remaining (seq 0 N) js) in
  NoDup (map fst ws) /\ (forall i, In i (map fst ws) <-> (i < N)%nat) /\ (forall w, In w ws -> (snd w < 3)%nat) /\ sparse (picks (seq 0 N) js) (fun t => 1 - 2 * bit_of rb t) (written ws).
Proof.
  intros HN LJ C ws. destruct (picks_perm js (seq 0 N)) as [P L]; [rewrite seq_length; exact C|]. assert (LS : length (sign_values rb 0 h) = h) by (unfold sign_values; rewrite map_length, seq_length; reflexivity).
  assert (EF : map fst ws = picks (seq 0 N) js ++ remaining (seq 0 N) js) by (unfold ws; rewrite map_app, combine_fst, map_map by lia; cbn [fst]; rewrite map_id; reflexivity).
  assert (ND : NoDup (map fst ws)) by (rewrite EF; apply (Permutation_NoDup P), seq_NoDup). split; [exact ND|]. split.
  - intros i. rewrite EF. split; [intros I; apply Permutation_sym in P; apply (Permutation_in i P) in I; apply in_seq in I; lia|]. intros I. apply (Permutation_in i P), in_seq. lia.
  - split.
    + intros [i v] I. unfold ws in I. apply in_app_or in I. destruct I as [I|I].
      * apply in_combine_r in I. unfold sign_values in I. apply in_map_iff in I. destruct I as (t & <- & _). cbn [snd]. pose proof (bit_of_range rb t). lia.
      * apply in_map_iff in I. destruct I as (t & E & _). injection E as <- <-. cbn [snd]. lia.
    + split.
      * intros t Ht. rewrite <- trit_sign. apply written_in; [exact ND|]. unfold ws. apply in_or_app. left. replace (Z.to_nat (bit_of rb t) + 1)%nat with (nth t (sign_values rb 0 h) 0%nat).
        -- rewrite <- combine_nth by lia. apply nth_In. rewrite combine_length. lia.
        -- unfold sign_values. rewrite (nth_indep _ 0%nat ((fun t => (Z.to_nat (bit_of rb t) + 1)%nat) 0%nat)) by (rewrite map_length, seq_length; lia). rewrite (map_nth (fun t => (Z.to_nat (bit_of rb t) + 1)%nat)), seq_nth by lia. reflexivity.
      * intros i NI. destruct (in_dec Nat.eq_dec i (remaining (seq 0 N) js)) as [I|I].
        -- change 0 with (trit 0). apply written_in; [exact ND|]. unfold ws. apply in_or_app. right. apply (in_map (fun i => (i, 0%nat))). exact I.
        -- unfold written. destruct (find _ ws) as [w|] eqn:E; [|reflexivity]. apply find_some in E. destruct E as [E1 E2]. apply Nat.eqb_eq in E2. apply (in_map fst) in E1. rewrite E2, EF in E1. apply in_app_or in E1. tauto.
Qed.
Lemma sample_sparse_sound r : built_ring 2 r -> forall fuel s mont hw level pol g, (level < length (rmods r))%nat -> has_rows (rN r) level pol ->
  match sampleSparse fuel s r mont hw level pol g with Ret (pol', hw', g') => sparse_result s r mont hw level pol g pol' hw' g' | Fail => True | Panic => False end.
Proof.
  intros HB fuel s mont hw level pol g HL HP. unfold sampleSparse. assert (HP0 := HP). destruct HP as (HP1 & HP2). assert (LM : length (firstn (level + 1) (rmods r)) = (level + 1)%nat) by (apply firstn_len; lia).
  rewrite (proj2 (Nat.ltb_lt _ _) HL). rewrite room_ok; [|lia|rewrite LM; apply has_rows_forall; [intros i Hi; apply HP2; lia|lia]]. cbn [andb]. unfold sparse_result.
  replace (if Nat.ltb (rN r) hw then rN r else hw) with (Nat.min hw (rN r)) by (destruct (Nat.ltb_spec (rN r) hw); lia). set (h := Nat.min hw (rN r)). assert (Hh : (h <= rN r)%nat) by (unfold h; lia). clearbody h. set (n := ((h + 7) / 8)%nat). unfold Clock.
  assert (EG : mkPrng (wadd (clock g) 1) (pos g + n) = gen_at (clock g + 1) (pos g + n) 4 0) by (unfold gen_at; f_equal; [unfold wadd; f_equal; lia|lia]). rewrite EG.
  pose proof (sparse_sound fuel s (rN r) mont (firstn (level + 1) (rmods r)) (block s (pos g) n) h (clock g + 1) (pos g + n) Hh (block_length _ _ _) h 0 (seq 0 (rN r)) pol 0 eq_refl ltac:(rewrite seq_length; lia)) as R. change (0 / 8)%nat with 0%nat in R. change (0 mod 8)%nat with 0%nat in R. cbn [skipn] in R.
  destruct (sparse_loop _ _ _ _ _ _ _ _ _ _ _) as [[[free' pol1] g1]| |]; cbn [bind]; [|exact I|exact R]. destruct R as (js & ke & D & E1 & E2 & E3). split; [reflexivity|].
  destruct (drawn_choices _ _ _ (rN r) h 0 _ _ _ ltac:(lia) D) as [C LJ]. rewrite Nat.sub_0_r in C. destruct (sparse_writes (rN r) (block s (pos g) n) h (map Z.to_nat js) Hh ltac:(rewrite map_length; exact LJ) C) as (W1 & W2 & W3 & W4).
  exists js, ke, (written (combine (picks (seq 0 (rN r)) (map Z.to_nat js)) (sign_values (block s (pos g) n) 0 h) ++ map (fun i => (i, 0%nat)) (remaining (seq 0 (rN r)) (map Z.to_nat js)))). split; [exact D|]. split; [exact W4|]. split.
  - rewrite zero_writes, E2, E1, <- writes_app. apply (writes_signed 2); try assumption. lia.
  - rewrite E3. reflexivity.
Qed.
Lemma sample_sparse_complete r : built_ring 2 r -> forall s mont hw level pol g pol' hw' g', (level < length (rmods r))%nat -> has_rows (rN r) level pol ->
  sparse_result s r mont hw level pol g pol' hw' g' -> exists fuel, sampleSparse fuel s r mont hw level pol g = Ret (pol', hw', g').
Proof.
  intros HB s mont hw level pol g pol' hw' g' HL HP (-> & js & ke & e & D & SP & SR & EG). exists (ke + 1)%nat. pose proof (sample_sparse_sound r HB (ke + 1) s mont hw level pol g HL HP) as R.
  assert (X : exists x, sampleSparse (ke + 1) s r mont hw level pol g = Ret x).
  { unfold sampleSparse. destruct HP as (HP1 & HP2). assert (LM : length (firstn (level + 1) (rmods r)) = (level + 1)%nat) by (apply firstn_len; lia).
    rewrite (proj2 (Nat.ltb_lt _ _) HL). rewrite room_ok; [|lia|rewrite LM; apply has_rows_forall; [intros i Hi; apply HP2; lia|lia]]. cbn [andb].
    replace (if Nat.ltb (rN r) hw then rN r else hw) with (Nat.min hw (rN r)) by (destruct (Nat.ltb_spec (rN r) hw); lia). set (h := Nat.min hw (rN r)) in *. assert (Hh : (h <= rN r)%nat) by (unfold h; lia). clearbody h. set (n := ((h + 7) / 8)%nat) in *. unfold Clock.
    assert (EG' : mkPrng (wadd (clock g) 1) (pos g + n) = gen_at (clock g + 1) (pos g + n) 4 0) by (unfold gen_at; f_equal; [unfold wadd; f_equal; lia|lia]). rewrite EG'.
    destruct (sparse_complete s (rN r) mont (firstn (level + 1) (rmods r)) (block s (pos g) n) h (clock g + 1) (pos g + n) (ke + 1) ke Hh (block_length _ _ _) ltac:(lia) h 0 (seq 0 (rN r)) pol 0 js eq_refl ltac:(rewrite seq_length; lia) D) as ([[free' pol1] g1] & E). change (0 / 8)%nat with 0%nat in E. change (0 mod 8)%nat with 0%nat in E. cbn [skipn] in E. rewrite E. cbn [bind]. eexists. reflexivity. }
  destruct X as ([[pol2 hw2] g2] & X). rewrite X in R |- *. destruct R as (-> & js2 & ke2 & e2 & D2 & SP2 & SR2 & EG2). destruct (drawn_det _ _ _ _ _ _ _ _ _ D D2) as [<- <-]. rewrite EG2, EG. f_equal. f_equal. f_equal. apply (signed_rows_unique r level (factor mont) e2 e pol); [|assumption|assumption].
  intros i _. apply (sparse_unique _ _ _ _ SP2 SP).
Qed.
(** What the relation says about the weight. *)
Lemma sparse_weight r s mont hw level pol g pol' hw' g' : sparse_result s r mont hw level pol g pol' hw' g' ->
  exists ps e, NoDup ps /\ length ps = Nat.min hw (rN r) /\ (forall p, In p ps -> (p < rN r)%nat) /\ (forall i, In i ps -> e i = 1 \/ e i = -1) /\ (forall i, ~ In i ps -> e i = 0) /\ signed_rows r level (factor mont) e pol pol'.
Proof.
  intros (_ & js & ke & e & D & (S1 & S2) & SR & _). set (h := Nat.min hw (rN r)) in *. assert (Hh : (h <= rN r)%nat) by (unfold h; lia). destruct (drawn_choices _ _ _ (rN r) h 0 _ _ _ ltac:(lia) D) as [C LJ]. rewrite Nat.sub_0_r in C. destruct (picks_perm (map Z.to_nat js) (seq 0 (rN r))) as [P L]; [rewrite seq_length; exact C|].
  exists (picks (seq 0 (rN r)) (map Z.to_nat js)), e. assert (ND : NoDup (picks (seq 0 (rN r)) (map Z.to_nat js) ++ remaining (seq 0 (rN r)) (map Z.to_nat js))) by (apply (Permutation_NoDup P), seq_NoDup).
  split; [revert ND; generalize (picks (seq 0 (rN r)) (map Z.to_nat js)); clear; intros l ND; induction l as [|x l IH]; [constructor|]; cbn [app] in ND; apply NoDup_cons_iff in ND; destruct ND as [A B]; constructor; [intros I; apply A, in_or_app; left; exact I|apply IH; exact B]|].
  split; [rewrite L, map_length; exact LJ|]. split; [|split; [|split; [exact S2|exact SR]]].
  - intros p Hp. apply Permutation_sym in P. assert (I : In p (seq 0 (rN r))) by (apply (Permutation_in p P), in_or_app; left; exact Hp). apply in_seq in I. lia.
  - intros i Hi. destruct (In_nth _ i 0%nat Hi) as (t & Ht & <-). rewrite S1 by exact Ht. pose proof (bit_of_range (block s (pos g) ((h + 7) / 8)) t). lia.
Qed.
