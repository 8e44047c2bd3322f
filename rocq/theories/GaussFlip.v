(** Flipping the top bit of every word of the stream negates every sample. *)
From Flocq Require Import IEEE754.BinarySingleNaN.
From Verif Require Import Word Arith ModRed ModRedProofs Ring RingProofs NTTProofs RingOps RNSSpec Float64 Codec CodecSpec CodecProofs CodecTop Sampler SamplerSpec SamplerProofs SamplerTop SparseProofs SparseTop Gauss GaussSpec GaussProofs.

Definition flip (j : nat) (b : Z) : Z := if Nat.eqb (j mod 8) 0 then (b + 128) mod 256 else b.
Lemma flipped_stream s : byte_stream s -> byte_stream (flipped s).
Proof. intros H j. unfold flipped. destruct (Nat.eqb (j mod 8) 0); [apply Z.mod_pos_bound; lia|apply H]. Qed.
(** Two samplers in step. *)
Definition instep (st st' : gauss) : Prop :=
  gauss_state st /\ gauss_state st' /\ gptr st' = gptr st /\ ggen st' = ggen st /\ (exists m, pos (ggen st) = (8 * m)%nat) /\
  forall j, (j < 1024)%nat -> nth j (gbuf st') 0 = flip j (nth j (gbuf st) 0).
Lemma flip_block s m n : forall j, (j < n)%nat -> nth j (block (flipped s) (8 * m) n) 0 = flip j (nth j (block s (8 * m) n) 0).
Proof.
  intros j Hj. rewrite !nth_block by exact Hj. unfold flipped, flip. replace ((8 * m + j) mod 8)%nat with (j mod 8)%nat; [reflexivity|]. replace (8 * m + j)%nat with (j + m * 8)%nat by lia. rewrite Nat.mod_add by lia. reflexivity.
Qed.
Lemma instep_refill s st st' : byte_stream s -> gauss_state st -> gauss_state st' -> gptr st' = gptr st -> ggen st' = ggen st -> (exists m, pos (ggen st) = (8 * m)%nat) -> instep (refill s st) (refill (flipped s) st').
Proof.
  intros HS G G' P E (m & Hm). pose proof (flipped_stream s HS) as HS'. split; [apply refill_state; assumption|]. split; [apply refill_state; assumption|]. unfold refill, Clock; cbn [gbuf gptr ggen pos]. split; [exact P|]. destruct G as (L & _). destruct G' as (L' & _). rewrite L, L', E. split; [reflexivity|]. split; [exists (m + 128)%nat; lia|].
  rewrite Hm. apply flip_block.
Qed.
Lemma instep_ready s st st' : byte_stream s -> instep st st' -> instep (ready s st) (ready (flipped s) st').
Proof.
  intros HS (G & G' & P & E & (m & Hm) & B). pose proof (flipped_stream s HS) as HS'. pose proof (ready_word s st HS G) as R. pose proof (ready_word (flipped s) st' HS' G') as R'. destruct G as (L & F & K). destruct G' as (L' & F' & K').
  assert (WS : forall x, has_word x -> gauss_state x) by (intros x (A1 & A2 & k & A3 & A4); split; [exact A1|]; split; [exact A2|]; exists k; split; [lia|exact A4]).
  split; [apply WS; exact R|]. split; [apply WS; exact R'|]. unfold ready. rewrite L, L', P. destruct (Nat.eqb (gptr st) 1024); unfold Clock; cbn [gbuf gptr ggen pos].
  - split; [reflexivity|]. rewrite E. split; [reflexivity|]. split; [exists (m + 128)%nat; lia|]. rewrite Hm. apply flip_block.
  - split; [exact P|]. split; [exact E|]. split; [exists m; exact Hm|exact B].
Qed.
Lemma instep_advance st st' : has_word st -> has_word st' -> instep st st' -> instep (advance st) (advance st').
Proof. intros H H' (G & G' & P & E & M & B). split; [apply advance_state; exact H|]. split; [apply advance_state; exact H'|]. cbn [advance gptr gbuf ggen]. rewrite P. repeat split; try assumption. Qed.
(** The words at the pointer. *)
Lemma instep_slice st st' n : (1 <= n <= 8)%nat -> has_word st -> has_word st' -> instep st st' ->
  exists b0 rest, 0 <= b0 < 256 /\ length rest = (n - 1)%nat /\ Forall (fun b => 0 <= b < 256) rest /\ slice (gbuf st) (gptr st) n = Ret (b0 :: rest) /\ slice (gbuf st') (gptr st') n = Ret ((b0 + 128) mod 256 :: rest).
Proof.
  intros Hn H H' (G & G' & P & E & M & B). destruct (word_slice st n ltac:(lia) H) as (b & S1 & L1 & F1). destruct (word_slice st' n ltac:(lia) H') as (b' & S2 & L2 & F2). destruct H as (L & F & k & Hk & Ek). destruct H' as (L' & _).
  assert (N : forall j, (j < n)%nat -> nth j b' 0 = flip j (nth j b 0)).
  { intros j Hj. unfold slice in S1, S2. destruct (Nat.leb _ _) in S1; [|discriminate]. destruct (Nat.leb _ _) in S2; [|discriminate]. apply (f_equal (fun o => match o with Ret x => x | _ => [] end)) in S1. apply (f_equal (fun o => match o with Ret x => x | _ => [] end)) in S2. rewrite <- S1, <- S2. rewrite !nth_firstn by exact Hj. rewrite !nth_skipn. rewrite P, Ek, B by lia. unfold flip. replace ((8 * k + j) mod 8)%nat with (j mod 8)%nat; [reflexivity|]. replace (8 * k + j)%nat with (j + k * 8)%nat by lia. rewrite Nat.mod_add by lia. reflexivity. }
  destruct b as [|b0 rest]; [cbn in L1; lia|]. destruct b' as [|b0' rest']; [cbn in L2; lia|]. cbn [length] in L1, L2. inversion F1 as [|x y F1a F1b]; subst. exists b0, rest. split; [exact F1a|]. split; [lia|]. split; [exact F1b|]. split; [exact S1|]. rewrite S2. f_equal. f_equal; [exact (N 0%nat ltac:(lia))|].
  apply nth_ext with (d := 0) (d' := 0); [lia|]. intros j Hj. pose proof (N (S j) ltac:(lia)) as Nj. cbn [nth] in Nj. rewrite Nj. unfold flip. destruct (Nat.eqb_spec (S j mod 8) 0) as [Z0|Z0]; [|reflexivity]. rewrite Nat.mod_small in Z0 by lia. lia.
Qed.
Lemma rand_same b0 rest : length rest = 7%nat -> randFloat64 ((b0 + 128) mod 256 :: rest) = randFloat64 (b0 :: rest).
Proof.
  intros L. unfold randFloat64. f_equal. f_equal. change 9007199254740991 with (Z.ones 53). rewrite !Z.land_ones by lia. rewrite !be_value_cons, L. change (256 ^ Z.of_nat 7) with (8 * 2 ^ 53). set (v := be_value rest). rewrite (Z.add_comm _ v), (Z.add_comm (b0 * _) v), !Z.mul_assoc. rewrite !Z_mod_plus_full. reflexivity.
Qed.
Lemma sign_flip b0 rest : length rest = 3%nat -> 0 <= b0 < 256 -> Forall (fun b => 0 <= b < 256) rest ->
  Z.land (be_value ((b0 + 128) mod 256 :: rest)) 2147483647 = Z.land (be_value (b0 :: rest)) 2147483647 /\ be_value ((b0 + 128) mod 256 :: rest) / 2 ^ 31 = 1 - be_value (b0 :: rest) / 2 ^ 31.
Proof.
  intros L H0 F. pose proof (be_range rest 3 L F) as R. rewrite !be_value_cons, L. change (256 ^ Z.of_nat 3) with 16777216 in *. set (v := be_value rest) in *. clearbody v. change 2147483647 with (Z.ones 31). rewrite !Z.land_ones by lia. change (2 ^ 31) with 2147483648.
  assert (E : (b0 < 128 /\ (b0 + 128) mod 256 = b0 + 128) \/ (128 <= b0 /\ (b0 + 128) mod 256 = b0 - 128)) by (clear - H0; lia). destruct E as [[E1 ->]|[E1 ->]].
  - split.
    + replace ((b0 + 128) * 16777216 + v) with (b0 * 16777216 + v + 1 * 2147483648) by ring. apply Z_mod_plus_full.
    + replace ((b0 + 128) * 16777216 + v) with (b0 * 16777216 + v + 1 * 2147483648) by ring. rewrite Z.div_add by lia. rewrite Z.div_small by lia. reflexivity.
  - split.
    + replace (b0 * 16777216 + v) with ((b0 - 128) * 16777216 + v + 1 * 2147483648) by ring. symmetry. apply Z_mod_plus_full.
    + replace (b0 * 16777216 + v) with ((b0 - 128) * 16777216 + v + 1 * 2147483648) by ring. rewrite Z.div_add by lia. rewrite Z.div_small by lia. reflexivity.
Qed.
Ltac step HS H := let H1 := fresh "W" in let H2 := fresh "W'" in pose proof H as (H1 & H2 & _); apply (ready_word _ _ HS) in H1; apply (ready_word _ _ (flipped_stream _ HS)) in H2; apply (instep_ready _ _ _ HS) in H.
Lemma tail_flip log s : byte_stream s -> forall fuel st st', instep st st' ->
  match tail fuel log s st, tail fuel log (flipped s) st' with Ret (x, t), Ret (x', t') => x' = x /\ instep t t' | Fail, Fail => True | _, _ => False end.
Proof.
  intros HS. induction fuel as [|fuel IH]; intros st st' H; [exact I|]. cbn [tail]. step HS H. destruct (instep_slice _ _ 8 ltac:(lia) W W' H) as (b0 & rest & _ & LR & _ & -> & ->). cbn [bind]. rewrite rand_same by exact LR. apply (instep_advance _ _ W W') in H. step HS H. destruct (instep_slice _ _ 8 ltac:(lia) W0 W'0 H) as (c0 & rest2 & _ & LR2 & _ & -> & ->). cbn [bind]. rewrite (rand_same c0) by exact LR2. apply (instep_advance _ _ W0 W'0) in H. destruct (Bleb _ _); [split; [reflexivity|exact H]|]. apply IH. exact H.
Qed.
Lemma norm_flip log exp s : byte_stream s -> forall fuel st st', instep st st' ->
  match normFloat64 fuel log exp s st, normFloat64 fuel log exp (flipped s) st' with Ret (x, sg, t), Ret (x', sg', t') => x' = x /\ sg' = 1 - sg /\ instep t t' | Fail, Fail => True | _, _ => False end.
Proof.
  intros HS. induction fuel as [|fuel IH]; intros st st' H; [exact I|]. cbn [normFloat64]. step HS H. destruct (instep_slice _ _ 4 ltac:(lia) W W' H) as (b0 & rest & HB & LR & FR & -> & ->). cbn [bind]. destruct (sign_flip b0 rest LR HB FR) as [-> ->]. set (sign := be_value (b0 :: rest) / 2 ^ 31). clearbody sign.
  set (j := Z.land (be_value (b0 :: rest)) 2147483647). assert (IB : (Z.to_nat (Z.land j 127) < 128)%nat). { change 127 with (Z.ones 7). rewrite Z.land_ones by lia. pose proof (Z.mod_pos_bound j (2 ^ 7) ltac:(lia)). change (2 ^ 7) with 128 in *. lia. }
  set (i := Z.to_nat (Z.land j 127)) in *. clearbody i. clearbody j. apply (instep_advance _ _ W W') in H. destruct (wn_ok i IB) as (w & ->). cbn [bind]. destruct (table_ok kn i eq_refl IB) as (k & ->). cbn [bind]. destruct (j <? k); [split; [reflexivity|]; split; [reflexivity|]; exact H|].
  destruct (Nat.eqb i 0).
  - pose proof (tail_flip log s HS (S fuel) _ _ H) as T. destruct (tail (S fuel) log s _) as [[x t]| |], (tail (S fuel) log (flipped s) _) as [[x' t']| |]; cbn [bind]; try contradiction; [|exact I]. destruct T as [-> T]. split; [reflexivity|]; split; [reflexivity|]; exact T.
  - step HS H. destruct (instep_slice _ _ 8 ltac:(lia) W0 W'0 H) as (c0 & rest2 & _ & LR2 & _ & -> & ->). cbn [bind]. destruct (fn_ok i IB) as (f1 & ->). cbn [bind]. destruct (fn_ok (i - 1) ltac:(lia)) as (f0 & ->). cbn [bind]. rewrite rand_same by exact LR2. apply (instep_advance _ _ W0 W'0) in H. destruct (Bltb _ _); [split; [reflexivity|]; split; [reflexivity|]; exact H|]. apply IH. exact H.
Qed.
Lemma sample_flip log exp other s sigma bound : byte_stream s -> forall fuel st st', instep st st' ->
  match sample fuel log exp other s sigma bound st, sample fuel log exp other (flipped s) sigma bound st' with Ret (c, sg, t), Ret (c', sg', t') => c' = c /\ sg' = 1 - sg /\ instep t t' | Fail, Fail => True | _, _ => False end.
Proof.
  intros HS. induction fuel as [|fuel IH]; intros st st' H; [exact I|]. cbn [sample]. pose proof (norm_flip log exp s HS (S fuel) _ _ H) as N. destruct (normFloat64 (S fuel) log exp s st) as [[[x sg] t]| |], (normFloat64 (S fuel) log exp (flipped s) st') as [[[x' sg'] t']| |]; cbn [bind]; try contradiction; [|exact I]. destruct N as (-> & -> & N). destruct (_ <=? _); [split; [reflexivity|]; split; [reflexivity|]; exact N|apply IH; exact N].
Qed.
(** Polynomials in step: entries below i0 sum to the modulus, the others agree. *)
Definition inrows (ms : list modp) (i0 : nat) (pol pol' : rows) : Prop :=
  length pol' = length pol /\ (forall k, (length ms <= k)%nat -> nth k pol' [] = nth k pol []) /\
  forall k, (k < length ms)%nat -> (k < length pol)%nat /\ length (nth k pol' []) = length (nth k pol []) /\ forall i, (i < i0)%nat -> nth i (nth k pol []) 0 + nth i (nth k pol' []) 0 = mq (nth k ms modp0).
Lemma loop_flip log exp other s sigma bound ms fuel : byte_stream s -> word_valued other -> 0 <= bound -> (forall k, (k < length ms)%nat -> bound < mq (nth k ms modp0) < W) -> (0 < length ms)%nat ->
  forall n i0 pol pol' st st', instep st st' -> inrows ms i0 pol pol' -> (forall k, (k < length ms)%nat -> (i0 + n <= length (nth k pol []))%nat) ->
  match gauss_loop fuel log exp other s sigma bound ms (fun c sign _ q => gauss_value c sign q) (seq i0 n) pol st,
        gauss_loop fuel log exp other (flipped s) sigma bound ms (fun c sign _ q => gauss_value c sign q) (seq i0 n) pol' st' with
  | Ret (p, t), Ret (p', t') => instep t t' /\ inrows ms (i0 + n) p p' | Fail, Fail => True | _, _ => False end.
Proof.
  intros HS HO HB HQ HM. induction n as [|n IH]; intros i0 pol pol' st st' HI HR HL; cbn [seq gauss_loop].
  - split; [exact HI|]. rewrite Nat.add_0_r. exact HR.
  - pose proof (sample_flip log exp other s sigma bound HS fuel _ _ HI) as S1. assert (HBW : 0 <= bound < W) by (pose proof (HQ 0%nat HM); lia). pose proof (sample_ok log exp other s sigma bound HS HO HBW fuel st (proj1 HI)) as SO.
    destruct (sample fuel log exp other s sigma bound st) as [[[c sg] t]| |], (sample fuel log exp other (flipped s) sigma bound st') as [[[c' sg'] t']| |]; cbn [bind]; try contradiction; [|exact I]. destruct S1 as (-> & -> & HI2). destruct SO as (CB & SB & _). rewrite Nat.add_succ_r, <- Nat.add_succ_l. apply IH; [exact HI2| |].
    + destruct HR as (R1 & R2 & R3). split; [rewrite !set_column_length; exact R1|]. split; [intros k Hk; rewrite !set_column_row, (proj2 (Nat.ltb_ge _ _) Hk); cbn [andb]; apply R2; exact Hk|].
      intros k Hk. destruct (R3 k Hk) as (R4 & R5 & R6). split; [rewrite set_column_length; exact R4|]. rewrite !set_column_row, R1, (proj2 (Nat.ltb_lt _ _) Hk), (proj2 (Nat.ltb_lt _ _) R4). cbn [andb]. split; [rewrite !upd_nth_length; exact R5|].
      pose proof (HL k Hk) as HLk. intros i Hi. rewrite !nth_upd by lia. destruct (Nat.eqb_spec i i0) as [->|NE]; [|apply R6; lia]. pose proof (HQ k Hk) as Qk. rewrite !gauss_value_spec by lia. assert (E : sg = 0 \/ sg = 1) by lia. destruct E as [-> | ->]; [change (0 =? 1) with false; change (1 - 0 =? 1) with true|change (1 =? 1) with true; change (1 - 1 =? 1) with false]; cbv iota; lia.
    + intros k Hk. rewrite set_column_row. destruct (_ && _); [rewrite upd_nth_length|]; pose proof (HL k Hk); lia.
Qed.
Lemma gauss_symmetric r : built_ring 2 r -> forall log exp other s sigma bound level pol st fuel, byte_stream s -> word_valued other -> 0 <= bound -> gauss_state st -> (pos (ggen st) mod 8 = 0)%nat -> (level < length (rmods r))%nat -> has_rows (rN r) level pol ->
  (forall k, (k <= level)%nat -> bound < mq (rmod r k)) ->
  match Gauss_ReadLvl fuel log exp other s r sigma bound level pol st, Gauss_ReadLvl fuel log exp other (flipped s) r sigma bound level pol st with
  | Ret (p, _), Ret (p', _) => forall k i, (k <= level)%nat -> (i < rN r)%nat -> nth i (nth k p []) 0 + nth i (nth k p' []) 0 = mq (rmod r k)
  | Fail, Fail => True
  | _, _ => False end.
Proof.
  intros HB log exp other s sigma bound level pol st fuel HS HO HB0 HG HP8 HL (HP1 & HP2) HQ. unfold Gauss_ReadLvl, gauss_poly. assert (LM : length (firstn (level + 1) (rmods r)) = (level + 1)%nat) by (apply firstn_len; lia).
  rewrite (proj2 (Nat.ltb_lt _ _) HL). rewrite room_ok; [|lia|rewrite LM; apply has_rows_forall; [intros i Hi; apply HP2; lia|lia]]. cbn [andb].
  assert (HI : instep (refill s st) (refill (flipped s) st)). { apply instep_refill; try assumption; try reflexivity. exists (pos (ggen st) / 8)%nat. pose proof (Nat.div_mod (pos (ggen st)) 8 ltac:(lia)). lia. }
  assert (NM : forall k, (k <= level)%nat -> nth k (firstn (level + 1) (rmods r)) modp0 = rmod r k) by (intros k Hk; rewrite nth_firstn by lia; reflexivity).
  pose proof (loop_flip log exp other s sigma bound (firstn (level + 1) (rmods r)) fuel HS HO HB0) as R. rewrite LM in R. specialize (R ltac:(intros k Hk; rewrite NM by lia; pose proof (HQ k ltac:(lia)); pose proof (modulus_small r HB k ltac:(lia)); lia) ltac:(lia) (rN r) 0%nat pol pol _ _ HI).
  specialize (R ltac:(split; [reflexivity|]; split; [reflexivity|]; intros k Hk; rewrite LM in Hk; split; [lia|]; split; [reflexivity|]; intros i Hi; lia) ltac:(intros k Hk; rewrite HP2 by lia; lia)).
  destruct (gauss_loop fuel log exp other s _ _ _ _ _ _ _) as [[p t]| |]; [| |contradiction]; (destruct (gauss_loop fuel log exp other (flipped s) _ _ _ _ _ _ _) as [[p' t']| |]; try contradiction); [|exact I]. destruct R as (_ & _ & _ & R). intros k i Hk Hi. destruct (R k ltac:(lia)) as (_ & _ & R6). rewrite <- NM by exact Hk. apply R6. exact Hi.
Qed.
