(** Proofs about the Gaussian sampler. *)
From Flocq Require Import IEEE754.BinarySingleNaN.
From Verif Require Import Word Arith ModRed ModRedProofs Ring RingProofs NTTProofs RingOps RNSSpec Float64 Codec CodecSpec CodecProofs CodecTop Sampler SamplerSpec SamplerProofs SamplerTop SparseProofs SparseTop Gauss GaussSpec.

Lemma block_bytes s p n : byte_stream s -> Forall (fun b => 0 <= b < 256) (block s p n).
Proof. intros H. unfold block. apply Forall_forall. intros b I. apply in_map_iff in I. destruct I as (j & <- & _). apply H. Qed.
Lemma new_state g : gauss_state (newGauss g).
Proof. split; [apply repeat_length|]. split; [apply Forall_forall; intros b I; apply repeat_spec in I; subst; lia|]. exists 0%nat. split; [lia|reflexivity]. Qed.
Lemma refill_state s st : byte_stream s -> gauss_state st -> gauss_state (refill s st).
Proof. intros HS (L & F & k & Hk & E). unfold refill, Clock. split; cbn [gbuf gptr]; [rewrite block_length; exact L|]. split; [apply block_bytes; exact HS|]. exists k. split; assumption. Qed.
(** A buffer with room for a word. *)
Definition has_word (st : gauss) : Prop := length (gbuf st) = 1024%nat /\ Forall (fun b => 0 <= b < 256) (gbuf st) /\ exists k, (k < 128)%nat /\ gptr st = (8 * k)%nat.
Lemma ready_word s st : byte_stream s -> gauss_state st -> has_word (ready s st).
Proof.
  intros HS (L & F & k & Hk & E). unfold ready, Clock. destruct (Nat.eqb_spec (gptr st) (length (gbuf st))) as [H|H]; cbn [gbuf gptr].
  - split; [cbn [gbuf]; rewrite block_length; exact L|]. split; [apply block_bytes; exact HS|]. exists 0%nat. split; [lia|reflexivity].
  - split; [exact L|]. split; [exact F|]. exists k. split; [lia|exact E].
Qed.
Lemma advance_state st : has_word st -> gauss_state (advance st).
Proof. intros (L & F & k & Hk & E). split; [exact L|]. split; [exact F|]. exists (S k). cbn [advance gptr]. split; lia. Qed.
Lemma word_slice st n : (n <= 8)%nat -> has_word st -> exists b, slice (gbuf st) (gptr st) n = Ret b /\ length b = n /\ Forall (fun b => 0 <= b < 256) b.
Proof.
  intros Hn (L & F & k & Hk & E). unfold slice. rewrite (proj2 (Nat.leb_le _ _)) by lia. eexists. split; [reflexivity|]. split; [rewrite firstn_length, skipn_length; lia|].
  rewrite Forall_forall in *. intros b I. apply F. rewrite <- (firstn_skipn (gptr st)). apply in_or_app. right. rewrite <- (firstn_skipn n). apply in_or_app. left. exact I.
Qed.
Lemma be_range b n : length b = n -> Forall (fun b => 0 <= b < 256) b -> 0 <= be_value b < 256 ^ Z.of_nat n.
Proof. intros <- F. apply be_value_range. exact F. Qed.
Lemma tail_ok log s : byte_stream s -> forall fuel st, gauss_state st -> match tail fuel log s st with Ret (_, st') => gauss_state st' | Fail => True | Panic => False end.
Proof.
  intros HS. induction fuel as [|fuel IH]; intros st HG; [exact I|]. cbn [tail]. pose proof (ready_word s st HS HG) as H1. destruct (word_slice _ 8 (le_n 8) H1) as (b & -> & _). cbn [bind].
  pose proof (ready_word s _ HS (advance_state _ H1)) as H2. destruct (word_slice _ 8 (le_n 8) H2) as (b2 & -> & _). cbn [bind]. destruct (Bleb _ _); [apply advance_state; exact H2|]. apply IH, advance_state. exact H2.
Qed.
Lemma table_ok {A} (l : list A) i : length l = 128%nat -> (i < 128)%nat -> exists x, index l i = Ret x.
Proof. intros L H. unfold index. destruct (nth_error l i) eqn:E; [eauto|]. apply nth_error_None in E. lia. Qed.
Lemma wn_ok i : (i < 128)%nat -> exists x, wn_at i = Ret x.
Proof. intros H. unfold wn_at. destruct (table_ok wn i eq_refl H) as ([m e] & ->). cbn [bind]. eauto. Qed.
Lemma fn_ok i : (i < 128)%nat -> exists x, fn_at i = Ret x.
Proof. intros H. unfold fn_at. destruct (table_ok fn i eq_refl H) as ([m e] & ->). cbn [bind]. eauto. Qed.
Lemma norm_ok log exp s : byte_stream s -> forall fuel st, gauss_state st -> match normFloat64 fuel log exp s st with Ret (_, sign, st') => 0 <= sign < 2 /\ gauss_state st' | Fail => True | Panic => False end.
Proof.
  intros HS. induction fuel as [|fuel IH]; intros st HG; [exact I|]. cbn [normFloat64]. pose proof (ready_word s st HS HG) as H1. destruct (word_slice _ 4 ltac:(lia) H1) as (b & -> & LB & FB). cbn [bind].
  pose proof (be_range b 4 LB FB) as BR. change (256 ^ Z.of_nat 4) with (2 * 2147483648) in BR. change (2 ^ 31) with 2147483648. pose proof (advance_state _ H1) as H2. set (v := be_value b) in *. clearbody v.
  assert (SB : 0 <= v / 2147483648 < 2) by (split; [apply Z.div_pos; lia|apply Z.div_lt_upper_bound; lia]). set (sign := v / 2147483648) in *. clearbody sign.
  set (j := Z.land v 2147483647). assert (IB : (Z.to_nat (Z.land j 127) < 128)%nat). { change 127 with (Z.ones 7). rewrite Z.land_ones by lia. pose proof (Z.mod_pos_bound j (2 ^ 7) ltac:(lia)). change (2 ^ 7) with 128 in *. lia. }
  set (i := Z.to_nat (Z.land j 127)) in *. clearbody i. clearbody j. destruct (wn_ok i IB) as (w & ->). cbn [bind]. destruct (table_ok kn i eq_refl IB) as (k & ->). cbn [bind]. destruct (j <? k); [split; assumption|].
  destruct (Nat.eqb i 0).
  - pose proof (tail_ok log s HS (S fuel) _ H2) as T. destruct (tail (S fuel) log s _) as [[x st']| |]; cbn [bind]; [split; assumption|exact I|exact T].
  - pose proof (ready_word s _ HS H2) as H3. destruct (word_slice _ 8 (le_n 8) H3) as (b3 & -> & _). cbn [bind]. destruct (fn_ok i IB) as (f1 & ->). cbn [bind]. destruct (fn_ok (i - 1) ltac:(lia)) as (f0 & ->). cbn [bind]. destruct (Bltb _ _); [split; [exact SB|apply advance_state; exact H3]|]. apply IH, advance_state. exact H3.
Qed.
Lemma to_u64_word other x : word_valued other -> u64 (f64_to_u64 other x).
Proof. intros HO. unfold f64_to_u64. destruct (is_finite x && (0 <=? f64_trunc x) && (f64_trunc x <? W)) eqn:E; [|apply HO]. apply andb_true_iff in E. destruct E as [E1 E2]. apply andb_true_iff in E1. destruct E1 as [_ E1]. split; [apply Z.leb_le; exact E1|apply Z.ltb_lt; exact E2]. Qed.
Lemma sample_ok log exp other s sigma bound : byte_stream s -> word_valued other -> 0 <= bound < W -> forall fuel st, gauss_state st ->
  match sample fuel log exp other s sigma bound st with Ret (c, sign, st') => 0 <= c <= bound /\ 0 <= sign < 2 /\ gauss_state st' | Fail => True | Panic => False end.
Proof.
  intros HS HO HB. induction fuel as [|fuel IH]; intros st HG; [exact I|]. cbn [sample]. pose proof (norm_ok log exp s HS (S fuel) st HG) as N. destruct (normFloat64 (S fuel) log exp s st) as [[[x sign] st']| |]; cbn [bind]; [|exact I|exact N]. destruct N as [N1 N2].
  match goal with |- context [f64_to_u64 other ?y] => pose proof (to_u64_word other y HO) as U; set (c := f64_to_u64 other y) in * end. clearbody c. unfold w64. rewrite (Z.mod_small bound) by exact HB. destruct (Z.leb_spec c bound) as [H|H]; [|apply IH; exact N2]. split; [unfold u64 in U; lia|]. split; assumption.
Qed.

(** The loop over the coefficients. *)
Lemma set_column_length ms : forall pol i f, length (set_column ms pol i f) = length pol.
Proof. induction ms as [|m ms IH]; intros [|row pol] i f; cbn [set_column length]; try reflexivity. rewrite IH. reflexivity. Qed.
Lemma set_column_row ms : forall pol i f k, nth k (set_column ms pol i f) [] = if Nat.ltb k (length ms) && Nat.ltb k (length pol) then upd (nth k pol []) i (f (nth i (nth k pol []) 0) (mq (nth k ms modp0))) else nth k pol [].
Proof.
  induction ms as [|m ms IH]; intros pol i f k; [destruct pol, k; reflexivity|]. destruct pol as [|row pol]; [cbn [set_column length]; rewrite andb_comm; destruct k; reflexivity|]. cbn [set_column]. destruct k as [|k]; [reflexivity|]. cbn [nth length]. rewrite IH. reflexivity.
Qed.
Lemma gauss_loop_ok log exp other s sigma bound ms put fuel : byte_stream s -> word_valued other -> 0 <= bound < W -> forall n i0 pol st, gauss_state st ->
  (forall k, (k < length ms)%nat -> (k < length pol)%nat /\ (i0 + n <= length (nth k pol []))%nat) ->
  match gauss_loop fuel log exp other s sigma bound ms put (seq i0 n) pol st with
  | Ret (pol', st') => gauss_state st' /\ length pol' = length pol /\ (forall k, (length ms <= k)%nat -> nth k pol' [] = nth k pol []) /\
      exists c sign, (forall i, 0 <= c i <= bound) /\ (forall i, 0 <= sign i < 2) /\ forall k, (k < length ms)%nat -> length (nth k pol' []) = length (nth k pol []) /\
        forall i, nth i (nth k pol' []) 0 = if Nat.leb i0 i && Nat.ltb i (i0 + n) then put (c i) (sign i) (nth i (nth k pol []) 0) (mq (nth k ms modp0)) else nth i (nth k pol []) 0
  | Fail => True | Panic => False end.
Proof.
  intros HS HO HB. induction n as [|n IH]; intros i0 pol st HG HP; cbn [seq gauss_loop].
  - split; [exact HG|]. split; [reflexivity|]. split; [reflexivity|]. exists (fun _ => 0), (fun _ => 0). split; [intros; lia|]. split; [intros; lia|]. intros k Hk. split; [reflexivity|]. intros i. destruct (Nat.leb_spec i0 i), (Nat.ltb_spec i (i0 + 0)); try lia; reflexivity.
  - pose proof (sample_ok log exp other s sigma bound HS HO HB fuel st HG) as SO. destruct (sample _ _ _ _ _ _ _ _) as [[[c0 sg0] st1]| |]; cbn [bind]; [|exact I|exact SO]. destruct SO as (C0 & S0 & G1).
    specialize (IH (S i0) (set_column ms pol i0 (fun old q => put c0 sg0 old q)) st1 G1).
    assert (ER : forall k, (k < length ms)%nat -> nth k (set_column ms pol i0 (fun old q => put c0 sg0 old q)) [] = upd (nth k pol []) i0 (put c0 sg0 (nth i0 (nth k pol []) 0) (mq (nth k ms modp0)))).
    { intros k Hk. rewrite set_column_row. destruct (HP k Hk) as [HP1 _]. rewrite (proj2 (Nat.ltb_lt _ _) Hk), (proj2 (Nat.ltb_lt _ _) HP1). reflexivity. }
    assert (HP' : forall k, (k < length ms)%nat -> (k < length (set_column ms pol i0 (fun old q => put c0 sg0 old q)))%nat /\ (S i0 + n <= length (nth k (set_column ms pol i0 (fun old q => put c0 sg0 old q)) []))%nat).
    { intros k Hk. rewrite set_column_length, (ER k Hk), upd_nth_length. destruct (HP k Hk). split; [assumption|lia]. }
    specialize (IH HP'). destruct (gauss_loop _ _ _ _ _ _ _ _ _ _ _ _) as [[pol' st']| |]; [|exact I|exact IH]. destruct IH as (G' & L & A & c & sign & CB & SB & R). split; [exact G'|]. split; [rewrite L, set_column_length; reflexivity|].
    split; [intros k Hk; rewrite (A k Hk), set_column_row, (proj2 (Nat.ltb_ge _ _) Hk); reflexivity|].
    exists (fun i => if Nat.eqb i i0 then c0 else c i), (fun i => if Nat.eqb i i0 then sg0 else sign i). split; [intros i; destruct (Nat.eqb i i0); [exact C0|apply CB]|]. split; [intros i; destruct (Nat.eqb i i0); [exact S0|apply SB]|].
    intros k Hk. destruct (R k Hk) as [R1 R2]. rewrite (ER k Hk) in *. rewrite upd_nth_length in R1. split; [exact R1|]. intros i. rewrite R2. destruct (HP k Hk) as [_ HL]. destruct (Nat.eqb_spec i i0) as [->|NE].
    + rewrite (proj2 (Nat.leb_gt (S i0) i0)) by lia. cbn [andb]. rewrite nth_upd by lia. rewrite Nat.eqb_refl, Nat.leb_refl, (proj2 (Nat.ltb_lt _ _)) by lia. reflexivity.
    + rewrite !nth_upd by lia. rewrite (proj2 (Nat.eqb_neq i i0) NE). destruct (Nat.leb_spec (S i0) i), (Nat.leb_spec i0 i), (Nat.ltb_spec i (S i0 + n)), (Nat.ltb_spec i (i0 + S n)); try lia; reflexivity.
Qed.
Lemma gauss_poly_ok r : built_ring 2 r -> forall log exp other s sigma bound level put pol st fuel, byte_stream s -> word_valued other -> 0 <= bound < W -> gauss_state st -> (level < length (rmods r))%nat -> has_rows (rN r) level pol ->
  match gauss_poly fuel log exp other s r sigma bound level put pol st with
  | Ret (pol', st') => gauss_state st' /\ exists c sign, (forall i, 0 <= c i <= bound) /\ (forall i, 0 <= sign i < 2) /\ mapped_rows r level (fun q i old => put (c i) (sign i) old q) pol pol'
  | Fail => True | Panic => False end.
Proof.
  intros HB log exp other s sigma bound level put pol st fuel HS HO HBd HG HL (HP1 & HP2). unfold gauss_poly. assert (LM : length (firstn (level + 1) (rmods r)) = (level + 1)%nat) by (apply firstn_len; lia).
  rewrite (proj2 (Nat.ltb_lt _ _) HL). rewrite room_ok; [|lia|rewrite LM; apply has_rows_forall; [intros i Hi; apply HP2; lia|lia]]. cbn [andb].
  pose proof (gauss_loop_ok log exp other s sigma bound (firstn (level + 1) (rmods r)) put fuel HS HO HBd (rN r) 0 pol (refill s st) (refill_state s st HS HG)) as R. rewrite LM in R.
  specialize (R ltac:(intros k Hk; split; [lia|rewrite HP2 by lia; lia])). destruct (gauss_loop _ _ _ _ _ _ _ _ _ _ _ _) as [[pol' st']| |]; [|exact I|exact R]. destruct R as (G' & L & A & c & sign & CB & SB & R). split; [exact G'|]. exists c, sign. split; [exact CB|]. split; [exact SB|].
  split; [exact L|]. split; [intros k Hk; apply A; lia|]. intros k Hk. destruct (R k ltac:(lia)) as [R1 R2]. rewrite HP2 in R1 by exact Hk. apply nth_ext with (d := 0) (d' := 0); [rewrite map_length, seq_length; exact R1|]. rewrite R1. intros i Hi. rewrite R2. cbn [Nat.leb andb]. rewrite (proj2 (Nat.ltb_lt _ _)) by lia.
  set (F := fun i => put (c i) (sign i) (nth i (nth k pol []) 0) (mq (rmod r k))). change (put (c i) (sign i) (nth i (nth k pol []) 0) (mq (nth k (firstn (level + 1) (rmods r)) modp0)) = nth i (map F (seq 0 (rN r))) 0). rewrite (nth_indep (map F (seq 0 (rN r))) 0 (F 0%nat)) by (rewrite map_length, seq_length; exact Hi). rewrite (map_nth F), seq_nth by exact Hi. unfold F. cbn [Nat.add]. rewrite nth_firstn by lia. reflexivity.
Qed.
Lemma mapped_ext r level f f' pol pol' : (forall k i, (k <= level)%nat -> (i < rN r)%nat -> f (mq (rmod r k)) i (nth i (nth k pol []) 0) = f' (mq (rmod r k)) i (nth i (nth k pol []) 0)) -> mapped_rows r level f pol pol' -> mapped_rows r level f' pol pol'.
Proof. intros H (L & A & B). split; [exact L|]. split; [exact A|]. intros k Hk. rewrite (B k Hk). apply map_ext_in. intros i Hi. apply in_seq in Hi. apply H; [exact Hk|lia]. Qed.
(** The signed integer. *)
Definition signed (c sign : Z) : Z := if sign =? 1 then c else - c.
Lemma gauss_value_spec c sign q : 0 <= c < q -> q < W -> 0 <= sign < 2 -> gauss_value c sign q = if sign =? 1 then c else q - c.
Proof.
  intros Hc Hq Hs. unfold gauss_value, wmul, wsub, w64. assert (E : sign = 0 \/ sign = 1) by lia. destruct E as [-> | ->].
  - change (0 =? 1) with false. cbv iota. rewrite Z.mul_0_r, (Z.mod_0_l W) by discriminate. change (Z.lxor 0 1) with 1. rewrite Z.mul_1_r, Z.lor_0_l. rewrite Z.mod_mod by discriminate. apply Z.mod_small. lia.
  - change (1 =? 1) with true. cbv iota. change (Z.lxor 1 1) with 0. rewrite Z.mul_0_r, (Z.mod_0_l W) by discriminate. rewrite Z.lor_0_r, Z.mul_1_r. apply Z.mod_small. lia.
Qed.
Lemma modulus_small r : built_ring 2 r -> forall k, (k < length (rmods r))%nat -> 2 <= mq (rmod r k) /\ 2 * mq (rmod r k) < W.
Proof.
  intros HB k Hk. destruct (built_masks 2 r ltac:(lia) HB (rmod r k)) as (L & HL & _ & HQ); [apply nth_In; exact Hk|]. assert (0 < 2 ^ (L - 1)) by (apply Z.pow_pos_nonneg; lia). assert (2 ^ L <= 2 ^ 63) by (apply Z.pow_le_mono_r; lia). change (2 ^ 63) with 9223372036854775808 in *. unfold W. lia.
Qed.
Lemma gauss_read r : built_ring 2 r -> forall log exp other s sigma bound level pol st fuel, byte_stream s -> word_valued other -> 0 <= bound -> gauss_state st -> (level < length (rmods r))%nat -> has_rows (rN r) level pol ->
  (forall k, (k <= level)%nat -> bound < mq (rmod r k)) ->
  match Gauss_ReadLvl fuel log exp other s r sigma bound level pol st with
  | Ret (pol', st') => gauss_state st' /\ exists e negative, (forall i, - bound <= e i <= bound) /\ (forall i, if negative i : bool then e i <= 0 else 0 <= e i) /\
      mapped_rows r level (fun q i _ => if negative i && (e i =? 0) then q else e i mod q) pol pol'
  | Fail => True | Panic => False end.
Proof.
  intros HB log exp other s sigma bound level pol st fuel HS HO HB0 HG HL HP HQ. assert (HBW : 0 <= bound < W) by (split; [exact HB0|]; pose proof (HQ 0%nat ltac:(lia)); pose proof (modulus_small r HB 0 ltac:(lia)); lia).
  unfold Gauss_ReadLvl. pose proof (gauss_poly_ok r HB log exp other s sigma bound level (fun c sign _ q => gauss_value c sign q) pol st fuel HS HO HBW HG HL HP) as R. destruct (gauss_poly _ _ _ _ _ _ _ _ _ _ _ _) as [[pol' st']| |]; [|exact I|exact R]. destruct R as (G' & c & sign & CB & SB & M). split; [exact G'|].
  exists (fun i => signed (c i) (sign i)), (fun i => negb (sign i =? 1)). split; [intros i; unfold signed; pose proof (CB i); destruct (sign i =? 1); lia|]. split; [intros i; unfold signed; pose proof (CB i); destruct (sign i =? 1); cbn [negb]; lia|].
  revert M. apply mapped_ext. intros k i Hk Hi. pose proof (HQ k Hk) as Qk. pose proof (modulus_small r HB k ltac:(lia)) as [Q2 QW]. pose proof (CB i) as Ci. rewrite gauss_value_spec by (try apply SB; lia). unfold signed. destruct (sign i =? 1) eqn:ES; cbn [negb andb].
  - symmetry. apply Z.mod_small. lia.
  - destruct (Z.eqb_spec (- c i) 0) as [E|E]; [lia|]. apply Z.mod_unique_pos with (q := -1); lia.
Qed.
Lemma gauss_add r : built_ring 2 r -> forall log exp other s sigma bound level pol st fuel, byte_stream s -> word_valued other -> 0 <= bound -> gauss_state st -> (level < length (rmods r))%nat -> words r level canon pol ->
  (forall k, (k <= level)%nat -> bound < mq (rmod r k)) ->
  match Gauss_ReadAndAddLvl fuel log exp other s r sigma bound level pol st with
  | Ret (pol', st') => gauss_state st' /\ exists e, (forall i, - bound <= e i <= bound) /\ mapped_rows r level (fun q i old => (old + e i) mod q) pol pol'
  | Fail => True | Panic => False end.
Proof.
  intros HB log exp other s sigma bound level pol st fuel HS HO HB0 HG HL (HW1 & HW2) HQ. assert (HBW : 0 <= bound < W) by (split; [exact HB0|]; pose proof (HQ 0%nat ltac:(lia)); pose proof (modulus_small r HB 0 ltac:(lia)); lia).
  assert (HP : has_rows (rN r) level pol) by (split; [exact HW1|]; intros i Hi; apply HW2; exact Hi).
  unfold Gauss_ReadAndAddLvl. pose proof (gauss_poly_ok r HB log exp other s sigma bound level (fun c sign old q => CRed (wadd old (gauss_value c sign q)) q) pol st fuel HS HO HBW HG HL HP) as R. destruct (gauss_poly _ _ _ _ _ _ _ _ _ _ _ _) as [[pol' st']| |]; [|exact I|exact R]. destruct R as (G' & c & sign & CB & SB & M). split; [exact G'|].
  exists (fun i => signed (c i) (sign i)). split; [intros i; unfold signed; pose proof (CB i); destruct (sign i =? 1); lia|].
  revert M. apply mapped_ext. intros k i Hk Hi. pose proof (HQ k Hk) as Qk. pose proof (modulus_small r HB k ltac:(lia)) as [Q2 QW]. pose proof (CB i) as Ci. destruct (HW2 k Hk) as [_ HW3]. specialize (HW3 i Hi). unfold coeff, canon in HW3. set (old := nth i (nth k pol []) 0) in *. clearbody old. set (q := mq (rmod r k)) in *. clearbody q.
  rewrite gauss_value_spec by (try apply SB; lia). unfold signed. set (ci := c i) in *. clearbody ci. clear - Q2 QW Ci HW3 Qk. unfold CRed, csub, wadd, w64. destruct (sign i =? 1).
  - rewrite (Z.mod_small (old + ci) W) by lia. destruct (Z.leb_spec q (old + ci)) as [H|H]; [unfold wsub, w64; rewrite Z.mod_small by lia; apply Z.mod_unique_pos with (q := 1); lia|symmetry; apply Z.mod_small; lia].
  - rewrite (Z.mod_small (old + (q - ci)) W) by lia. destruct (Z.leb_spec q (old + (q - ci))) as [H|H]; [unfold wsub, w64; rewrite Z.mod_small by lia; apply Z.mod_unique_pos with (q := 0); lia|]. apply Z.mod_unique_pos with (q := -1); lia.
Qed.
