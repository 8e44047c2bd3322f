(** The uniform sampler of a ring. *)
From Coq Require Import Znumtheory.
From Verif Require Import Word Arith ModRed ModRedProofs Ring RingProofs NTTProofs RingOps RNSSpec Codec CodecSpec CodecProofs CodecTop Sampler SamplerSpec SamplerProofs.

Lemma built_degree c r : 2 <= c -> built_ring c r -> exists M, (2 <= M)%nat /\ rN r = (8 * M)%nat.
Proof.
  intros Hc (fuel & N & ms & H & HN & Hms). destruct (NewRing_wf fuel N ms r HN) as (k & _ & Hw & _); [intros q Hq; specialize (Hms q Hq); unfold W in *; nia|exact H|].
  destruct Hw as [E [L _] _ _ _ _ _]. exists (2 ^ (k - 3))%nat. split.
  - replace (k - 3)%nat with (S (k - 4)) by lia. cbn [Nat.pow]. pose proof (Nat.pow_nonzero 2 (k - 4)). lia.
  - rewrite E. replace k with (3 + (k - 3))%nat at 1 by lia. rewrite Nat.pow_add_r. reflexivity.
Qed.
Lemma mask_of q : prime q -> q <> 2 -> q <= 9223372036854775808 -> exists L, 1 <= L <= 63 /\ wsub (wshl 1 (Len64 q)) 1 = 2 ^ L - 1 /\ 2 ^ (L - 1) < q < 2 ^ L.
Proof.
  intros EP Q2 HE. pose proof (prime_ge_2 q EP) as GQ.
  assert (LG := Z.log2_spec q ltac:(lia)). pose proof (Z.log2_nonneg q) as LN.
  assert (NE : q <> 2 ^ Z.log2 q).
  { intros Eq. destruct (Z.eq_dec (Z.log2 q) 0) as [E0|E0]; [rewrite E0 in Eq; change (2 ^ 0) with 1 in Eq; lia|]. assert (D : (2 | q)) by (rewrite Eq; exists (2 ^ (Z.log2 q - 1)); rewrite Z.mul_comm, <- Z.pow_succ_r by lia; f_equal; lia).
    destruct (prime_divisors q EP 2 D) as [|[|[|]]]; lia. }
  assert (QB : q < 2 ^ 63). { change (2 ^ 63) with 9223372036854775808. destruct (Z.eq_dec q 9223372036854775808) as [E|E]; [|lia]. exfalso. apply NE. rewrite E. reflexivity. }
  assert (LB : Z.log2 q < 63) by (apply Z.log2_lt_pow2; lia).
  exists (Len64 q). unfold Len64. rewrite (proj2 (Z.eqb_neq q 0)) by lia. split; [lia|]. split.
  - unfold wsub, wshl, w64. assert (PB : 2 ^ (Z.log2 q + 1) <= 2 ^ 63) by (apply Z.pow_le_mono_r; lia). assert (PP : 0 < 2 ^ (Z.log2 q + 1)) by (apply Z.pow_pos_nonneg; lia).
    rewrite Z.mul_1_l. set (P := 2 ^ (Z.log2 q + 1)) in *. clearbody P. change (2 ^ 63) with 9223372036854775808 in PB. unfold W. rewrite (Z.mod_small P) by lia. apply Z.mod_small. lia.
  - replace (Z.log2 q + 1 - 1) with (Z.log2 q) by lia. replace (Z.log2 q + 1) with (Z.succ (Z.log2 q)) by lia. lia.
Qed.
Lemma gen_modp_mask fuel n q m : gen_modp fuel n q = Some m -> mmask m = wsub (wshl 1 (Len64 q)) 1 /\ mq m = q.
Proof. unfold gen_modp. destruct (primitiveRoot fuel q); intros H; [|discriminate]. apply (f_equal (fun o => match o with Some x => x | None => m end)) in H. rewrite <- H. split; reflexivity. Qed.
Lemma new_ring_modp fuel N ms r m : NewRing fuel N ms = inl r -> In m (rmods r) -> exists q, In q ms /\ IsPrime q = true /\ Z.land q (2 * N - 1) = 1 /\ gen_modp fuel (2 * N) q = Some m.
Proof.
  unfold NewRing, NewRingWithCustomNTT. intros H Hm. destruct (_ || _); [discriminate|]. destruct (Nat.eqb _ _); [discriminate|]. destruct (negb (AllDistinct ms)); [discriminate|]. destruct (forallb IsPrime ms) eqn:EP; [|discriminate]. cbn [negb] in H.
  destruct (forallb (fun qi => Z.land qi (2 * N - 1) =? 1) ms) eqn:ER; [|discriminate]. cbn [negb] in H.
  destruct (sequence (map (gen_modp fuel (2 * N)) ms)) as [mps|] eqn:ES; [|discriminate]. apply (f_equal (fun o => match o with inl x => rmods x | inr _ => [] end)) in H. cbn [rmods] in H. rewrite <- H in Hm. apply sequence_spec in ES.
  assert (EG : exists q, In q ms /\ gen_modp fuel (2 * N) q = Some m).
  { clear - ES Hm. induction ES as [|q m' ms mps E _ IH]; [contradiction|]. destruct Hm as [->|Hm]; [exists q; split; [left; reflexivity|exact E]|]. destruct (IH Hm) as (q' & I & E'). exists q'. split; [right; exact I|exact E']. }
  destruct EG as (q & I & E). exists q. rewrite forallb_forall in ER, EP. split; [exact I|]. split; [exact (EP q I)|]. split; [apply Z.eqb_eq; exact (ER q I)|exact E].
Qed.
Lemma built_masks c r : 2 <= c -> built_ring c r -> forall m, In m (rmods r) -> exists L, 1 <= L <= 63 /\ mmask m = 2 ^ L - 1 /\ 2 ^ (L - 1) < mq m < 2 ^ L.
Proof.
  intros Hc (fuel & N & ms & H & HN & Hms) m Hm. destruct (new_ring_modp fuel N ms r m H Hm) as (q & Hq & EP & ER & EG). destruct (gen_modp_mask _ _ _ _ EG) as [-> ->]. apply IsPrime_spec in EP. pose proof (prime_ge_2 q EP) as GQ.
  assert (Q2 : q <> 2). { intros ->. apply (f_equal Z.odd) in ER. rewrite <- Z.bit0_odd, Z.land_spec in ER. discriminate ER. }
  apply mask_of; [exact EP|exact Q2|]. specialize (Hms q Hq). clear - Hms Hc GQ. unfold W in Hms. nia.
Qed.

Lemma start_pool s M g : pool_at s M (pos g) (clock g) (mkPool (block s (pos g) (8 * M)) 0 (mkPrng (wadd (clock g) 1) (pos g + 8 * M))) 0.
Proof. exists 0%nat, 0%nat. cbn [pbuf pptr pgen]. split; [lia|]. split; [lia|]. split; [lia|]. split; [f_equal; lia|]. split; [reflexivity|]. f_equal; lia. Qed.
(** The number of blocks of N bytes read for k words. *)
Definition blocks_for (N k : nat) : nat := ((8 * k + N - 1) / N)%nat.
Lemma end_pool s M p0 c0 b k : (0 < M)%nat -> (k <> 0)%nat -> pool_at s M p0 c0 b k -> pgen b = mkPrng (w64 (c0 + Z.of_nat (blocks_for (8 * M) k))) (p0 + 8 * M * blocks_for (8 * M) k).
Proof.
  intros HM H0 (c & t & Ht & Hk & HT & _ & _ & HG). specialize (HT H0). assert (E : blocks_for (8 * M) k = S c).
  { unfold blocks_for. symmetry. apply (Nat.div_unique _ _ _ (8 * t - 1)%nat); nia. }
  rewrite E. exact HG.
Qed.
Lemma accepted_det n s p mask q k k1 v1 k2 v2 : accepted n s p mask q k k1 v1 -> accepted n s p mask q k k2 v2 -> k1 = k2 /\ v1 = v2.
Proof.
  intros (A1 & A2 & A3 & A4) (B1 & B2 & B3 & B4). assert (k1 = k2).
  { destruct (Nat.lt_total k1 k2) as [H|[H|H]]; [specialize (B4 k1 ltac:(lia)); lia|exact H|specialize (A4 k2 ltac:(lia)); lia]. }
  subst k2. split; congruence.
Qed.
Lemma drawn_det n s p l : forall k v1 k1 v2 k2, drawn n s p l k v1 k1 -> drawn n s p l k v2 k2 -> v1 = v2 /\ k1 = k2.
Proof.
  induction l as [|[mask q] l IH]; intros k v1 k1 v2 k2 H1 H2.
  - inversion H1; inversion H2; subst. split; congruence.
  - inversion H1 as [|? ? ? ? a1 x1 l1 ? A1 D1]; subst. inversion H2 as [|? ? ? ? a2 x2 l2 ? A2 D2]; subst. destruct (accepted_det _ _ _ _ _ _ _ _ _ _ A1 A2) as [<- <-]. destruct (IH _ _ _ _ _ D1 D2) as [<- <-]. split; reflexivity.
Qed.
Lemma app_split {A} n (x y a b : list A) : length x = n -> length y = n -> x ++ a = y ++ b -> x = y /\ a = b.
Proof. intros HX HY E. split; [apply (f_equal (firstn n)) in E; rewrite <- HX in E at 1; rewrite <- HY in E; rewrite !firstn_exact in E; exact E|apply (f_equal (skipn n)) in E; rewrite <- HX in E at 1; rewrite <- HY in E; rewrite !skipn_exact in E; exact E]. Qed.
Lemma concat_inj (n : nat) : forall a b : rows, Forall (fun x => length x = n) a -> Forall (fun x => length x = n) b -> length a = length b -> concat a = concat b -> a = b.
Proof.
  induction a as [|x a IH]; intros [|y b] FA FB L E; cbn in L; try lia; [reflexivity|]. cbn [concat] in E. pose proof (Forall_inv FA) as HX. pose proof (Forall_inv FB) as HY. cbn beta in HX, HY. 
  destruct (app_split n x y _ _ HX HY E) as [-> H]. f_equal. apply IH; [exact (Forall_inv_tail FA)|exact (Forall_inv_tail FB)|lia|exact H].
Qed.
Lemma has_rows_forall N n : forall pol, (forall i, (i < n)%nat -> length (nth i pol []) = N) -> (n <= length pol)%nat -> Forall (fun row : list Z => length row = N) (firstn n pol).
Proof.
  induction n as [|n IH]; intros pol H L; [constructor|]. destruct pol as [|x pol]; [cbn in L; lia|]. cbn [firstn]. constructor; [exact (H 0%nat ltac:(lia))|]. apply IH; [intros i Hi; exact (H (S i) ltac:(lia))|cbn in L; lia].
Qed.
Lemma forall_has_rows N n : forall pol, Forall (fun row : list Z => length row = N) (firstn n pol) -> (n <= length pol)%nat -> forall i, (i < n)%nat -> length (nth i pol []) = N.
Proof.
  induction n as [|n IH]; intros pol F L i Hi; [lia|]. destruct pol as [|x pol]; [cbn in L; lia|]. cbn [firstn length] in *. destruct i as [|i]; [exact (Forall_inv F)|]. cbn [nth]. apply IH; [exact (Forall_inv_tail F)|lia|lia].
Qed.
Lemma room_ok N ms pol : (length ms <= length pol)%nat -> Forall (fun row : list Z => length row = N) (firstn (length ms) pol) -> room N ms pol = true.
Proof.
  intros L F. unfold room. rewrite (proj2 (Nat.leb_le _ _) L). cbn [andb]. apply forallb_forall. intros row Hr. rewrite Forall_forall in F. apply Nat.leb_le. rewrite (F row Hr). lia.
Qed.

Lemma firstn_len {A} n (l : list A) : (n <= length l)%nat -> length (firstn n l) = n.
Proof. intros H. rewrite firstn_length. lia. Qed.
Lemma uniform_sound r : built_ring 2 r -> forall s level pol g fuel, (level < length (rmods r))%nat -> has_rows (rN r) level pol ->
  match Uniform_ReadLvl fuel s r level pol g with Ret (pol', g') => read_result s r level pol g pol' g' | Fail => True | Panic => False end.
Proof.
  intros HB s level pol g fuel HL (HP1 & HP2). destruct (built_degree 2 r ltac:(lia) HB) as (M & HM & EN). unfold Uniform_ReadLvl, Clock, read_result, targets. rewrite (proj2 (Nat.ltb_lt _ _) HL). rewrite EN in *.
  set (ms := firstn (level + 1) (rmods r)). assert (LM : length ms = (level + 1)%nat) by (apply firstn_len; lia).
  assert (F : Forall (fun row => length row = (8 * M)%nat) (firstn (length ms) pol)) by (rewrite LM; apply has_rows_forall; [intros i Hi; apply HP2; lia|lia]).
  pose proof (rows_sound s M (pos g) (clock g) fuel ms ltac:(lia) pol _ 0%nat (start_pool s M g) (room_ok _ ms pol ltac:(lia) F) F) as R.
  destruct (draw_rows fuel s (8 * M) ms pol _) as [[pol' b']| |]; cbn [bind]; [|exact I|exact R]. destruct R as (vs & ke & D & HB' & L & S & F' & C). rewrite LM in *. exists ke. rewrite C.
  assert (K0 : (ke <> 0)%nat). { intros ->. destruct (drawn_le _ _ _ _ _ _ _ D) as [_ LD]. inversion D as [? E1 E2 E3|? ? ? ? ? ? ? ? A D' E1 E2 E3]; subst; [|apply drawn_le in D'; lia]. 
    apply (f_equal (@length _)) in E1. destruct ms as [|m ms']; [cbn in LM; lia|]. cbn [flat_map] in E1. rewrite app_length, repeat_length in E1. cbn [length] in E1. lia. }
  split; [exact D|]. split; [exact L|]. split; [exact S|]. split.
  - split; [lia|]. intros i Hi. apply (forall_has_rows (8 * M) (level + 1) pol' F'); lia.
  - apply (end_pool s M _ _ _ _ ltac:(lia) K0 HB').
Qed.
Lemma uniform_complete r : built_ring 2 r -> forall s level pol g pol' g', (level < length (rmods r))%nat -> has_rows (rN r) level pol ->
  read_result s r level pol g pol' g' -> exists fuel, Uniform_ReadLvl fuel s r level pol g = Ret (pol', g').
Proof.
  intros HB s level pol g pol' g' HL HP (ke & D & L & S & HR & E). exists (ke + 1)%nat. pose proof (uniform_sound r HB s level pol g (ke + 1) HL HP) as US.
  assert (R : exists pol2 g2, Uniform_ReadLvl (ke + 1) s r level pol g = Ret (pol2, g2)).
  { destruct (built_degree 2 r ltac:(lia) HB) as (M & HM & EN). unfold Uniform_ReadLvl, Clock. rewrite (proj2 (Nat.ltb_lt _ _) HL). unfold targets in D. rewrite EN in *. set (ms := firstn (level + 1) (rmods r)) in *. assert (LM : length ms = (level + 1)%nat) by (apply firstn_len; lia).
    destruct HP as (HP1 & HP2).
    assert (F : Forall (fun row => length row = (8 * M)%nat) (firstn (length ms) pol)) by (rewrite LM; apply has_rows_forall; [intros i Hi; apply HP2; lia|lia]).
    destruct (rows_complete s M (pos g) (clock g) (ke + 1) ms ke ltac:(lia) ltac:(lia) pol _ 0%nat _ (start_pool s M g) (room_ok _ ms pol ltac:(lia) F) D) as (pol2 & b2 & E2). rewrite E2. cbn [bind]. eauto. }
  destruct R as (pol2 & g2 & R). rewrite R in US |- *. destruct US as (ke2 & D2 & L2 & S2 & HR2 & ->). destruct (drawn_det _ _ _ _ _ _ _ _ _ D D2) as [EC <-]. rewrite E. f_equal. f_equal.
  rewrite <- (firstn_skipn (level + 1) pol2), <- (firstn_skipn (level + 1) pol'). destruct HR as (HR1 & HR3), HR2 as (HR2 & HR4). f_equal; [|congruence]. apply (concat_inj (rN r)); [| | |symmetry; exact EC].
  - apply has_rows_forall; [intros i Hi; apply HR4; lia|lia].
  - apply has_rows_forall; [intros i Hi; apply HR3; lia|lia].
  - rewrite !firstn_len by lia. reflexivity.
Qed.
Lemma uniform_iff r : built_ring 2 r -> forall s level pol g pol' g', (level < length (rmods r))%nat -> has_rows (rN r) level pol ->
  ((exists fuel, Uniform_ReadLvl fuel s r level pol g = Ret (pol', g')) <-> read_result s r level pol g pol' g').
Proof.
  intros HB s level pol g pol' g' HL HP. split; [|apply uniform_complete; assumption]. intros [fuel E]. pose proof (uniform_sound r HB s level pol g fuel HL HP) as US. rewrite E in US. exact US.
Qed.
Lemma uniform_no_panic r : built_ring 2 r -> forall s level pol g fuel, (level < length (rmods r))%nat -> has_rows (rN r) level pol -> Uniform_ReadLvl fuel s r level pol g <> Panic.
Proof. intros HB s level pol g fuel HL HP E. pose proof (uniform_sound r HB s level pol g fuel HL HP) as US. rewrite E in US. exact US. Qed.
Lemma read_all r pol : (0 < length pol <= length (rmods r))%nat -> forall fuel s g, Uniform_Read fuel s r pol g = Uniform_ReadLvl fuel s r (length pol - 1) pol g.
Proof. intros H fuel s g. unfold Uniform_Read, Uniform_ReadLvl, Clock. rewrite (proj2 (Nat.leb_le _ _)), (proj2 (Nat.ltb_lt _ _)) by lia. replace (length pol - 1 + 1)%nat with (length pol) by lia. reflexivity. Qed.

(** The values are below the moduli. *)
Lemma drawn_bounds s p l : (forall mask q, In (mask, q) l -> 0 <= mask) -> forall k vs ke, drawn 8 s p l k vs ke -> Forall2 (fun x v => 0 <= v < snd x) l vs.
Proof.
  intros HM k vs ke D. induction D as [k|mask q l k k' v vs ke (A1 & A2 & A3 & A4) D IH]; constructor.
  - cbn [snd]. split; [|exact A3]. rewrite A2. rewrite Z.land_comm. apply Z.land_nonneg. left. apply (HM mask q). left. reflexivity.
  - apply IH. intros mask' q' I. apply (HM mask' q'). right. exact I.
Qed.
Lemma F2_length {A B} (P : A -> B -> Prop) l l' : Forall2 P l l' -> length l = length l'.
Proof. induction 1; cbn; congruence. Qed.
Lemma bounds_rows N : forall (ms : list modp) (pol : rows), Forall (fun row => length row = N) pol -> length pol = length ms ->
  Forall2 (fun x v => 0 <= v < snd x) (flat_map (fun m => repeat (mmask m, mq m) N) ms) (concat pol) -> forall i k d, (i < length ms)%nat -> (k < N)%nat -> 0 <= nth k (nth i pol []) 0 < mq (nth i ms d).
Proof.
  assert (R : forall n y (l : list Z) (P : Z * Z -> Z -> Prop), Forall2 P (repeat y n) l -> forall k, (k < n)%nat -> P y (nth k l 0)).
  { induction n as [|n IH]; intros y l P F k Hk; [lia|]. cbn [repeat] in F. inversion F; subst. destruct k as [|k]; [assumption|]. cbn [nth]. apply IH; [assumption|lia]. }
  induction ms as [|m ms IH]; intros pol F L F2 i k d Hi Hk; [cbn in Hi; lia|]. destruct pol as [|row pol]; [cbn in L; lia|]. cbn [flat_map concat] in F2. pose proof (Forall_inv F) as LR. cbn beta in LR.
  apply Forall2_app_inv_l in F2. destruct F2 as (l1 & l2 & F1 & F2 & E). pose proof (F2_length _ _ _ F1) as LL. rewrite repeat_length in LL.
  destruct (app_split N row l1 (concat pol) l2 LR ltac:(lia) E) as [-> <-]. destruct i as [|i]; cbn [nth].
  - exact (R N _ _ _ F1 k Hk).
  - apply IH; [exact (Forall_inv_tail F)|cbn in L; lia|exact F2|cbn in Hi; lia|exact Hk].
Qed.
Lemma uniform_canonical r : built_ring 2 r -> forall s level pol g pol' g' fuel, (level < length (rmods r))%nat -> has_rows (rN r) level pol ->
  Uniform_ReadLvl fuel s r level pol g = Ret (pol', g') -> words r level canon pol' /\ length pol' = length pol /\ forall i, (level < i)%nat -> nth i pol' [] = nth i pol [].
Proof.
  intros HB s level pol g pol' g' fuel HL HP E. pose proof (uniform_sound r HB s level pol g fuel HL HP) as US. rewrite E in US. destruct US as (ke & D & L & S & (HR1 & HR2) & _).
  assert (MK : forall mask q, In (mask, q) (targets r level) -> 0 <= mask).
  { intros mask q I. unfold targets in I. apply in_flat_map in I. destruct I as (m & Im & I). apply repeat_spec in I. injection I as -> ->.
    assert (Im' : In m (rmods r)) by (rewrite <- (firstn_skipn (level + 1)); apply in_or_app; left; exact Im).
    destruct (built_masks 2 r ltac:(lia) HB m Im') as (Lm & B & -> & _). assert (0 < 2 ^ Lm) by (apply Z.pow_pos_nonneg; lia). lia. }
  pose proof (drawn_bounds _ _ _ MK _ _ _ D) as F2. split; [|split; [exact L|]].
  - split; [exact HR1|]. intros i Hi. split; [apply HR2; exact Hi|]. intros k Hk. unfold coeff, canon, rmod. assert (LM : length (firstn (level + 1) (rmods r)) = (level + 1)%nat) by (apply firstn_len; lia).
    pose proof (bounds_rows (rN r) (firstn (level + 1) (rmods r)) (firstn (level + 1) pol') (has_rows_forall (rN r) (level + 1) pol' (fun i (Hi : (i < level + 1)%nat) => HR2 i ltac:(lia)) ltac:(lia)) ltac:(rewrite LM, firstn_len by lia; reflexivity) F2 i k modp0 ltac:(lia) Hk) as B.
    rewrite !nth_firstn in B by lia. exact B.
  - intros i Hi. replace i with ((level + 1) + (i - level - 1))%nat by lia. rewrite <- !nth_skipn, S. reflexivity.
Qed.
(** Every value is equally likely: v is the masked part of exactly 2^(64-L) words. *)
Lemma mask_fibres L v w : 0 <= L <= 64 -> 0 <= v < 2 ^ L -> u64 w -> (Z.land w (2 ^ L - 1) = v <-> exists t, 0 <= t < 2 ^ (64 - L) /\ w = v + t * 2 ^ L).
Proof.
  intros HL Hv [W0 W1]. replace (2 ^ L - 1) with (Z.ones L) by (rewrite Z.ones_equiv; lia). rewrite Z.land_ones by lia. assert (PP : 0 < 2 ^ L) by lia. assert (EW : W = 2 ^ (64 - L) * 2 ^ L) by (rewrite <- Z.pow_add_r by lia; replace (64 - L + L) with 64 by lia; reflexivity).
  set (P := 2 ^ L) in *. set (R := 2 ^ (64 - L)) in *. clearbody P R. split.
  - intros E. exists (w / P). pose proof (Z.div_mod w P ltac:(lia)) as DM. split; [|lia]. split; [apply Z.div_pos; lia|]. apply Z.div_lt_upper_bound; lia.
  - intros (t & Ht & ->). rewrite Z.add_comm, Z.mul_comm, Z.add_comm. rewrite Z.mul_comm. rewrite Z_mod_plus_full. apply Z.mod_small. lia.
Qed.
(** Whatever the stream, any other polynomial is read when the accepted words are replaced. *)
Definition set_word (s : stream) (a : nat) (v : Z) : stream := fun j => if Nat.leb a j && Nat.ltb j (a + 8) then nth (j - a) (be_bytes 8 v) 0 else s j.
Lemma set_word_out s a v j : (j < a \/ a + 8 <= j)%nat -> set_word s a v j = s j.
Proof. intros H. unfold set_word. destruct (Nat.leb_spec a j); [|reflexivity]. destruct (Nat.ltb_spec j (a + 8)); [lia|reflexivity]. Qed.
Lemma nth_block s p n i : (i < n)%nat -> nth i (block s p n) 0 = s (p + i)%nat.
Proof. intros H. unfold block. rewrite (nth_indep _ 0 (s 0%nat)) by (rewrite map_length, seq_length; exact H). rewrite map_nth, seq_nth by exact H. reflexivity. Qed.
Lemma set_word_in s a v : u64 v -> be_value (block (set_word s a v) a 8) = v.
Proof.
  intros U. replace (block (set_word s a v) a 8) with (be_bytes 8 v); [rewrite be_value_bytes; apply Z.mod_small; exact U|].
  apply nth_ext with (d := 0) (d' := 0); [rewrite be_bytes_length, block_length; reflexivity|]. rewrite be_bytes_length. intros i Hi. rewrite nth_block by exact Hi. unfold set_word.
  rewrite (proj2 (Nat.leb_le _ _)), (proj2 (Nat.ltb_lt _ _)) by lia. cbn [andb]. f_equal. lia.
Qed.
Lemma block_ext s s' p n : (forall j, (p <= j < p + n)%nat -> s j = s' j) -> block s p n = block s' p n.
Proof. intros H. unfold block. apply map_ext_in. intros j Hj. apply in_seq in Hj. apply H. lia. Qed.
Lemma word_ext s s' p k : (forall j, (p + 8 * k <= j < p + 8 * k + 8)%nat -> s j = s' j) -> stream_word 8 s p k = stream_word 8 s' p k.
Proof. intros H. unfold stream_word. f_equal. apply block_ext. exact H. Qed.
Lemma drawn_ext s s' p l : forall k vs ke, (forall j, (p + 8 * k <= j)%nat -> s j = s' j) -> drawn 8 s p l k vs ke -> drawn 8 s' p l k vs ke.
Proof.
  induction l as [|[mask q] l IH]; intros k vs ke H D; inversion D as [|? ? ? ? k' v vs' ? (A1 & A2 & A3 & A4) D']; subst; [constructor|]. econstructor; [|apply (IH (S k')); [intros j Hj; apply H; lia|exact D']].
  split; [exact A1|]. split; [rewrite (word_ext s' s p k') by (intros j Hj; symmetry; apply H; lia); reflexivity|]. split; [exact A3|]. intros t Ht. rewrite (word_ext s' s p t) by (intros j Hj; symmetry; apply H; lia). apply A4. exact Ht.
Qed.
Definition mask_ok (x : Z * Z) : Prop := exists L, 0 <= L <= 64 /\ fst x = 2 ^ L - 1 /\ snd x <= 2 ^ L.
Lemma relabel s p l : Forall mask_ok l -> forall k vs ke, drawn 8 s p l k vs ke -> forall vs', Forall2 (fun x v => 0 <= v < snd x) l vs' ->
  exists s', (forall j, (j < p + 8 * k \/ p + 8 * ke <= j)%nat -> s' j = s j) /\ drawn 8 s' p l k vs' ke.
Proof.
  intros HM. induction l as [|[mask q] l IH]; intros k vs ke D vs' F; inversion D as [|? ? ? ? k' v vs0 ? (A1 & A2 & A3 & A4) D']; subst.
  - inversion F; subst. exists s. split; [reflexivity|constructor].
  - inversion F as [|? v' ? vs1 B1 F1]; subst. cbn [snd] in B1. pose proof (drawn_le _ _ _ _ _ _ _ D') as [LE _]. destruct (IH (Forall_inv_tail HM) _ _ _ D' vs1 F1) as (s1 & E1 & D1). destruct (Forall_inv HM) as (L & HL & EM & HQ). cbn [fst snd] in EM, HQ.
    assert (U : 2 ^ L <= W) by (change W with (2 ^ 64); apply Z.pow_le_mono_r; lia).
    exists (set_word s1 (p + 8 * k') v'). split.
    + intros j Hj. rewrite set_word_out by lia. apply E1. lia.
    + apply (drawn_cons _ _ _ mask q l k k' v' vs1 ke); [|apply (drawn_ext s1); [intros j Hj; symmetry; apply set_word_out; lia|exact D1]]. split; [exact A1|]. split; [|split; [lia|]].
      * unfold stream_word. rewrite set_word_in by (split; lia). rewrite EM. replace (2 ^ L - 1) with (Z.ones L) by (rewrite Z.ones_equiv; lia). rewrite Z.land_ones by lia. symmetry. apply Z.mod_small. lia.
      * intros t Ht. rewrite (word_ext _ s p t); [apply A4; exact Ht|]. intros j Hj. rewrite set_word_out by lia. apply E1. lia.
Qed.
Lemma rows_bounds N : forall (ms : list modp) (pol : rows), length pol = length ms -> (forall i, (i < length ms)%nat -> length (nth i pol []) = N /\ forall k, (k < N)%nat -> 0 <= nth k (nth i pol []) 0 < mq (nth i ms modp0)) ->
  Forall2 (fun x v => 0 <= v < snd x) (flat_map (fun m => repeat (mmask m, mq m) N) ms) (concat pol).
Proof.
  induction ms as [|m ms IH]; intros pol L H; (destruct pol as [|row pol]; [cbn in L; try lia|]); [constructor|cbn in L; lia|]. cbn [flat_map concat]. apply Forall2_app.
  - destruct (H 0%nat ltac:(cbn; lia)) as [LR B]. cbn [nth] in *. clear - LR B. revert N LR B. induction row as [|x row IH]; intros N <- B; cbn [length repeat]; constructor; [exact (B 0%nat ltac:(cbn; lia))|]. apply IH; [reflexivity|]. intros k Hk. exact (B (S k) ltac:(cbn; lia)).
  - apply IH; [cbn in L; lia|]. intros i Hi. exact (H (S i) ltac:(cbn; lia)).
Qed.
Lemma targets_ok r level : built_ring 2 r -> Forall mask_ok (targets r level).
Proof.
  intros HB. apply Forall_forall. intros [mask q] I. unfold targets in I. apply in_flat_map in I. destruct I as (m & Im & I). apply repeat_spec in I. injection I as -> ->.
  assert (Im' : In m (rmods r)) by (rewrite <- (firstn_skipn (level + 1)); apply in_or_app; left; exact Im).
  destruct (built_masks 2 r ltac:(lia) HB m Im') as (Lm & B & E & Q). exists Lm. cbn [fst snd]. split; [lia|]. split; [exact E|lia].
Qed.
Lemma uniform_relabel r : built_ring 2 r -> forall s level pol g fuel pol' g' target, (level < length (rmods r))%nat -> has_rows (rN r) level pol -> Uniform_ReadLvl fuel s r level pol g = Ret (pol', g') ->
  words r level canon target -> length target = length pol -> skipn (level + 1) target = skipn (level + 1) pol ->
  exists s' fuel', Uniform_ReadLvl fuel' s' r level pol g = Ret (target, g') /\ forall j, (j < pos g \/ pos g' <= j)%nat -> s' j = s j.
Proof.
  intros HB s level pol g fuel pol' g' target HL HP E (T1 & T2) LT ST. pose proof (uniform_sound r HB s level pol g fuel HL HP) as US. rewrite E in US. destruct US as (ke & D & L & S & HR & EG).
  assert (LM : length (firstn (level + 1) (rmods r)) = (level + 1)%nat) by (apply firstn_len; lia).
  assert (F : Forall2 (fun x v => 0 <= v < snd x) (targets r level) (concat (firstn (level + 1) target))).
  { apply rows_bounds; [rewrite LM, firstn_len by lia; reflexivity|]. rewrite LM. intros i Hi. rewrite !nth_firstn by lia. destruct (T2 i ltac:(lia)) as [A B]. split; [exact A|]. exact B. }
  destruct (relabel s (pos g) _ (targets_ok r level HB) _ _ _ D _ F) as (s' & ES & D'). destruct (uniform_complete r HB s' level pol g target g' HL HP) as [fuel' E'].
  - exists ke. split; [exact D'|]. split; [exact LT|]. split; [exact ST|]. split; [|exact EG]. split; [exact T1|]. intros i Hi. apply T2. exact Hi.
  - exists s', fuel'. split; [exact E'|]. intros j Hj. apply ES. rewrite EG in Hj. cbn [pos] in Hj. destruct (built_degree 2 r ltac:(lia) HB) as (M & HM & EN). rewrite EN in Hj.
    assert (8 * ke <= 8 * M * ((8 * ke + 8 * M - 1) / (8 * M)))%nat. { pose proof (Nat.div_mod (8 * ke + 8 * M - 1) (8 * M) ltac:(lia)) as DM. pose proof (Nat.mod_upper_bound (8 * ke + 8 * M - 1) (8 * M) ltac:(lia)). lia. }
    lia.
Qed.
