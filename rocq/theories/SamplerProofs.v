(** Proofs about the generators and the uniform sampler. *)
From Coq Require Import Znumtheory.
From Verif Require Import Word Arith ModRed ModRedProofs Ring RingProofs NTTProofs RingOps RNSSpec Codec CodecSpec CodecProofs CodecTop Sampler SamplerSpec.

(** ** The generator *)
Lemma block_length s p n : length (block s p n) = n.
Proof. unfold block. rewrite map_length, seq_length. reflexivity. Qed.
Lemma clocks_gen s k : forall sum g, pos (snd (clocks s k sum g)) = (pos g + length sum * k)%nat /\ (u64 (clock g + Z.of_nat k) -> u64 (clock g) -> clock (snd (clocks s k sum g)) = clock g + Z.of_nat k) /\
  length (fst (clocks s k sum g)) = length sum /\ ((0 < k)%nat -> fst (clocks s k sum g) = block s (pos g + length sum * (k - 1)) (length sum)).
Proof.
  induction k as [|k IH]; intros sum g; cbn [clocks].
  - cbn [fst snd]. split; [lia|]. split; [intros; lia|]. split; [reflexivity|lia].
  - unfold Clock. cbn iota beta. destruct (IH (block s (pos g) (length sum)) (mkPrng (wadd (clock g) 1) (pos g + length sum))) as (A & B & C & D). cbn [pos clock] in *. rewrite block_length in *.
    split; [rewrite A; lia|]. split.
    + intros U1 U2. assert (E : wadd (clock g) 1 = clock g + 1) by (unfold wadd, w64; apply Z.mod_small; unfold u64 in *; lia). rewrite B; rewrite E; unfold u64 in *; lia.
    + split; [exact C|]. intros _. destruct k as [|k]; [cbn [clocks fst]; f_equal; lia|]. rewrite D by lia. f_equal. lia.
Qed.
Lemma set_clock_spec s sum n g : u64 (clock g) -> u64 n ->
  if n <? clock g then SetClock s sum n g = Fail
  else exists sum' g', SetClock s sum n g = Ret (sum', g') /\ clock g' = n /\ pos g' = (pos g + length sum * Z.to_nat (n - clock g))%nat /\
    (n = clock g -> sum' = sum) /\ (clock g < n -> sum' = block s (pos g + length sum * (Z.to_nat (n - clock g) - 1)) (length sum)).
Proof.
  intros U1 U2. unfold SetClock. destruct (Z.ltb_spec n (clock g)) as [H|H]; [reflexivity|]. destruct (clocks_gen s (Z.to_nat (n - clock g)) sum g) as (A & B & C & D).
  destruct (clocks s _ sum g) as [sum' g'] eqn:E. cbn [fst snd] in *. exists sum', g'. split; [reflexivity|]. split; [rewrite B; unfold u64 in *; lia|]. split; [exact A|].
  split; [intros ->; rewrite Z.sub_diag in E; cbn in E; congruence|]. intros L. apply D. lia.
Qed.
Lemma run_op_spec s g o : u64 (clock g) -> u64 (op_clock (clock g) o) -> run_op s g o = mkPrng (op_clock (clock g) o) (pos g + op_bytes (clock g) o).
Proof.
  intros U1 U2. destruct o as [n|n t]; cbn [run_op op_clock op_bytes] in *.
  - unfold Clock. cbn [snd]. f_equal. unfold wadd, w64. apply Z.mod_small. exact U2.
  - unfold SetClock. destruct (Z.ltb_spec t (clock g)) as [H|H].
    + replace (Z.max (clock g) t) with (clock g) by lia. replace (Z.to_nat (t - clock g)) with 0%nat by lia. rewrite Nat.mul_0_r, Nat.add_0_r. destruct g; reflexivity.
    + replace (Z.max (clock g) t) with t in * by lia. destruct (clocks_gen s (Z.to_nat (t - clock g)) (repeat 0 n) g) as (A & B & _ & _). destruct (clocks s _ _ g) as [sum' g']. cbn [fst snd] in *. rewrite repeat_length in A.
      destruct g' as [c' p']. cbn [clock pos] in *. f_equal; [rewrite B; unfold u64 in *; lia|exact A].
Qed.
Lemma op_clock_le c o : c <= op_clock c o.
Proof. destruct o; cbn [op_clock]; lia. Qed.
Lemma final_clock_le os : forall c, c <= final_clock c os.
Proof. induction os as [|o os IH]; intros c; cbn [final_clock]; [lia|]. pose proof (op_clock_le c o). pose proof (IH (op_clock c o)). lia. Qed.
Lemma run_ops_spec s os : forall g, u64 (clock g) -> u64 (final_clock (clock g) os) -> run_ops s g os = mkPrng (final_clock (clock g) os) (pos g + total_bytes (clock g) os).
Proof.
  induction os as [|o os IH]; intros g U1 U2; cbn [run_ops fold_left final_clock total_bytes].
  - rewrite Nat.add_0_r. destruct g; reflexivity.
  - pose proof (op_clock_le (clock g) o). pose proof (final_clock_le os (op_clock (clock g) o)). cbn [final_clock] in U2. assert (U3 : u64 (op_clock (clock g) o)) by (unfold u64 in *; lia).
    change (fold_left (run_op s) os (run_op s g o)) with (run_ops s (run_op s g o) os). rewrite (run_op_spec s g o U1 U3). rewrite IH by (cbn [clock]; assumption). cbn [clock pos]. f_equal. lia.
Qed.
(** The next block is determined by the number of bytes read. *)
Lemma history_blocks s os1 os2 n : u64 (final_clock 0 os1) -> u64 (final_clock 0 os2) -> total_bytes 0 os1 = total_bytes 0 os2 ->
  fst (Clock s n (run_ops s newPrng os1)) = fst (Clock s n (run_ops s newPrng os2)) /\ fst (Clock s n (run_ops s newPrng os1)) = block s (total_bytes 0 os1) n.
Proof.
  intros U1 U2 E. rewrite !run_ops_spec by (cbn [newPrng clock]; try assumption; split; reflexivity || lia). cbn [newPrng clock pos Clock fst]. rewrite <- E. split; reflexivity.
Qed.
Lemma same_size_bytes n os : forall c, 0 <= c -> Forall (fun o => op_size o = n) os -> Z.of_nat (total_bytes c os) = Z.of_nat n * (final_clock c os - c).
Proof.
  induction os as [|o os IH]; intros c Hc F; cbn [total_bytes final_clock]; [lia|]. pose proof (Forall_inv F) as Ho. apply Forall_inv_tail in F. pose proof (op_clock_le c o) as L.
  rewrite Nat2Z.inj_add, (IH (op_clock c o) ltac:(lia) F). destruct o as [k|k t]; cbn [op_size op_bytes op_clock] in *; subst k; [lia|]. rewrite Nat2Z.inj_mul. destruct (Z.le_gt_cases c t) as [H|H].
  - rewrite Z2Nat.id by lia. replace (Z.max c t) with t by lia. ring.
  - replace (Z.to_nat (t - c)) with 0%nat by lia. replace (Z.max c t) with c by lia. ring.
Qed.
Lemma same_clock s n os1 os2 : u64 (final_clock 0 os1) -> Forall (fun o => op_size o = n) os1 -> Forall (fun o => op_size o = n) os2 -> final_clock 0 os1 = final_clock 0 os2 ->
  Clock s n (run_ops s newPrng os1) = Clock s n (run_ops s newPrng os2) /\
  fst (Clock s n (run_ops s newPrng os1)) = block s (n * Z.to_nat (final_clock 0 os1)) n /\ clock (run_ops s newPrng os1) = final_clock 0 os1.
Proof.
  intros U1 F1 F2 E. assert (U2 : u64 (final_clock 0 os2)) by congruence. assert (Z0 : u64 0) by (split; [lia|reflexivity]).
  pose proof (same_size_bytes n os1 0 ltac:(lia) F1) as B1. pose proof (same_size_bytes n os2 0 ltac:(lia) F2) as B2. rewrite !run_ops_spec by (cbn [newPrng clock]; assumption). cbn [newPrng clock pos Clock fst].
  rewrite <- E in *. pose proof (final_clock_le os1 0). assert (T : total_bytes 0 os1 = total_bytes 0 os2) by lia. rewrite <- T. split; [reflexivity|]. split; [|reflexivity]. f_equal. nia.
Qed.
Lemma set_clock_rejects s sum n g : n < clock g -> SetClock s sum n g = Fail /\ run_op s g (OpSetClock (length sum) n) = g.
Proof. intros H. cbn [run_op]. unfold SetClock. rewrite (proj2 (Z.ltb_lt _ _) H). split; reflexivity. Qed.

(** ** Uniform sampling *)
Lemma block_slice s p n k m : (k + m <= n)%nat -> slice (block s p n) k m = Ret (block s (p + k) m).
Proof.
  intros H. unfold slice. rewrite block_length. rewrite (proj2 (Nat.leb_le _ _)) by lia. f_equal. unfold block. rewrite firstn_map, skipn_map, firstn_map || idtac.
  assert (SK : forall n p k, skipn k (seq p n) = seq (p + k) (n - k)).
  { clear. induction n as [|n IH]; intros p k; [destruct k; reflexivity|]. destruct k; [rewrite Nat.add_0_r; reflexivity|]. cbn [seq skipn]. rewrite IH. f_equal. lia. }
  assert (FK : forall m n p, (m <= n)%nat -> firstn m (seq p n) = seq p m).
  { clear. induction m as [|m IH]; intros n p Hm; [reflexivity|]. destruct n; [lia|]. cbn [seq firstn]. f_equal. apply IH. lia. }
  rewrite ?skipn_map, ?firstn_map, SK, FK by lia. reflexivity.
Qed.
(** k words have been consumed. *)
Definition pool_at (s : stream) (M p0 : nat) (c0 : Z) (b : pool) (k : nat) : Prop :=
  exists c t, (t <= M)%nat /\ k = (M * c + t)%nat /\ (k <> 0 -> t <> 0)%nat /\ pbuf b = block s (p0 + 8 * M * c) (8 * M) /\ pptr b = (8 * t)%nat /\
    pgen b = mkPrng (w64 (c0 + Z.of_nat (S c))) (p0 + 8 * M * S c).
Lemma draw_step s M p0 c0 mask q b k fuel : (0 < M)%nat -> pool_at s M p0 c0 b k -> exists b', pool_at s M p0 c0 b' (S k) /\
  draw (S fuel) s (8 * M) mask q b = if Z.land (stream_word 8 s p0 k) mask <? q then Ret (Z.land (stream_word 8 s p0 k) mask, b') else draw fuel s (8 * M) mask q b'.
Proof.
  intros HM (c & t & Ht & Hk & H0 & HB & HP & HG). cbn [draw]. rewrite HP. destruct (Nat.eqb_spec (8 * t) (8 * M)) as [E|E].
  - assert (t = M) by lia. subst t. rewrite HG. unfold Clock. cbn iota beta. cbn [pbuf pptr pgen pos clock]. rewrite block_slice by lia. cbn [bind].
    assert (EW : block s (p0 + 8 * M * S c + 0) 8 = block s (p0 + 8 * k) 8) by (f_equal; lia). rewrite EW. fold (stream_word 8 s p0 k).
    exists (mkPool (block s (p0 + 8 * M * S c) (8 * M)) (0 + 8) (mkPrng (wadd (w64 (c0 + Z.of_nat (S c))) 1) (p0 + 8 * M * S c + 8 * M))). split; [|destruct (_ <? q); reflexivity].
    exists (S c), 1%nat. cbn [pbuf pptr pgen]. split; [lia|]. split; [lia|]. split; [lia|]. split; [reflexivity|]. split; [reflexivity|].
    f_equal; [|lia]. unfold wadd, w64. rewrite Zplus_mod_idemp_l. f_equal. lia.
  - rewrite HB. rewrite ?HP. rewrite block_slice by lia. cbn [bind]. assert (EW : block s (p0 + 8 * M * c + 8 * t) 8 = block s (p0 + 8 * k) 8) by (f_equal; lia). rewrite EW. fold (stream_word 8 s p0 k).
    exists (mkPool (block s (p0 + 8 * M * c) (8 * M)) (8 * t + 8) (pgen b)). split; [|destruct (_ <? q); reflexivity].
    exists c, (S t). cbn [pbuf pptr pgen]. split; [lia|]. split; [lia|]. split; [lia|]. split; [reflexivity|]. split; [lia|exact HG].
Qed.
Lemma draw_sound s M p0 c0 mask q fuel : (0 < M)%nat -> forall b k, pool_at s M p0 c0 b k ->
  match draw fuel s (8 * M) mask q b with Ret (v, b') => exists k', accepted 8 s p0 mask q k k' v /\ pool_at s M p0 c0 b' (S k') | Fail => True | Panic => False end.
Proof.
  intros HM. induction fuel as [|fuel IH]; intros b k HB; [exact I|]. destruct (draw_step s M p0 c0 mask q b k fuel HM HB) as (b' & HB' & ->). destruct (Z.ltb_spec (Z.land (stream_word 8 s p0 k) mask) q) as [H|H].
  - exists k. split; [|exact HB']. split; [lia|]. split; [reflexivity|]. split; [exact H|]. intros t Ht. lia.
  - specialize (IH b' (S k) HB'). destruct (draw fuel s (8 * M) mask q b') as [[v b2]| |]; [|exact I|exact IH]. destruct IH as (k' & (A1 & A2 & A3 & A4) & HB2). exists k'. split; [|exact HB2].
    split; [lia|]. split; [exact A2|]. split; [exact A3|]. intros t Ht. destruct (Nat.eq_dec t k) as [->|]; [exact H|apply A4; lia].
Qed.
Lemma draw_complete s M p0 c0 mask q k' v : (0 < M)%nat -> forall n b k fuel, (k' = k + n)%nat -> (n < fuel)%nat -> pool_at s M p0 c0 b k -> accepted 8 s p0 mask q k k' v ->
  exists b', draw fuel s (8 * M) mask q b = Ret (v, b') /\ pool_at s M p0 c0 b' (S k').
Proof.
  intros HM. induction n as [|n IH]; intros b k fuel Hn Hf HB (A1 & A2 & A3 & A4); (destruct fuel as [|fuel]; [lia|]); destruct (draw_step s M p0 c0 mask q b k fuel HM HB) as (b' & HB' & ->).
  - assert (k' = k) by lia. clear Hn. subst k'. rewrite <- A2. rewrite (proj2 (Z.ltb_lt _ _) A3). exists b'. split; [reflexivity|exact HB'].
  - rewrite (proj2 (Z.ltb_ge _ _)) by (apply A4; lia). apply (IH b' (S k) fuel); [lia|lia|exact HB'|]. split; [lia|]. split; [exact A2|]. split; [exact A3|]. intros t Ht. apply A4. lia.
Qed.
Lemma drawn_le n s p l k vs ke : drawn n s p l k vs ke -> (k <= ke)%nat /\ length vs = length l.
Proof. induction 1 as [k|mask q l k k' v vs ke (A & _) _ [IH1 IH2]]; [split; [lia|reflexivity]|]. split; [lia|cbn; congruence]. Qed.
Lemma drawn_app s p l1 l2 k vs ke : drawn 8 s p (l1 ++ l2) k vs ke <-> exists vs1 vs2 km, vs = vs1 ++ vs2 /\ drawn 8 s p l1 k vs1 km /\ drawn 8 s p l2 km vs2 ke.
Proof.
  revert k vs. induction l1 as [|[mask q] l1 IH]; intros k vs; cbn [app].
  - split; [intros H; exists [], vs, k; repeat split; [constructor|exact H]|]. intros (vs1 & vs2 & km & -> & H1 & H2). inversion H1; subst. exact H2.
  - split.
    + intros H. inversion H as [|? ? ? ? k' v vs' ? A D]; subst. apply IH in D. destruct D as (vs1 & vs2 & km & -> & D1 & D2). exists (v :: vs1), vs2, km. split; [reflexivity|]. split; [econstructor; eassumption|exact D2].
    + intros (vs1 & vs2 & km & -> & H1 & H2). inversion H1 as [|? ? ? ? k' v vs' ? A D]; subst. cbn [app]. econstructor; [exact A|]. apply IH. exists vs', vs2, km. split; [reflexivity|]. split; assumption.
Qed.
Lemma draws_sound s M p0 c0 mask q fuel n : (0 < M)%nat -> forall b k, pool_at s M p0 c0 b k ->
  match draws fuel s (8 * M) mask q n b with Ret (vs, b') => exists ke, drawn 8 s p0 (repeat (mask, q) n) k vs ke /\ pool_at s M p0 c0 b' ke | Fail => True | Panic => False end.
Proof.
  intros HM. induction n as [|n IH]; intros b k HB; cbn [draws repeat]; [exists k; split; [constructor|exact HB]|]. pose proof (draw_sound s M p0 c0 mask q fuel HM b k HB) as D.
  destruct (draw fuel s (8 * M) mask q b) as [[v b1]| |]; cbn [bind]; [|exact I|exact D]. destruct D as (k' & A & HB1). specialize (IH b1 (S k') HB1).
  destruct (draws fuel s (8 * M) mask q n b1) as [[vs b2]| |]; cbn [bind]; [|exact I|exact IH]. destruct IH as (ke & D & HB2). exists ke. split; [econstructor; eassumption|exact HB2].
Qed.
Lemma draws_complete s M p0 c0 mask q n fuel ke : (0 < M)%nat -> (ke < fuel)%nat -> forall b k vs, pool_at s M p0 c0 b k -> drawn 8 s p0 (repeat (mask, q) n) k vs ke ->
  exists b', draws fuel s (8 * M) mask q n b = Ret (vs, b') /\ pool_at s M p0 c0 b' ke.
Proof.
  intros HM Hf. induction n as [|n IH]; intros b k vs HB D; cbn [repeat draws] in *; inversion D as [|? ? ? ? k' v vs' ? A D']; subst; [exists b; split; [reflexivity|exact HB]|].
  pose proof (drawn_le _ _ _ _ _ _ _ D') as [L _]. destruct A as (A1 & A2). destruct (draw_complete s M p0 c0 mask q k' v HM (k' - k) b k fuel ltac:(lia) ltac:(lia) HB (conj A1 A2)) as (b1 & E1 & HB1).
  rewrite E1. cbn [bind]. destruct (IH b1 (S k') vs' HB1 D') as (b2 & E2 & HB2). rewrite E2. cbn [bind]. exists b2. split; [reflexivity|exact HB2].
Qed.
Definition rows_of (N : nat) (vs : list Z) (n : nat) : rows := map (fun i => firstn N (skipn (i * N) vs)) (seq 0 n).
Lemma rows_sound s M p0 c0 fuel ms : (0 < M)%nat -> forall pol b k, pool_at s M p0 c0 b k -> room (8 * M) ms pol = true -> Forall (fun row => length row = (8 * M)%nat) (firstn (length ms) pol) ->
  match draw_rows fuel s (8 * M) ms pol b with
  | Ret (pol', b') => exists vs ke, drawn 8 s p0 (flat_map (fun m => repeat (mmask m, mq m) (8 * M)) ms) k vs ke /\ pool_at s M p0 c0 b' ke /\
      length pol' = length pol /\ skipn (length ms) pol' = skipn (length ms) pol /\ Forall (fun row => length row = (8 * M)%nat) (firstn (length ms) pol') /\ concat (firstn (length ms) pol') = vs
  | Fail => True | Panic => False end.
Proof.
  intros HM. induction ms as [|m ms IH]; intros pol b k HB HR HF; cbn [draw_rows flat_map length].
  - exists [], k. split; [constructor|]. split; [exact HB|]. cbn [skipn firstn concat]. repeat split; constructor.
  - unfold room in HR. apply andb_true_iff in HR. destruct HR as [HR1 HR2]. apply Nat.leb_le in HR1. destruct pol as [|row pol]; [cbn in HR1; lia|]. cbn [length firstn forallb] in *. apply andb_true_iff in HR2. destruct HR2 as [HR2 HR3].
    apply Nat.leb_le in HR2. rewrite (proj2 (Nat.ltb_ge _ _)) by exact HR2. pose proof (draws_sound s M p0 c0 (mmask m) (mq m) fuel (8 * M) HM b k HB) as D.
    destruct (draws fuel s (8 * M) (mmask m) (mq m) (8 * M) b) as [[l b1]| |]; cbn [bind]; [|exact I|exact D]. destruct D as (km & D & HB1).
    assert (HR' : room (8 * M) ms pol = true) by (unfold room; rewrite HR3, (proj2 (Nat.leb_le _ _)) by lia; reflexivity).
    pose proof (Forall_inv HF) as LR. apply Forall_inv_tail in HF. specialize (IH pol b1 km HB1 HR' HF). destruct (draw_rows fuel s (8 * M) ms pol b1) as [[pol' b2]| |]; cbn [bind]; [|exact I|exact IH].
    destruct IH as (vs & ke & D2 & HB2 & L & S & F & C). pose proof (drawn_le _ _ _ _ _ _ _ D) as [_ LD]. rewrite repeat_length in LD.
    assert (ES : skipn (8 * M) row = []) by (apply skipn_all2; cbn beta in LR; lia). rewrite ES, app_nil_r.
    exists (l ++ vs), ke. split; [apply drawn_app; exists l, vs, km; split; [reflexivity|split; assumption]|]. split; [exact HB2|]. cbn [length skipn firstn concat]. split; [congruence|]. split; [exact S|].
    split; [constructor; [exact LD|exact F]|]. rewrite C. reflexivity.
Qed.
Lemma rows_complete s M p0 c0 fuel ms ke : (0 < M)%nat -> (ke < fuel)%nat -> forall pol b k vs, pool_at s M p0 c0 b k -> room (8 * M) ms pol = true -> 
  drawn 8 s p0 (flat_map (fun m => repeat (mmask m, mq m) (8 * M)) ms) k vs ke -> exists pol' b', draw_rows fuel s (8 * M) ms pol b = Ret (pol', b').
Proof.
  intros HM Hf. induction ms as [|m ms IH]; intros pol b k vs HB HR D; cbn [draw_rows flat_map] in *; [exists pol, b; reflexivity|].
  unfold room in HR. apply andb_true_iff in HR. destruct HR as [HR1 HR2]. apply Nat.leb_le in HR1. destruct pol as [|row pol]; [cbn in HR1; lia|]. cbn [length firstn forallb] in *. apply andb_true_iff in HR2. destruct HR2 as [HR2 HR3].
  apply Nat.leb_le in HR2. rewrite (proj2 (Nat.ltb_ge _ _)) by exact HR2. apply drawn_app in D. destruct D as (vs1 & vs2 & km & -> & D1 & D2). pose proof (drawn_le _ _ _ _ _ _ _ D2) as [L _].
  destruct (draws_complete s M p0 c0 (mmask m) (mq m) (8 * M) fuel km HM ltac:(lia) b k vs1 HB D1) as (b1 & E1 & HB1). rewrite E1. cbn [bind].
  assert (HR' : room (8 * M) ms pol = true) by (unfold room; rewrite HR3, (proj2 (Nat.leb_le _ _)) by lia; reflexivity). destruct (IH pol b1 km vs2 HB1 HR' D2) as (pol' & b2 & E2). rewrite E2. cbn [bind]. eauto.
Qed.
