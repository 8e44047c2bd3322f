(** What the constructors of frlwe build. *)
From Verif Require Import Word ModRed Arith ModRedProofs PolySpec PolyProofs Ring RingProofs NTT NTTProofs RingOps RNSSpec RowProofs OpsProofs OpsProps Repr BasisExt CRT BasisProps AutoProps Gadget Frlwe.

Lemma built_le c c' r : 0 <= c' <= c -> built_ring c r -> built_ring c' r.
Proof.
  intros Hc (fuel & N & ms & E & H1 & H2). exists fuel, N, ms. split; [exact E|]. split; [exact H1|].
  intros q Hq. specialize (H2 q Hq). assert (W0 : 0 < W) by reflexivity.
  destruct (Z.le_gt_cases 0 q); [|revert Hc W0 H; clear; nia].
  assert (c' * q <= c * q) by (apply Z.mul_le_mono_nonneg_r; lia). lia.
Qed.

Lemma ceil_div_lt a b i : (0 < b)%nat -> ((i < ceil_div a b)%nat <-> (i * b < a)%nat).
Proof.
  intros Hb. unfold ceil_div. split.
  - intros H. assert (H2 : ((i + 1) <= (a + b - 1) / b)%nat) by lia.
    assert (H3 := Nat.mul_div_le (a + b - 1) b ltac:(lia)). nia.
  - intros H. apply Nat.div_le_lower_bound; nia.
Qed.
Lemma ceil_div_pos a b : (0 < b)%nat -> (0 < a)%nat -> (0 < ceil_div a b)%nat.
Proof. intros Hb Ha. apply ceil_div_lt; [exact Hb|]. lia. Qed.
Lemma ceil_div_idx a b i : (0 < b)%nat -> (i < a)%nat -> (i / b < ceil_div a b)%nat.
Proof.
  intros Hb Hi. apply ceil_div_lt; [exact Hb|]. pose proof (Nat.mul_div_le i b ltac:(lia)). lia.
Qed.

Lemma sequence_spec {A} (l : list (option A)) xs : sequence l = Some xs -> l = map Some xs.
Proof.
  revert xs. induction l as [|[x|] l IH]; intros xs H; cbn [sequence] in H.
  - injection H as <-. reflexivity.
  - destruct (sequence l) as [ys|]; [|discriminate]. injection H as <-. cbn [map]. f_equal. apply IH. reflexivity.
  - discriminate.
Qed.
Lemma sequence_all {A} (l : list (option A)) : (forall x, In x l -> x <> None) -> exists xs, sequence l = Some xs.
Proof.
  induction l as [|[x|] l IH]; intros H.
  - exists []. reflexivity.
  - destruct IH as [xs E]; [intros y Hy; apply H; right; exact Hy|]. exists (x :: xs). cbn [sequence]. rewrite E. reflexivity.
  - exfalso. apply (H None); [left; reflexivity|reflexivity].
Qed.
Lemma sequence_nth {A} (f : nat -> option A) n xs d : sequence (map f (seq 0 n)) = Some xs ->
  length xs = n /\ forall i, (i < n)%nat -> f i = Some (nth i xs d).
Proof.
  intros H. apply sequence_spec in H.
  assert (Hl : length xs = n). { apply (f_equal (@length _)) in H. rewrite !map_length, seq_length in H. lia. }
  split; [exact Hl|]. intros i Hi.
  assert (E : nth i (map f (seq 0 n)) None = nth i (map Some xs) None) by (rewrite H; reflexivity).
  rewrite (nth_map_seq f n i None Hi) in E. rewrite E.
  rewrite (nth_indep _ None (Some d)) by (rewrite map_length; lia). apply map_nth.
Qed.

Lemma nth_repeat_lt' {A} (a d : A) n i : (i < n)%nat -> nth i (repeat a n) d = a.
Proof. revert i. induction n as [|n IH]; intros [|i] H; cbn; try lia; [reflexivity|apply IH; lia]. Qed.

Lemma skipn_in {A} n : forall (l : list A) x, In x (skipn n l) -> In x l.
Proof. induction n as [|n IH]; intros [|a l] x H; cbn in *; try tauto. right. apply IH. exact H. Qed.
Lemma firstn_in' {A} n : forall (l : list A) x, In x (firstn n l) -> In x l.
Proof. induction n as [|n IH]; intros [|a l] x H; cbn in *; try tauto. destruct H as [H|H]; [left; exact H|right; apply IH; exact H]. Qed.
Lemma nodup_skipn {A} n : forall (l : list A), NoDup l -> NoDup (skipn n l).
Proof. induction n as [|n IH]; intros [|a l] H; cbn; try assumption. inversion H. apply IH. assumption. Qed.
Lemma nodup_firstn {A} n : forall (l : list A), NoDup l -> NoDup (firstn n l).
Proof.
  induction n as [|n IH]; intros [|a l] H; cbn; try constructor; try constructor.
  - inversion H. intros Hin. apply firstn_in' in Hin. contradiction.
  - inversion H. apply IH. assumption.
Qed.

Lemma nodup_app_r {A} (l l' : list A) : NoDup (l ++ l') -> NoDup l'.
Proof. induction l as [|a l IH]; intros H; cbn in H; [exact H|]. inversion H. apply IH. assumption. Qed.

(** ** Blocks of moduli *)
Lemma block_length size i ms : length (block_of size i ms) = Nat.min size (length ms - i * size).
Proof. unfold block_of. rewrite firstn_length, skipn_length. reflexivity. Qed.
Lemma block_nth size i ms x : (x < size)%nat -> nth x (block_of size i ms) 0 = nth (i * size + x) ms 0.
Proof.
  intros Hx. unfold block_of. rewrite nth_firstn by exact Hx. rewrite nth_skipn. reflexivity.
Qed.
Lemma block_in size i ms q : In q (block_of size i ms) -> In q ms.
Proof. unfold block_of. intros H. apply firstn_in', skipn_in in H. exact H. Qed.
Lemma block_nodup size i ms : NoDup ms -> NoDup (block_of size i ms).
Proof. intros H. apply nodup_firstn, nodup_skipn. exact H. Qed.

(** A ring over fewer moduli can be built whenever the ring over all of them was. *)
Lemma NewRing_sub fuel N ms ms' r : NewRing fuel N ms = inl r -> ms' <> [] -> NoDup ms' -> incl ms' ms ->
  exists r', NewRing fuel N ms' = inl r'.
Proof.
  unfold NewRing, NewRingWithCustomNTT. intros H Hne Hnd Hincl.
  destruct ((N <? 16) || negb (Z.land N (N - 1) =? 0)); [discriminate|].
  destruct (Nat.eqb (length ms) 0); [discriminate|].
  destruct (negb (AllDistinct ms)); [discriminate|].
  destruct (forallb IsPrime ms) eqn:EP; [|discriminate]. cbn [negb] in H.
  destruct (forallb (fun qi => Z.land qi (2 * N - 1) =? 1) ms) eqn:EF; [|discriminate]. cbn [negb] in H.
  destruct (sequence (map (gen_modp fuel (2 * N)) ms)) as [mps|] eqn:ES; [|discriminate].
  assert (E0 : Nat.eqb (length ms') 0 = false) by (apply Nat.eqb_neq; destruct ms'; [contradiction|discriminate]).
  rewrite E0. rewrite (proj2 (AllDistinct_spec ms') Hnd). cbn [negb].
  assert (F1 : forallb IsPrime ms' = true).
  { apply forallb_forall. intros q Hq. rewrite forallb_forall in EP. apply EP, Hincl, Hq. }
  assert (F2 : forallb (fun qi => Z.land qi (2 * N - 1) =? 1) ms' = true).
  { apply forallb_forall. intros q Hq. rewrite forallb_forall in EF. apply EF, Hincl, Hq. }
  rewrite F1, F2. cbn [negb].
  destruct (sequence_all (map (gen_modp fuel (2 * N)) ms')) as [mps' E'].
  { intros x Hx. apply in_map_iff in Hx. destruct Hx as (q & Eq & Hq). apply Hincl in Hq.
    apply sequence_spec in ES. assert (Hin : In x (map (gen_modp fuel (2 * N)) ms)) by (apply in_map_iff; exists q; auto).
    rewrite ES in Hin. apply in_map_iff in Hin. destruct Hin as (m & <- & _). discriminate. }
  rewrite E'. eexists. reflexivity.
Qed.

Lemma NewRing_built c fuel N ms r : 2 <= c -> N <= 2 ^ 60 -> (forall q, In q ms -> c * q <= W) -> NewRing fuel N ms = inl r ->
  built_ring c r /\ moduli r = ms /\ Z.of_nat (rN r) = N.
Proof.
  intros Hc HN Hm H.
  assert (W0 : 0 < W) by reflexivity.
  destruct (NewRing_wf fuel N ms r HN) as (L & EN & Hw & Em); [|exact H|].
  { intros q Hq. specialize (Hm q Hq). destruct (Z.le_gt_cases 0 q); nia. }
  split; [exists fuel, N, ms; auto|]. split; [exact Em|]. rewrite (wfr_N _ _ _ Hw), EN. apply two_pow_nat.
Qed.

Lemma rmod_nth r ms i : moduli r = ms -> (i < length ms)%nat -> (i < length (rmods r))%nat /\ mq (rmod r i) = nth i ms 0.
Proof.
  intros E Hi. assert (Hl : (i < length (rmods r))%nat) by (rewrite <- E in Hi; unfold moduli in Hi; rewrite map_length in Hi; exact Hi).
  split; [exact Hl|]. rewrite <- E. symmetry. apply nth_moduli. exact Hl.
Qed.
Lemma moduli_length r : length (rmods r) = length (moduli r).
Proof. unfold moduli. rewrite map_length. reflexivity. Qed.

(** A sum of at most 18 moduli, each at most 2^64/9, is at most 2 * 2^64. *)
Lemma lsum_18 r level : built_ring 9 r -> (level < length (rmods r))%nat -> (level < 18)%nat -> lsum r level <= 2 * W.
Proof.
  intros Hr Hl H18. unfold lsum.
  assert (H : forall n, (n <= S level)%nat -> 9 * bigsum n (fun i => mq (rmod r i)) <= Z.of_nat n * W).
  { induction n as [|n IH]; intros Hn; [cbn; lia|]. cbn [bigsum].
    destruct (built_mod 9 r n ltac:(lia) Hr ltac:(lia)) as (_ & Q9 & _). specialize (IH ltac:(lia)). lia. }
  specialize (H (S level) ltac:(lia)).
  assert (Z.of_nat (S level) * W <= 18 * W) by (apply Z.mul_le_mono_nonneg_r; [discriminate|lia]). lia.
Qed.

(** ** The parameters *)
Record fp_ok (p : FParams) (N : Z) (Qs Ps Ts : list Z) (gamma : nat) : Prop := mk_fp_ok {
  fk_Q : built_ring 9 (fpQ p); fk_P : built_ring 9 (fpP p); fk_T : built_ring 9 (fpT p);
  fk_mQ : moduli (fpQ p) = Qs; fk_mP : moduli (fpP p) = Ps; fk_mT : moduli (fpT p) = Ts; fk_mR : moduli (fpR p) = Ps ++ Qs;
  fk_nQ : Z.of_nat (rN (fpQ p)) = N; fk_nP : rN (fpP p) = rN (fpQ p); fk_nT : rN (fpT p) = rN (fpQ p);
  fk_gamma : fpGamma p = gamma; fk_nodup : NoDup (Ps ++ Qs);
  fk_hQ : (0 < length Qs)%nat; fk_hP : (0 < length Ps)%nat; fk_hT : (0 < length Ts)%nat }.

(** The conditions of the theorems on the parameters: moduli of at most 2^64/9 (60 bits), at most 18 special
    moduli, auxiliary moduli and moduli in a block. *)
Definition sizes_ok (N : Z) (Qs Ps Ts : list Z) (gamma : nat) : Prop :=
  N <= 2 ^ 60 /\ (forall q, In q (Qs ++ Ps ++ Ts) -> 9 * q <= W) /\
  (0 < gamma <= 18)%nat /\ (length Ps <= 18)%nat /\ (length Ts <= 18)%nat.

Lemma NewFParams_ok fuel N Qs Ps Ts gamma p : sizes_ok N Qs Ps Ts gamma ->
  NewFParams fuel N Qs Ps Ts gamma = Some p -> fp_ok p N Qs Ps Ts gamma.
Proof.
  intros (HN & Hq & Hg & HP & HT) H. unfold NewFParams in H.
  destruct (NewRing fuel N Qs) as [rQ|] eqn:EQ; [|discriminate].
  destruct (NewRing fuel N Ps) as [rP|] eqn:EP; [|discriminate].
  destruct (NewRing fuel N Ts) as [rT|] eqn:ET; [|discriminate].
  destruct (NewRing fuel N (Ps ++ Qs)) as [rR|] eqn:ER; [|discriminate]. injection H as <-.
  assert (Hin : forall l, incl l (Qs ++ Ps ++ Ts) -> forall q, In q l -> 9 * q <= W) by (intros l Hl q Hql; apply Hq, Hl, Hql).
  destruct (NewRing_built 9 fuel N Qs rQ ltac:(lia) HN (Hin Qs ltac:(intros x Hx; rewrite !in_app_iff; tauto)) EQ) as (B1 & M1 & N1).
  destruct (NewRing_built 9 fuel N Ps rP ltac:(lia) HN (Hin Ps ltac:(intros x Hx; rewrite !in_app_iff; tauto)) EP) as (B2 & M2 & N2).
  destruct (NewRing_built 9 fuel N Ts rT ltac:(lia) HN (Hin Ts ltac:(intros x Hx; rewrite !in_app_iff; tauto)) ET) as (B3 & M3 & N3).
  destruct (NewRing_built 9 fuel N (Ps ++ Qs) rR ltac:(lia) HN (Hin (Ps ++ Qs) ltac:(intros x Hx; rewrite !in_app_iff in *; tauto)) ER) as (B4 & M4 & N4).
  destruct (built_ring_wf 9 rR ltac:(lia) B4) as (L4 & W4 & _).
  assert (NE : forall r, built_ring 9 r -> (0 < length (moduli r))%nat).
  { intros r Hr. destruct (built_ring_wf 9 r ltac:(lia) Hr) as (L & Hw & _). pose proof (wfr_ne _ _ _ Hw).
    rewrite <- moduli_length. destruct (rmods r); [contradiction|cbn; lia]. }
  constructor; cbn [fpQ fpP fpT fpR fpGamma]; try assumption; try reflexivity; try lia.
  - rewrite <- M4. apply (wfr_distinct _ _ _ W4).
  - rewrite <- M1. apply NE, B1.
  - rewrite <- M2. apply NE, B2.
  - rewrite <- M3. apply NE, B3.
Qed.

(** The ring of block [i] of the moduli [ms]. *)
Definition is_block (n : nat) (size i : nat) (ms : list Z) (r : Ring) : Prop :=
  built_ring 9 r /\ moduli r = block_of size i ms /\ rN r = n.

Lemma block_ring_ok fuel n size i ms r : Z.of_nat n <= 2 ^ 60 -> (forall q, In q ms -> 9 * q <= W) ->
  block_ring fuel n (block_of size i ms) = Some r -> is_block n size i ms r.
Proof.
  intros HN Hq H. unfold block_ring in H. destruct (NewRing fuel (Z.of_nat n) (block_of size i ms)) as [r'|] eqn:E; [|discriminate].
  injection H as <-.
  destruct (NewRing_built 9 fuel (Z.of_nat n) (block_of size i ms) r' ltac:(lia) HN) as (B & M & EN).
  - intros q Hin. apply Hq. apply block_in in Hin. exact Hin.
  - exact E.
  - split; [exact B|]. split; [exact M|]. lia.
Qed.

Section KS.
  Variables (fuel : nat) (N : Z) (Qs Ps Ts : list Z) (gamma : nat) (p : FParams).
  Hypothesis (HS : sizes_ok N Qs Ps Ts gamma) (Hp : fp_ok p N Qs Ps Ts gamma).
  Let n := rN (fpQ p).
  Let alpha := length Ps.
  Let Rs := Ps ++ Qs.

  Lemma fp_alpha : fAlpha p = alpha.
  Proof. unfold fAlpha. rewrite moduli_length, (fk_mP _ _ _ _ _ _ Hp). reflexivity. Qed.
  Lemma fp_maxlevel : (fMaxLevel p + 1 = length Qs)%nat.
  Proof. unfold fMaxLevel. rewrite moduli_length, (fk_mQ _ _ _ _ _ _ Hp). pose proof (fk_hQ _ _ _ _ _ _ Hp). lia. Qed.
  Lemma fp_total : (fMaxLevel p + alpha + 1 = length Rs)%nat.
  Proof. unfold Rs. rewrite app_length. pose proof fp_maxlevel. unfold alpha. lia. Qed.
  Lemma fp_firstnR : firstn (fMaxLevel p + alpha + 1) (moduli (fpR p)) = Rs.
  Proof. rewrite fp_total, (fk_mR _ _ _ _ _ _ Hp). apply firstn_all. Qed.
  Lemma fp_firstnQ : firstn (fMaxLevel p + 1) (moduli (fpQ p)) = Qs.
  Proof. rewrite fp_maxlevel, (fk_mQ _ _ _ _ _ _ Hp). apply firstn_all. Qed.
  Lemma fp_n60 : Z.of_nat n <= 2 ^ 60.
  Proof. unfold n. rewrite (fk_nQ _ _ _ _ _ _ Hp). apply HS. Qed.
  Lemma fp_9R q : In q Rs -> 9 * q <= W.
  Proof. intros H. destruct HS as (_ & H9 & _). apply H9. unfold Rs in H. rewrite !in_app_iff in *. tauto. Qed.
  Lemma fp_9Q q : In q Qs -> 9 * q <= W.
  Proof. intros H. apply fp_9R. unfold Rs. rewrite in_app_iff. tauto. Qed.

  (** What NewKeySwitcher builds. *)
  Record ks_ok (ks : KeySwitcher) : Prop := mk_ks_ok {
    kk_p : ksParams ks = p;
    kk_convQP : ksConvQP ks = NewBasisExtender (fpQ p) (fpP p);
    kk_Ri : forall i, (i * gamma < length Rs)%nat -> is_block n gamma i Rs (nth i (ksRingRi ks) ring0);
    kk_TRi : forall i, (i * gamma < length Rs)%nat -> nth i (ksConvTRi ks) be0 = NewBasisExtender (fpT p) (nth i (ksRingRi ks) ring0);
    kk_Qj : forall j, (j * alpha < length Qs)%nat -> is_block n alpha j Qs (nth j (ksRingQj ks) ring0);
    kk_QjT : forall j, (j * alpha < length Qs)%nat -> nth j (ksConvQjT ks) be0 = NewBasisExtender (nth j (ksRingQj ks) ring0) (fpT p);
    kk_halfQ : rns_repr (fpQ p) (length Qs - 1) canon (ksHalfQ ks) (fun _ => rbigQ (fpT p) / 2);
    kk_halfP : rns_repr (fpP p) (length Ps - 1) canon (ksHalfP ks) (fun _ => rbigQ (fpT p) / 2);
    kk_halfT : rns_repr (fpT p) (length Ts - 1) canon (ksHalfT ks) (fun _ => rbigQ (fpT p) / 2) }.

  Lemma half_repr r s : built_ring 9 r ->
    rns_repr r (length (moduli r) - 1) canon (fst (AddScalarBigintLvl r (length (rmods r) - 1) (zero_poly r) s (zero_poly r))) (fun _ => s).
  Proof.
    intros Hr. rewrite moduli_length.
    assert (Hne : (0 < length (moduli r))%nat).
    { destruct (built_ring_wf 9 r ltac:(lia) Hr) as (L & Hw & _). pose proof (wfr_ne _ _ _ Hw).
      rewrite <- moduli_length. destruct (rmods r); [contradiction|cbn; lia]. }
    set (l := (length (moduli r) - 1)%nat).
    assert (Hl : (l < length (rmods r))%nat) by (rewrite moduli_length; unfold l; lia).
    assert (Wz : words r l canon (zero_poly r)).
    { unfold zero_poly. split; [rewrite repeat_length; exact Hl|]. intros i Hi. rewrite nth_repeat_lt' by lia.
      split; [apply repeat_length|]. intros k Hk. unfold coeff. rewrite nth_repeat_lt' by lia. rewrite nth_repeat_lt' by exact Hk.
      destruct (built_mod 9 r i ltac:(lia) Hr ltac:(lia)) as (Q5 & _). unfold canon. lia. }
    assert (SA := scalar_add_ops r l (zero_poly r) (zero_poly r) s (built_le 9 4 r ltac:(lia) Hr) Hl Wz).
    unfold AddScalarBigintLvl in *. cbn [fst]. destruct (SubScalarBigintLvl _ _ _ _ _) as [a2 z2]. destruct SA as (_ & _ & SA).
    split; [exact Hl|]. split; [unfold op1; rewrite lvl_length; lia|]. intros i Hi.
    destruct (built_mod 9 r i ltac:(lia) Hr ltac:(lia)) as (Q5 & _).
    split.
    - rewrite op1_length by exact Hi. apply Wz. exact Hi.
    - intros k Hk. destruct (SA i k Hi Hk) as [E _]. unfold coeff in E. rewrite E.
      assert (E0 : nth k (nth i (zero_poly r) []) 0 = 0).
      { unfold zero_poly. rewrite nth_repeat_lt' by lia. apply nth_repeat_lt'. exact Hk. }
      rewrite E0. cbn [Z.add]. split; [unfold canon; apply Z.mod_pos_bound; lia|apply eqm_mod].
  Qed.

  Lemma NewKeySwitcher_ok ks : NewKeySwitcher fuel p = Some ks -> ks_ok ks.
  Proof.
    intros H. unfold NewKeySwitcher in H.
    rewrite fp_alpha, fp_firstnR, fp_firstnQ, (fk_gamma _ _ _ _ _ _ Hp), fp_total in H.
    assert (Hg : (0 < gamma)%nat) by (destruct HS as (_ & _ & Hg & _); lia).
    assert (Ha : (0 < alpha)%nat) by (apply (fk_hP _ _ _ _ _ _ Hp)).
    assert (Eb : fBeta p = ceil_div (length Qs) alpha).
    { unfold fBeta. rewrite fp_alpha, moduli_length, (fk_mQ _ _ _ _ _ _ Hp). reflexivity. }
    rewrite Eb in H. fold n in H.
    destruct (sequence (map (fun i => block_ring fuel n (block_of gamma i Rs)) (seq 0 (ceil_div (length Rs) gamma)))) as [lR|] eqn:ER; [|discriminate].
    destruct (sequence (map (fun j => block_ring fuel n (block_of alpha j Qs)) (seq 0 (ceil_div (length Qs) alpha)))) as [lQ|] eqn:EQ; [|discriminate].
    injection H as <-.
    destruct (sequence_nth _ _ _ ring0 ER) as [LR HR]. destruct (sequence_nth _ _ _ ring0 EQ) as [LQ HQ].
    constructor; cbn [ksParams ksConvQP ksRingRi ksConvTRi ksRingQj ksConvQjT ksHalfQ ksHalfP ksHalfT]; try reflexivity.
    - intros i Hi. apply ceil_div_lt in Hi; [|exact Hg]. apply (block_ring_ok fuel); [apply fp_n60|apply fp_9R|]. apply HR. exact Hi.
    - intros i Hi. apply ceil_div_lt in Hi; [|exact Hg]. rewrite (nth_map_any _ _ i ring0 be0) by lia. reflexivity.
    - intros j Hj. apply ceil_div_lt in Hj; [|exact Ha]. apply (block_ring_ok fuel); [apply fp_n60|apply fp_9Q|]. apply HQ. exact Hj.
    - intros j Hj. apply ceil_div_lt in Hj; [|exact Ha]. rewrite (nth_map_any _ _ j ring0 be0) by lia. reflexivity.
    - rewrite <- (fk_mQ _ _ _ _ _ _ Hp). apply half_repr. apply (fk_Q _ _ _ _ _ _ Hp).
    - rewrite <- (fk_mP _ _ _ _ _ _ Hp). apply half_repr. apply (fk_P _ _ _ _ _ _ Hp).
    - rewrite <- (fk_mT _ _ _ _ _ _ Hp). apply half_repr. apply (fk_T _ _ _ _ _ _ Hp).
  Qed.

  (** The converters of the key generator. *)
  Lemma NewConvRiT_ok conv : NewConvRiT fuel p = Some conv ->
    exists lR, (forall i, (i * gamma < length Rs)%nat -> is_block n gamma i Rs (nth i lR ring0)) /\ forall i, (i * gamma < length Rs)%nat -> nth i conv be0 = NewBasisExtender (nth i lR ring0) (fpT p).
  Proof.
    intros H. unfold NewConvRiT in H.
    rewrite fp_alpha, fp_firstnR, (fk_gamma _ _ _ _ _ _ Hp), fp_total in H. fold n in H.
    assert (Hg : (0 < gamma)%nat) by (destruct HS as (_ & _ & Hg & _); lia).
    destruct (sequence (map (fun i => block_ring fuel n (block_of gamma i Rs)) (seq 0 (ceil_div (length Rs) gamma)))) as [lR|] eqn:ER; [|discriminate].
    injection H as <-. destruct (sequence_nth _ _ _ ring0 ER) as [LR HR]. exists lR. split.
    - intros i Hi. apply ceil_div_lt in Hi; [|exact Hg]. apply (block_ring_ok fuel); [apply fp_n60|apply fp_9R|]. apply HR. exact Hi.
    - intros i Hi. apply ceil_div_lt in Hi; [|exact Hg]. rewrite (nth_map_any _ _ i ring0 be0) by lia. reflexivity.
  Qed.

  (** Both constructors succeed on parameters that were built with the same fuel. *)
  Lemma block_rings_exist size ms cnt : incl ms Rs -> NoDup ms -> (0 < size)%nat -> NewFParams fuel N Qs Ps Ts gamma = Some p ->
    cnt = ceil_div (length ms) size ->
    exists l, sequence (map (fun i => block_ring fuel n (block_of size i ms)) (seq 0 cnt)) = Some l.
  Proof.
    intros Hin Hnd Hsz HF ->. apply sequence_all. intros x Hx. apply in_map_iff in Hx. destruct Hx as (i & <- & Hi).
    apply in_seq in Hi. assert (Hlt := proj1 (ceil_div_lt (length ms) size i Hsz) ltac:(lia)).
    unfold NewFParams in HF.
    destruct (NewRing fuel N Qs); [|discriminate]. destruct (NewRing fuel N Ps); [|discriminate].
    destruct (NewRing fuel N Ts); [|discriminate]. destruct (NewRing fuel N (Ps ++ Qs)) as [rR|] eqn:ER; [|discriminate].
    destruct (NewRing_sub fuel N (Ps ++ Qs) (block_of size i ms) rR ER) as [r' Er].
    - intros E. apply (f_equal (@length Z)) in E. rewrite block_length in E. cbn [length] in E. lia.
    - apply block_nodup. exact Hnd.
    - intros q Hq. apply Hin. apply block_in in Hq. exact Hq.
    - unfold block_ring. unfold n. rewrite (fk_nQ _ _ _ _ _ _ Hp), Er. discriminate.
  Qed.

  Lemma constructors_succeed : NewFParams fuel N Qs Ps Ts gamma = Some p ->
    (exists ks, NewKeySwitcher fuel p = Some ks) /\ (exists conv, NewConvRiT fuel p = Some conv).
  Proof.
    intros HF. unfold NewKeySwitcher, NewConvRiT.
    rewrite fp_alpha, fp_firstnR, fp_firstnQ, (fk_gamma _ _ _ _ _ _ Hp), fp_total. fold n.
    assert (Hg : (0 < gamma)%nat) by (destruct HS as (_ & _ & Hg & _); lia).
    assert (Ha : (0 < alpha)%nat) by (apply (fk_hP _ _ _ _ _ _ Hp)).
    pose proof (fk_nodup _ _ _ _ _ _ Hp) as ND.
    destruct (block_rings_exist gamma Rs (ceil_div (length Rs) gamma)) as [lR ER]; try assumption; try reflexivity.
    { intros x Hx. exact Hx. }
    destruct (block_rings_exist alpha Qs (fBeta p)) as [lQ EQ]; try assumption.
    { intros x Hx. unfold Rs. apply in_app_iff. right. exact Hx. }
    { apply nodup_app_r in ND. exact ND. }
    { unfold fBeta. rewrite fp_alpha, moduli_length, (fk_mQ _ _ _ _ _ _ Hp). reflexivity. }
    rewrite ER, EQ. split; eexists; reflexivity.
  Qed.
End KS.
