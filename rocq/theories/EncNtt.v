(** The transform of sparse plaintexts. *)
From Verif Require Import Word Repr ModRed ModRedProofs Arith PolySpec PolyProofs Ring RingProofs NTT NTTProofs RingOps RNSSpec RowProofs OpsProofs Scaling Float64 Ckks Fft Encoder EncSpec.
Local Open Scope Z_scope.

Lemma ntt_rounds_prefix k : forall m n tbl q qInv xs, (m * 2 ^ k <= n)%nat ->
  ntt_rounds k m tbl q qInv xs = ntt_rounds k m (firstn n tbl) q qInv xs.
Proof.
  induction k as [|k IH]; intros m n tbl q qInv xs H; [reflexivity|]. cbn [ntt_rounds].
  cbn [Nat.pow] in H. pose proof (pow2n_pos k).
  rewrite (IH (2 * m)%nat n) by nia. do 2 f_equal.
  rewrite skipn_firstn_comm, firstn_firstn, Nat.min_l by nia. reflexivity.
Qed.

Lemma nth_firstn_Z (k n : nat) (l : list Z) : (k < n)%nat -> nth k (firstn n l) 0 = nth k l 0.
Proof.
  revert k l. induction n as [|n IH]; intros k l H; [lia|]. destruct l as [|x l]; [reflexivity|]. destruct k as [|k]; [reflexivity|]. cbn. apply IH. lia.
Qed.

Section Small.
  Variables (L l : nat) (m : modp).
  Hypothesis Hl : (2 <= l <= L)%nat.
  Hypothesis Hwf : wf_modp L m.
  Let q := mq m.
  Let g := (L - l)%nat.
  Let psi := psi_of m ^ 2 ^ Z.of_nat g.

  Lemma rev_low k : (k < 2 ^ l)%nat -> rev_bits L (Z.of_nat k) = rev_bits l (Z.of_nat k) * 2 ^ Z.of_nat g.
  Proof.
    intros Hk. replace L with (l + g)%nat by (unfold g; lia). rewrite rev_bits_split by lia.
    rewrite (Z.div_small (Z.of_nat k)) by (rewrite <- two_pow_nat; lia). rewrite rev_bits_0. lia.
  Qed.
  Lemma small_psi : eqm q (psi ^ 2 ^ Z.of_nat l) (-1).
  Proof.
    unfold psi. rewrite <- Z.pow_mul_r by (apply Z.pow_nonneg; lia). rewrite <- Z.pow_add_r by lia.
    replace (Z.of_nat g + Z.of_nat l) with (Z.of_nat L) by (unfold g; lia). apply (wf_psi L m Hwf).
  Qed.

  Lemma small_ntt B row X : B + 4 * q <= W -> 8 * q <= W -> row_repr (2 ^ l) q B row X ->
    row_repr (2 ^ l) q q (NTT row (2 ^ l) (mpsi m) q (mqinv m) (mbred m)) (fun j => peval (2 ^ l) X (psi ^ (2 * rev_bits l (Z.of_nat j) + 1))).
  Proof.
    intros HB H8 HX. pose proof (wf_ge L m Hwf) as G. pose proof (wf_W L m Hwf) as G2. fold q in G, G2.
    assert (P : (2 ^ l <= 2 ^ L)%nat) by (apply Nat.pow_le_mono_r; lia).
    assert (HX' : row_repr (2 ^ l) q (Z.max B (4 * q)) row X) by (apply (row_repr_weaken _ _ B); [lia|exact HX]).
    set (B' := Z.max B (4 * q)) in *.
    destruct (ntt_rounds_spec q (mqinv m) psi l (firstn (2 ^ l) (mpsi m)) ltac:(lia) (wf_odd L m Hwf) (wf_inv L m Hwf) small_psi) with
      (B := B') (f := co row) (k := l) (s := O) (xs := row) as (Hlen & Hb & Hv); try lia.
    - rewrite firstn_length, (wf_tbl_len L m Hwf). lia.
    - intros k Hk. rewrite nth_firstn_Z by exact Hk. rewrite (wf_tbl L m Hwf) by lia. fold q. unfold psi.
      rewrite <- Z.pow_mul_r by (try (apply Z.pow_nonneg; lia); apply rev_bits_range). rewrite rev_low by exact Hk. do 3 f_equal. ring.
    - apply HX.
    - destruct l; [lia|]. apply (row_repr_below _ _ _ _ _ HX').
    - intros i j Hi Hj. assert (i = O) by (cbn in Hi; lia). subst i. rewrite Rsum_0. reflexivity.
    - unfold NTT. apply (ReduceVec_repr L m ltac:(lia) Hwf _ (B' + 2 * q)); [lia|].
      unfold NTTLazy. rewrite Nat.log2_pow2 by lia. rewrite (ntt_rounds_prefix l 1 (2 ^ l)) by lia. change (2 ^ 0)%nat with 1%nat in *.
      split; [exact Hlen|]. intros i Hi. split; [apply below_nth; [exact Hb|rewrite Hlen; exact Hi]|].
      rewrite Hv by exact Hi. rewrite Rsum_final. apply peval_peq; [|reflexivity]. intros k Hk. apply HX. exact Hk.
  Qed.

  (** The evaluation points of the whole ring, to the power gap. *)
  Lemma small_point i : (i < 2 ^ L)%nat ->
    eqm q (pt m L i ^ Z.of_nat (2 ^ g)) (psi ^ (2 * rev_bits l (Z.of_nat (i / 2 ^ g)) + 1)).
  Proof.
    intros Hi. rewrite pt_rev. replace L with (g + l)%nat by (unfold g; lia). rewrite rev_bits_split by lia. rewrite two_pow_nat.
    rewrite <- Z.pow_mul_r by (pose proof (rev_bits_range g (Z.of_nat i)); pose proof (rev_bits_range l (Z.of_nat i / 2 ^ Z.of_nat g)); try nia; apply Z.pow_nonneg; lia).
    rewrite Nat2Z.inj_div, two_pow_nat. unfold psi.
    pose proof (rev_bits_range g (Z.of_nat i)) as R1. pose proof (rev_bits_range l (Z.of_nat i / 2 ^ Z.of_nat g)) as R2.
    rewrite <- Z.pow_mul_r by (try lia; apply Z.pow_nonneg; lia).
    set (a := rev_bits g (Z.of_nat i)) in *. set (b := rev_bits l (Z.of_nat i / 2 ^ Z.of_nat g)) in *. clearbody a b.
    replace ((2 * (a * 2 ^ Z.of_nat l + b) + 1) * 2 ^ Z.of_nat g) with (2 ^ Z.of_nat L * (2 * a) + 2 ^ Z.of_nat g * (2 * b + 1))
      by (replace (Z.of_nat L) with (Z.of_nat l + Z.of_nat g) by (unfold g; lia); rewrite Z.pow_add_r by lia; ring).
    rewrite Z.pow_add_r by (try lia; assert (0 < 2 ^ Z.of_nat g) by (apply Z.pow_pos_nonneg; lia); assert (0 < 2 ^ Z.of_nat L) by (apply Z.pow_pos_nonneg; lia); nia).
    rewrite (Z.pow_mul_r _ (2 ^ Z.of_nat L)) by (try lia; apply Z.pow_nonneg; lia).
    rewrite <- (Z.mul_1_l (psi_of m ^ (2 ^ Z.of_nat g * (2 * b + 1)))) at 2. apply eqm_mul; [|reflexivity].
    rewrite (eqm_pow q _ (-1)) by apply (wf_psi L m Hwf). rewrite Z.pow_mul_r by lia. change ((-1) ^ 2) with 1. rewrite Z.pow_1_l by lia. reflexivity.
  Qed.

  Lemma inflate_eval X x : peval (2 ^ L) (inflate (2 ^ g) X) x = peval (2 ^ l) X (x ^ Z.of_nat (2 ^ g)).
  Proof.
    unfold peval. replace (2 ^ L)%nat with (2 ^ l * 2 ^ g)%nat by (rewrite <- Nat.pow_add_r; f_equal; unfold g; lia).
    set (G := (2 ^ g)%nat). assert (PG : (0 < G)%nat) by (pose proof (pow2n_pos g); unfold G; lia). clearbody G.
    induction (2 ^ l)%nat as [|n IH]; [reflexivity|].
    rewrite Nat.mul_succ_l, bigsum_split. cbn [bigsum]. rewrite IH. f_equal.
    destruct G as [|G]; [lia|]. rewrite bigsum_S_l. rewrite (bigsum_zero G).
    - unfold inflate. rewrite Nat.add_0_r, Nat.mod_mul, Nat.div_mul by lia. cbn [Nat.eqb].
      rewrite <- Z.pow_mul_r by lia. rewrite Nat2Z.inj_mul. rewrite Z.add_0_r. do 2 f_equal. lia.
    - intros k Hk. unfold inflate. replace ((n * S G + S k) mod S G)%nat with (S k) by (rewrite Nat.add_comm, Nat.mod_add, Nat.mod_small by lia; reflexivity).
      cbn [Nat.eqb]. lia.
  Qed.
End Small.

(** ** The copies *)
Lemma nth_skipn_Z (k n : nat) (l : list Z) : nth k (skipn n l) 0 = nth (n + k) l 0.
Proof. revert l. induction n as [|n IH]; intros l; [reflexivity|]. destruct l as [|x l]; [destruct k; reflexivity|]. cbn. apply IH. Qed.
Lemma nth_repeat_Z x n k : (k < n)%nat -> nth k (repeat x n) 0 = x.
Proof. revert k. induction n as [|n IH]; intros k H; [lia|]. destruct k as [|k]; [reflexivity|]. cbn. apply IH. lia. Qed.

Lemma repeat_step gap j cs : (0 < gap)%nat -> (j * gap + gap <= length cs)%nat ->
  let out := firstn (j * gap) cs ++ repeat (nth j cs 0) gap ++ skipn (j * gap + gap) cs in
  length out = length cs /\ forall i, nth i out 0 = if Nat.eqb (i / gap) j then nth j cs 0 else nth i cs 0.
Proof.
  intros Hg Hl out. unfold out. split; [rewrite !app_length, firstn_length, repeat_length, skipn_length; lia|].
  intros i. assert (D := Nat.div_mod i gap ltac:(lia)). assert (M := Nat.mod_upper_bound i gap ltac:(lia)).
  set (t := (i / gap)%nat) in *. set (u := (i mod gap)%nat) in *. clearbody t u.
  destruct (Nat.lt_ge_cases i (j * gap)) as [H1|H1].
  - rewrite app_nth1 by (rewrite firstn_length; lia). rewrite nth_firstn_Z by exact H1.
    destruct (Nat.eqb_spec t j) as [->|_]; [nia|reflexivity].
  - rewrite app_nth2; rewrite firstn_length, Nat.min_l by lia; [|lia].
    destruct (Nat.lt_ge_cases i (j * gap + gap)) as [H2|H2].
    + rewrite app_nth1 by (rewrite repeat_length; lia). rewrite nth_repeat_Z by lia.
      destruct (Nat.eqb_spec t j) as [E|E]; [reflexivity|exfalso; apply E; nia].
    + rewrite app_nth2; rewrite repeat_length; [|lia]. rewrite nth_skipn_Z.
      destruct (Nat.eqb_spec t j) as [->|_]; [nia|]. f_equal. lia.
Qed.

Lemma repeat_gap_steps gap N row : (0 < gap)%nat -> length row = N -> forall n, (n * gap <= N)%nat -> forall cs, length cs = N ->
  (forall j, (j < n)%nat -> nth j cs 0 = nth j row 0) ->
  let out := fold_left (fun cs j => firstn (j * gap) cs ++ repeat (nth j cs 0) gap ++ skipn (j * gap + gap) cs) (rev (seq 0 n)) cs in
  length out = N /\ forall i, nth i out 0 = if Nat.ltb (i / gap) n then nth (i / gap) row 0 else nth i cs 0.
Proof.
  intros Hg HN. induction n as [|n IH]; intros Hn cs Hcs Heq.
  - cbn. split; [exact Hcs|]. intros i. reflexivity.
  - rewrite seq_S. cbn [Nat.add]. rewrite rev_app_distr. cbn [rev app fold_left].
    destruct (repeat_step gap n cs Hg ltac:(nia)) as [R1 R2].
    destruct (IH ltac:(nia) (firstn (n * gap) cs ++ repeat (nth n cs 0) gap ++ skipn (n * gap + gap) cs) ltac:(lia)) as [I1 I2].
    { intros j Hj. rewrite R2. destruct (Nat.eqb_spec (j / gap) n) as [E|E]; [|apply Heq; lia].
      assert (j / gap <= j)%nat by (apply Nat.div_le_upper_bound; nia). lia. }
    split; [exact I1|]. intros i. rewrite I2, R2.
    destruct (Nat.ltb_spec (i / gap) n) as [H1|H1]; [rewrite (proj2 (Nat.ltb_lt _ _)) by lia; reflexivity|].
    destruct (Nat.eqb_spec (i / gap) n) as [E|E].
    + rewrite (proj2 (Nat.ltb_lt _ _)) by lia. rewrite Heq by lia. rewrite E. reflexivity.
    + rewrite (proj2 (Nat.ltb_ge _ _)) by lia. reflexivity.
Qed.
Lemma repeat_gap_spec n gap row : (0 < gap)%nat -> length row = (n * gap)%nat ->
  length (repeat_gap n gap row) = (n * gap)%nat /\ forall i, (i < n * gap)%nat -> nth i (repeat_gap n gap row) 0 = nth (i / gap) row 0.
Proof.
  intros Hg Hl. destruct (repeat_gap_steps gap (n * gap) row Hg Hl n ltac:(lia) row Hl ltac:(reflexivity)) as [R1 R2].
  split; [exact R1|]. intros i Hi. unfold repeat_gap. rewrite R2. rewrite (proj2 (Nat.ltb_lt _ _)); [reflexivity|]. apply Nat.div_lt_upper_bound; lia.
Qed.

(** ** One row *)
Lemma small_row L l m mont B row X : (2 <= l <= L)%nat -> wf_modp L m -> B + 4 * mq m <= W -> 8 * mq m <= W -> length row = (2 ^ L)%nat ->
  row_repr (2 ^ l) (mq m) B (firstn (2 ^ l) row) X ->
  ntt_repr L m (mq m) (ntt_small_row (2 ^ l) (2 ^ (L - l)) m mont row) (pscale (if mont then W else 1) (inflate (2 ^ (L - l)) X)).
Proof.
  intros Hl Hwf HB H8 Hlen HX. unfold ntt_small_row.
  assert (S := small_ntt L l m Hl Hwf B _ X HB H8 HX). set (lo := NTT _ _ _ _ _ _) in *. clearbody lo.
  set (f := fun j => peval (2 ^ l) X _) in S.
  assert (S' : row_repr (2 ^ l) (mq m) (mq m) (if mont then map (fun x => MForm x (mq m) (mbred m)) lo else lo) (fun j => (if mont then W else 1) * f j)).
  { destruct mont.
    - revert S. apply row_map. intros k x Hk Hx E. pose proof (wf_ge L m Hwf). pose proof (wf_W L m Hwf). rewrite (wf_bred L m Hwf).
      rewrite MForm_correct by (unfold W in *; lia). split; [apply Z.mod_pos_bound; lia|]. rewrite eqm_mod. rewrite Z.mul_comm. apply eqm_mul; [reflexivity|exact E].
    - apply (row_repr_peq _ _ _ _ f); [|exact S]. intros k Hk. apply eqm_eq. lia. }
  clear S. set (lo' := if mont then _ else _) in *. clearbody lo'.
  assert (E2 : (2 ^ L = 2 ^ l * 2 ^ (L - l))%nat) by (rewrite <- Nat.pow_add_r; f_equal; lia).
  assert (PG : (0 < 2 ^ (L - l))%nat) by (pose proof (pow2n_pos (L - l)); lia).
  destruct (repeat_gap_spec (2 ^ l) (2 ^ (L - l)) (lo' ++ skipn (2 ^ l) row) PG) as [R1 R2].
  { rewrite app_length, (row_repr_length _ _ _ _ _ S'), skipn_length, Hlen. pose proof (pow2n_pos l). nia. }
  split; [rewrite R1; symmetry; exact E2|]. intros i Hi. rewrite R2 by lia.
  assert (Hi' : (i / 2 ^ (L - l) < 2 ^ l)%nat) by (apply Nat.div_lt_upper_bound; lia).
  rewrite app_nth1 by (rewrite (row_repr_length _ _ _ _ _ S'); exact Hi').
  destruct S' as [_ S']. destruct (S' _ Hi') as [S1 S2]. split; [exact S1|]. rewrite S2.
  rewrite (values_scale L m). unfold values. rewrite (inflate_eval L l m Hl X). apply eqm_mul; [reflexivity|]. unfold f.
  unfold peval. apply bigsum_eqm. intros k Hk. apply eqm_mul; [reflexivity|]. apply eqm_pow. symmetry. apply (small_point L l m Hl Hwf i Hi).
Qed.

(** ** All the rows *)
Lemma sparse_ntt r L level logSlots mont B p X : built_ring 8 r -> rN r = (2 ^ L)%nat -> (3 <= logSlots)%nat -> (logSlots < L)%nat ->
  (forall i, (i <= level)%nat -> B (mq (rmod r i)) + 4 * mq (rmod r i) <= W) ->
  prefix_repr r (2 * 2 ^ logSlots) level B p X ->
  rns_ntt r L level canon (NttAndMontgomeryLvl r level logSlots mont p) (pscale (if mont then W else 1) (inflate (rN r / (2 * 2 ^ logSlots)) X)).
Proof.
  intros Hr EL Hs HsL HB (H1 & H2 & H3).
  assert (H2r : built_ring 2 r).
  { destruct Hr as (f & N & ms & E1 & E2 & E3). exists f, N, ms. split; [exact E1|]. split; [exact E2|]. intros q Hq. specialize (E3 q Hq).
    assert (0 < W) by (unfold W; lia). lia. }
  assert (H8 : forall i, (i <= level)%nat -> 8 * mq (rmod r i) <= W).
  { destruct (built_ring_wf 8 r ltac:(lia) Hr) as (L' & _ & H8). intros i Hi. apply H8. lia. }
  replace (2 * 2 ^ logSlots)%nat with (2 ^ S logSlots)%nat in * by reflexivity.
  assert (EG : (rN r / 2 ^ S logSlots = 2 ^ (L - S logSlots))%nat).
  { rewrite EL. replace (2 ^ L)%nat with (2 ^ (L - S logSlots) * 2 ^ S logSlots)%nat by (rewrite <- Nat.pow_add_r; f_equal; lia).
    apply Nat.div_mul. pose proof (pow2n_pos (S logSlots)). lia. }
  unfold NttAndMontgomeryLvl. change (2 * 2 ^ logSlots)%nat with (2 ^ S logSlots)%nat. rewrite EG.
  assert (D2 : Nat.div2 (rN r) = (2 ^ (L - 1))%nat) by (rewrite EL; replace L with (S (L - 1)) at 1 by lia; rewrite Nat.pow_succ_r', Nat.div2_double; reflexivity).
  rewrite D2. destruct (Nat.eqb_spec (2 ^ logSlots) (2 ^ (L - 1))) as [E|E].
  - apply Nat.pow_inj_r in E; [|lia]. replace (L - S logSlots)%nat with 0%nat by lia. change (2 ^ 0)%nat with 1%nat.
    assert (ELs : (2 ^ S logSlots)%nat = rN r) by (rewrite EL; f_equal; lia).
    assert (RX : rns_repr r level B p X).
    { split; [exact H1|]. split; [exact H2|]. intros i Hi. destruct (H3 i Hi) as [A1 A2]. rewrite firstn_all2 in A2 by lia. rewrite ELs in A2. exact A2. }
    assert (NX : rns_ntt r L level canon (NTTLvl r level p p) (inflate 1 X)).
    { apply (ntt_peq r L EL level canon _ X); [|apply (t_ntt r L H2r EL level B); [intros i Hi; split; [apply HB|apply H8]; exact Hi|exact RX]].
      intros i Hi k Hk. unfold inflate. rewrite Nat.mod_1_r, Nat.div_1_r. reflexivity. }
    destruct mont.
    + apply (ntt_g _ _ _ _ _ _ EL) in NX. apply (ntt_g _ _ _ _ _ _ EL).
      apply (g_mform r level H2r canon _ (NTTLvl r level p p)) in NX; [|intros i Hi; unfold canon; specialize (H8 i Hi); assert (0 < W) by (unfold W; lia); lia].
      revert NX. apply g_peq. intros i k Hi Hk. unfold nttD. rewrite values_scale. reflexivity.
    + apply (ntt_peq r L EL level canon _ (inflate 1 X)); [|exact NX]. intros i Hi k Hk. unfold pscale. apply eqm_eq. lia.
  - split; [exact H1|]. split; [rewrite lvl_length; lia|]. intros i Hi. rewrite lvl_nth_lt by lia. destruct (H3 i Hi) as [A1 A2].
    apply (small_row L (S logSlots) (rmod r i) mont (B (mq (rmod r i)))); [lia|apply (built_wf r L H2r EL); lia|apply HB; exact Hi|apply H8; exact Hi|unfold prow; lia|exact A2].
Qed.
