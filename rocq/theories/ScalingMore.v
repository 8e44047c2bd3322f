(** Repeated division by the last modulus, CRT reconstruction, scaling by t/Q. *)
From Verif Require Import Word ModRed Arith ModRedProofs Fermat PolySpec PolyProofs Ring RingProofs NTT NTTProofs RingOps RNSSpec RowProofs OpsProofs OpsProps CRT BasisExt BasisProofs BasisProps ScalingSpec Scaling ScalingProps.
Open Scope Z_scope.

Lemma built_less c c' r : 0 <= c' <= c -> built_ring c r -> built_ring c' r.
Proof.
  intros Hc (fuel & N & ms & E & H1 & H2). exists fuel, N, ms. split; [exact E|]. split; [exact H1|].
  intros q Hq. specialize (H2 q Hq). assert (W0 : 0 < W) by reflexivity.
  destruct (Z.le_gt_cases 0 q); [|revert Hc W0 H; clear; nia].
  assert (c' * q <= c * q) by (apply Z.mul_le_mono_nonneg_r; lia). lia.
Qed.

(** ** Several moduli *)
Lemma last_moduli_S r level n : last_moduli r level (S n) = mq (rmod r level) :: last_moduli r (level - 1) n.
Proof.
  unfold last_moduli. cbn [seq map]. rewrite Nat.sub_0_r. f_equal. rewrite <- seq_shift, map_map. apply map_ext.
  intros i. f_equal. f_equal. lia.
Qed.
Lemma last_moduli_snoc r level n : last_moduli r level (S n) = last_moduli r level n ++ [mq (rmod r (level - n))].
Proof. unfold last_moduli. rewrite seq_S, map_app. reflexivity. Qed.

Lemma last_pos c r level n : 2 <= c -> built_ring c r -> (level < length (rmods r))%nat -> forall q, In q (last_moduli r level n) -> 0 < q /\ Z.odd q = true.
Proof.
  intros Hc HB Hl q Hq. unfold last_moduli in Hq. apply in_map_iff in Hq. destruct Hq as (i & <- & _).
  destruct (wf_bound c r level Hc HB Hl) as (L & Hw & HW). destruct (HW (level - i)%nat ltac:(lia)) as (Hwi & G & _).
  split; [lia|apply (wf_odd _ _ Hwi)].
Qed.

Lemma floor_steps_spec r : built_ring 3 r -> forall n level p A, (n <= level)%nat ->
  rns_repr r level canon p A ->
  rns_repr r (level - n) canon (floor_steps r level n p) (fun k => A k / prodZ (last_moduli r level n)).
Proof.
  intros HB. induction n as [|n IH]; intros level p A Hn HA.
  - rewrite Nat.sub_0_r. cbn [floor_steps]. apply (rns_repr_ext _ _ _ _ A); [|exact HA].
    intros k _. unfold last_moduli. cbn [seq map]. rewrite prodZ_nil, Z.div_1_r. reflexivity.
  - cbn [floor_steps]. destruct (divfloor r HB level p p A ltac:(lia) HA) as [H1 _].
    assert (Hl := proj1 HA).
    specialize (IH (level - 1)%nat _ _ ltac:(lia) H1). replace (level - 1 - n)%nat with (level - S n)%nat in IH by lia.
    apply (rns_repr_ext _ _ _ _ _ _) with (2 := IH). intros k _.
    rewrite last_moduli_S, prodZ_cons.
    assert (0 < prodZ (last_moduli r (level - 1) n)).
    { apply prodZ_pos. intros q Hq. apply (last_pos 3 r (level - 1) n ltac:(lia) HB ltac:(lia) q Hq). }
    destruct (wf_bound 3 r level ltac:(lia) HB Hl) as (L & Hw & HW). destruct (HW level ltac:(lia)) as (_ & G & _).
    apply Z.div_div; lia.
Qed.

Lemma round_steps_spec r : built_ring 5 r -> forall n level p A, (n <= level)%nat ->
  rns_repr r level canon p A ->
  rns_repr r (level - n) canon (round_steps r level n p) (fun k => rounds (last_moduli r level n) (A k)).
Proof.
  intros HB. induction n as [|n IH]; intros level p A Hn HA.
  - rewrite Nat.sub_0_r. exact HA.
  - cbn [round_steps]. pose proof (divround_inplace r HB level p A ltac:(lia) HA) as H1.
    specialize (IH (level - 1)%nat _ _ ltac:(lia) H1). replace (level - 1 - n)%nat with (level - S n)%nat in IH by lia.
    rewrite last_moduli_S. exact IH.
Qed.

Lemma divfloor_many : forall r, built_ring 3 r -> forall nb level p0 p1 A, (0 < nb <= level)%nat ->
  rns_repr r level canon p0 A ->
  let out := DivFloorByLastModulusManyLvl r level nb p0 p1 in
  rns_repr r (level - nb) canon out (fun k => A k / fold_right Z.mul 1 (last_moduli r level nb)) /\ kept (level - nb) p1 out.
Proof.
  intros r HB nb level p0 p1 A Hn HA out. change (fold_right Z.mul 1) with prodZ. assert (Hl := proj1 HA).
  destruct nb as [|[|n]]; [lia| |].
  - destruct (divfloor r HB level p0 p1 A ltac:(lia) HA) as [H1 H2]. split; [|exact H2].
    apply (rns_repr_ext _ _ _ _ _ _) with (2 := H1). intros k _. rewrite last_moduli_S, prodZ_cons. unfold last_moduli. cbn [seq map].
    rewrite prodZ_nil, Z.mul_1_r. reflexivity.
  - unfold out, DivFloorByLastModulusManyLvl. cbv zeta.
    destruct (divfloor r HB level p0 [] A ltac:(lia) HA) as [H1 _].
    pose proof (floor_steps_spec r HB n (level - 1)%nat _ _ ltac:(lia) H1) as H2.
    replace (level - 1 - n)%nat with (level - S n)%nat in H2 by lia.
    destruct (divfloor r HB (level - S n)%nat _ p1 _ ltac:(lia) H2) as [H3 H4].
    replace (level - S n - 1)%nat with (level - S (S n))%nat in H3, H4 by lia. split; [|exact H4].
    apply (rns_repr_ext _ _ _ _ _ _) with (2 := H3). intros k _.
    rewrite last_moduli_snoc, last_moduli_S.
    assert (E : forall l q, prodZ (l ++ [q]) = prodZ l * q).
    { induction l as [|a l IHl]; intros q; cbn [app]; rewrite ?prodZ_cons, ?prodZ_nil, ?IHl; ring. }
    rewrite E, prodZ_cons.
    assert (0 < prodZ (last_moduli r (level - 1) n)).
    { apply prodZ_pos. intros q Hq. apply (last_pos 3 r (level - 1) n ltac:(lia) HB ltac:(lia) q Hq). }
    destruct (wf_bound 3 r level ltac:(lia) HB Hl) as (L & Hw & HW). destruct (HW level ltac:(lia)) as (_ & G & _).
    destruct (HW (level - S n)%nat ltac:(lia)) as (_ & G' & _).
    rewrite (Z.div_div (A k)) by lia. rewrite Z.div_div; [reflexivity| |lia].
    apply Z.neq_mul_0. split; lia.
Qed.

Lemma divround_many : forall r, built_ring 5 r -> forall nb level p0 p1 A, (0 < nb <= level)%nat ->
  rns_repr r level canon p0 A ->
  let out := snd (DivRoundByLastModulusManyLvl r level nb p0 p1) in
  rns_repr r (level - nb) canon out (fun k => rounds (last_moduli r level nb) (A k)) /\ kept (level - nb) p1 out.
Proof.
  intros r HB nb level p0 p1 A Hn HA out. destruct nb as [|[|n]]; [lia| |].
  - destruct (divround r HB level p0 p1 A ltac:(lia) HA) as [H1 H2]. split; [|exact H2].
    apply (rns_repr_ext _ _ _ _ _ _) with (2 := H1). intros k _. rewrite last_moduli_S. reflexivity.
  - assert (E : out = snd (DivRoundByLastModulusLvl r (level - S n) (round_steps r (level - 1) n (snd (DivRoundByLastModulusLvl r level p0 []))) p1)).
    { unfold out, DivRoundByLastModulusManyLvl. cbv zeta. destruct (DivRoundByLastModulusLvl r level p0 []) as [a b]. reflexivity. }
    rewrite E. destruct (divround r HB level p0 [] A ltac:(lia) HA) as [H1 _].
    pose proof (round_steps_spec r HB n (level - 1)%nat _ _ ltac:(lia) H1) as H2.
    replace (level - 1 - n)%nat with (level - S n)%nat in H2 by lia.
    destruct (divround r HB (level - S n)%nat _ p1 _ ltac:(lia) H2) as [H3 H4].
    replace (level - S n - 1)%nat with (level - S (S n))%nat in H3, H4 by lia. split; [|exact H4].
    apply (rns_repr_ext _ _ _ _ _ _) with (2 := H3). intros k _.
    rewrite last_moduli_snoc, last_moduli_S. unfold rounds. rewrite fold_left_app. reflexivity.
Qed.

Lemma rounds_spec qs a : (forall q, In q qs -> 0 < q /\ Z.odd q = true) -> qs <> [] -> Z.abs (a - prodZ qs * rounds qs a) < prodZ qs.
Proof.
  revert a. induction qs as [|q qs IH]; intros a H Hne; [congruence|]. clear Hne. rewrite prodZ_cons.
  destruct (H q (or_introl eq_refl)) as [Hq Ho]. pose proof (nearest_spec q a Hq Ho) as N1.
  change (rounds (q :: qs) a) with (rounds qs (nearest q a)).
  assert (P : 0 < prodZ qs) by (apply prodZ_pos; intros; apply H; right; assumption).
  destruct qs as [|q' qs'].
  - rewrite prodZ_nil. change (rounds [] (nearest q a)) with (nearest q a). lia.
  - specialize (IH (nearest q a) (fun x Hx => H x (or_intror Hx)) ltac:(discriminate)).
    set (M := prodZ (q' :: qs')) in *. set (d := rounds (q' :: qs') (nearest q a)) in *. set (b := nearest q a) in *.
    assert (IH' : - (M - 1) <= b - M * d <= M - 1) by lia.
    assert (B1 : - (q * (M - 1)) <= q * (b - M * d) <= q * (M - 1)).
    { clear - IH' Hq. nia. }
    replace (a - q * M * d) with ((a - q * b) + q * (b - M * d)) by ring. lia.
Qed.

Lemma inv_ntt_coeff r L level p0 A : built_ring 8 r -> rN r = (2 ^ L)%nat -> rns_ntt r L level (fun q => 2 * q) p0 A ->
  rns_repr r level canon (InvNTTLvl r level p0 []) A.
Proof.
  intros HB EL (Hl & Hp & HA). destruct (wf_bound 8 r level ltac:(lia) HB Hl) as (L' & Hw & HW).
  assert (L' = L) by (rewrite (wfr_N _ _ _ Hw) in EL; apply Nat.pow_inj_r in EL; lia). subst L'.
  assert (HL := wfr_logN _ _ _ Hw).
  split; [exact Hl|]. split; [unfold InvNTTLvl; rewrite lvl_length; lia|].
  intros i Hi. unfold InvNTTLvl. rewrite lvl_nth_lt by lia. rewrite EL. unfold canon, prow.
  destruct (HW i Hi) as (Hwi & G & G8). apply (invntt_row_repr L _ ltac:(lia) Hwi); [lia|]. apply HA. exact Hi.
Qed.
Lemma ntt_coeff r L level p0 p1 A : built_ring 8 r -> rN r = (2 ^ L)%nat -> rns_repr r level canon p0 A ->
  rns_ntt r L level canon (NTTLvl r level p0 p1) A.
Proof.
  intros HB EL (Hl & Hp & HA). destruct (wf_bound 8 r level ltac:(lia) HB Hl) as (L' & Hw & HW).
  assert (L' = L) by (rewrite (wfr_N _ _ _ Hw) in EL; apply Nat.pow_inj_r in EL; lia). subst L'.
  assert (HL := wfr_logN _ _ _ Hw).
  split; [exact Hl|]. split; [unfold NTTLvl; rewrite lvl_length; lia|].
  intros i Hi. unfold NTTLvl. rewrite lvl_nth_lt by lia. rewrite EL. unfold canon, prow.
  destruct (HW i Hi) as (Hwi & G & G8). apply (ntt_row_repr L _ ltac:(lia) Hwi (mq (rmod r i))); [lia|lia|].
  rewrite <- EL. apply HA. exact Hi.
Qed.

Lemma divfloor_many_ntt : forall r, built_ring 8 r -> forall L, rN r = (2 ^ L)%nat -> forall nb level p0 p1 A, (0 < nb <= level)%nat ->
  rns_ntt r L level (fun q => 2 * q) p0 A ->
  let out := DivFloorByLastModulusManyNTTLvl r level nb p0 p1 in
  rns_ntt r L (level - nb) canon out (fun k => A k / fold_right Z.mul 1 (last_moduli r level nb)) /\ kept (level - nb) p1 out.
Proof.
  intros r HB L EL nb level p0 p1 A Hn HA out. change (fold_right Z.mul 1) with prodZ.
  assert (B3 : built_ring 3 r) by (apply (built_less 8); [lia|exact HB]).
  assert (E : out = NTTLvl r (level - nb) (floor_steps r level nb (InvNTTLvl r level p0 [])) p1).
  { unfold out, DivFloorByLastModulusManyNTTLvl. destruct nb; [lia|reflexivity]. }
  rewrite E. split; [|apply lvl_kept]. apply ntt_coeff; [exact HB|exact EL|].
  apply (floor_steps_spec r B3 nb level _ A); [lia|]. apply (inv_ntt_coeff r L); assumption.
Qed.

Lemma divround_many_ntt : forall r, built_ring 8 r -> forall L, rN r = (2 ^ L)%nat -> forall nb level p0 p1 A, (0 < nb <= level)%nat ->
  rns_ntt r L level (fun q => 2 * q) p0 A ->
  let out := DivRoundByLastModulusManyNTTLvl r level nb p0 p1 in
  rns_ntt r L (level - nb) canon out (fun k => rounds (last_moduli r level nb) (A k)) /\ kept (level - nb) p1 out.
Proof.
  intros r HB L EL nb level p0 p1 A Hn HA out.
  assert (B3 : built_ring 5 r) by (apply (built_less 8); [lia|exact HB]).
  destruct nb as [|[|n]]; [lia| |].
  - destruct (divround_ntt r HB L EL level p0 p1 A ltac:(lia) HA) as [H1 H2]. cbv zeta in H1, H2.
    unfold out, DivRoundByLastModulusManyNTTLvl. rewrite last_moduli_S. split; [exact H1|exact H2].
  - unfold out, DivRoundByLastModulusManyNTTLvl. split; [|apply lvl_kept]. apply ntt_coeff; [exact HB|exact EL|].
    apply (round_steps_spec r B3 (S (S n)) level _ A); [lia|]. apply (inv_ntt_coeff r L); assumption.
Qed.

(** ** DivRound *)
Lemma divround_int a b : b <> 0 ->
  2 * Z.abs (a - b * DivRound a b) <= Z.abs b /\
  (2 * Z.abs (a - b * DivRound a b) = Z.abs b -> Z.abs a < Z.abs (b * DivRound a b)).
Proof.
  intros Hb. unfold DivRound. pose proof (Z.quot_rem a b Hb) as QR. set (i := Z.quot a b) in *.
  assert (A : Z.abs (Z.rem a b) < Z.abs b) by (apply Z.rem_bound_abs; exact Hb).
  assert (S : 0 <= a * Z.rem a b) by (rewrite Z.mul_comm; apply Z.rem_sign_mul; exact Hb).
  assert (Q : a = 0 -> Z.rem a b = 0) by (intros ->; apply Z.rem_0_l; exact Hb).
  set (r := Z.rem a b) in *.
  assert (Sg : 0 <= r /\ 0 <= a \/ r <= 0 /\ a <= 0) by (clear - S Q; destruct (Z.lt_trichotomy a 0) as [H|[H|H]]; [right; nia|specialize (Q H); lia|left; nia]).
  assert (Bi : b * i = a - r) by lia.
  destruct (Z.leb_spec (Z.abs b) (Z.abs (2 * r))) as [H|H].
  - assert (a <> 0) by (intros Z0; specialize (Q Z0); lia).
    destruct (Z.eqb_spec (Z.sgn a) (Z.sgn b)) as [Hs|Hs].
    + rewrite Z.mul_add_distr_l, Z.mul_1_r, Bi. clear Bi QR S Q. lia.
    + rewrite Z.mul_sub_distr_l, Z.mul_1_r, Bi. clear Bi QR S Q. lia.
  - rewrite Bi. lia.
Qed.

(** ** The modular inverse *)
Lemma egcd_spec a q : forall n r0 r1 s0 s1, 0 <= r1 < r0 -> r1 < 2 ^ Z.of_nat n ->
  eqm q (s0 * a) r0 -> eqm q (s1 * a) r1 -> Z.gcd r0 r1 = 1 -> eqm q (egcd (2 * n + 1) r0 r1 s0 s1 * a) 1.
Proof.
  induction n as [|n IH]; intros r0 r1 s0 s1 H1 H2 E0 E1 Hg.
  - cbn in H2. assert (r1 = 0) by lia. subst r1. cbn [egcd Nat.mul Nat.add Z.eqb]. rewrite E0.
    rewrite Z.gcd_0_r in Hg. apply eqm_eq. lia.
  - replace (2 * S n + 1)%nat with (S (S (2 * n + 1))) by lia. cbn [egcd].
    destruct (Z.eqb_spec r1 0) as [->|Hn1].
    { rewrite E0. rewrite Z.gcd_0_r in Hg. apply eqm_eq. lia. }
    pose proof (Z.mod_pos_bound r0 r1 ltac:(lia)) as M1. pose proof (Z.div_mod r0 r1 ltac:(lia)) as D1.
    set (r2 := r0 mod r1) in *. set (k1 := r0 / r1) in *.
    assert (Hg' : Z.gcd r1 r2 = 1).
    { rewrite <- Hg. unfold r2. rewrite (Z.gcd_comm r1), Z.gcd_mod by lia. apply Z.gcd_comm. }
    assert (E2 : eqm q ((s0 - k1 * s1) * a) r2).
    { transitivity (s0 * a - k1 * (s1 * a)); [apply eqm_eq; ring|]. rewrite E0, E1. apply eqm_eq. lia. }
    set (s2 := s0 - k1 * s1) in *.
    destruct (Z.eqb_spec r2 0) as [Hr2|Hn2].
    { rewrite Hr2 in Hg'. rewrite Z.gcd_0_r in Hg'. rewrite E1. apply eqm_eq. lia. }
    pose proof (Z.mod_pos_bound r1 r2 ltac:(lia)) as M2. pose proof (Z.div_mod r1 r2 ltac:(lia)) as D2.
    set (r3 := r1 mod r2) in *. set (k2 := r1 / r2) in *.
    apply IH.
    + lia.
    + rewrite Nat2Z.inj_succ, Z.pow_succ_r in H2 by lia.
      assert (1 <= k2) by (clear - D2 M2 M1 Hn2; nia). assert (r2 <= r2 * k2) by (clear - H M1; nia). lia.
    + exact E2.
    + transitivity (s1 * a - k2 * (s2 * a)); [apply eqm_eq; ring|]. rewrite E2, E1. apply eqm_eq. lia.
    + rewrite <- Hg'. unfold r3. rewrite (Z.gcd_comm r2), Z.gcd_mod by lia. apply Z.gcd_comm.
Qed.

Lemma modInverse_spec a q : prime q -> ~ (q | a) -> 0 <= modInverse a q < q /\ eqm q (modInverse a q * a) 1.
Proof.
  intros Hp Ha. pose proof (prime_ge_2 q Hp) as G. unfold modInverse.
  split; [apply Z.mod_pos_bound; lia|]. rewrite eqm_mod.
  pose proof (Z.mod_pos_bound a q ltac:(lia)) as M. apply egcd_spec.
  - lia.
  - rewrite Z2Nat.id by (pose proof (Z.log2_nonneg q); lia). pose proof (Z.log2_spec q ltac:(lia)). lia.
  - apply (eqm_intro _ _ _ (-1)). ring.
  - rewrite Z.mul_1_l. symmetry. apply eqm_mod.
  - rewrite Z.gcd_comm, Z.gcd_mod by lia. rewrite Z.gcd_comm.
    apply Zgcd_1_rel_prime. apply rel_prime_sym, prime_rel_prime; assumption.
Qed.

(** ** CRT reconstruction *)
Lemma level_modulus_spec r level : (level < length (rmods r))%nat -> level_modulus r level = lprod r level.
Proof.
  intros Hl. unfold level_modulus, lprod.
  assert (E : map (fun i => mq (rmod r i)) (seq 0 (S level)) = firstn (S level) (moduli r)).
  { apply (nth_ext _ _ 0 0).
    - rewrite map_length, seq_length, firstn_length. unfold moduli. rewrite map_length. lia.
    - intros n Hn. rewrite map_length, seq_length in Hn. rewrite nth_map_seq by exact Hn.
      rewrite nth_firstn by exact Hn. rewrite nth_moduli by lia. reflexivity. }
  rewrite E. apply eq_trans with (fold_right Z.mul 1 (firstn (S level) (moduli r))); [|reflexivity].
  rewrite <- (rev_involutive (firstn (S level) (moduli r))). rewrite fold_left_rev_right.
  rewrite rev_involutive.
  assert (G : forall l a, fold_left Z.mul l a = fold_left (fun x y => y * x) l a).
  { induction l as [|x l IH]; intros a; [reflexivity|]. cbn [fold_left]. rewrite IH, (Z.mul_comm x). reflexivity. }
  rewrite G. generalize (firstn (S level) (moduli r)). intros l.
  assert (G2 : forall l a, fold_left (fun x y => y * x) l a = a * fold_left (fun x y => y * x) l 1).
  { clear. induction l as [|x l IH]; intros a; cbn [fold_left]; [ring|]. rewrite (IH (x * a)), (IH (x * 1)). ring. }
  clear G. induction l as [|x l IH]; [reflexivity|]. cbn [fold_left rev]. rewrite fold_left_app. cbn [fold_left].
  rewrite G2, IH. ring.
Qed.

Lemma fold_left_add_bigsum f n : fold_left Z.add (map f (seq 0 n)) 0 = bigsum n f.
Proof.
  induction n as [|n IH]; [reflexivity|]. rewrite seq_S, map_app, fold_left_app, IH. reflexivity.
Qed.

Lemma crt_coeff_spec L r i j : wf_ring L L r -> (i < length (rmods r))%nat -> (j < length (rmods r))%nat ->
  eqm (mq (rmod r j)) (crt_coeff r i) (if Nat.eqb i j then 1 else 0).
Proof.
  intros Hw Hi Hj.
  assert (Hms : forall m, In m (rmods r) -> prime (mq m) /\ 5 <= mq m /\ 2 * mq m <= W /\ mqinv m = MRedParams (mq m)).
  { intros m Hm. apply (wf_ms L r (length (rmods r)) Hw). rewrite firstn_all. exact Hm. }
  pose proof (wfr_distinct _ _ _ Hw) as Hnd.
  assert (Lm : length (moduli r) = length (rmods r)) by (unfold moduli; apply map_length).
  pose proof (wf_ring_mod _ _ _ i Hw Hi) as Hwi. pose proof (wf_ge _ _ Hwi) as G.
  assert (Eq : Z.quot (rbigQ r) (mq (rmod r i)) = qstar i (moduli r)).
  { rewrite (wfr_Q _ _ _ Hw). change (fold_right Z.mul 1) with prodZ.
    rewrite <- (qstar_prod i (moduli r)) by lia. rewrite nth_moduli by exact Hi.
    rewrite Z.mul_comm. apply Z.quot_mul. lia. }
  unfold crt_coeff. rewrite Eq.
  destruct (modInverse_spec (qstar i (moduli r)) (mq (rmod r i)) (wf_prime _ _ Hwi)) as [R E].
  { rewrite <- nth_moduli by exact Hi. apply (qstar_coprime (rmods r) Hms Hnd i Hi). }
  destruct (Nat.eqb_spec i j) as [->|Hn].
  - rewrite eqm_mod, Z.mul_comm. exact E.
  - assert (D := qstar_other (rmods r) j i Hj Hi ltac:(lia)). change (map mq (rmods r)) with (moduli r) in D. rewrite nth_moduli in D by exact Hj.
    destruct D as [c Hc]. rewrite Hc. apply (eqm_intro _ _ _ (c * (modInverse (c * mq (rmod r j)) (mq (rmod r i)) mod mq (rmod r i)))). ring.
Qed.

Lemma crt_value_spec L r level B p X j : wf_ring L L r -> rns_repr r level B p X -> (j < rN r)%nat ->
  crt_value r level p j = X j mod lprod r level.
Proof.
  intros Hw (Hl & Hp & HX) Hj. unfold crt_value. rewrite level_modulus_spec by exact Hl. rewrite fold_left_add_bigsum.
  change (eqm (lprod r level) (bigsum (S level) (fun k => nth j (prow p k) 0 * crt_coeff r k)) (X j)).
  apply (lprod_eqm L r Hw level _ _ Hl). intros i Hi.
  transitivity (bigsum (S level) (fun k => if Nat.eqb k i then nth j (prow p i) 0 else 0)).
  - apply bigsum_eqm. intros k Hk. rewrite (crt_coeff_spec L r k i Hw) by lia.
    destruct (Nat.eqb_spec k i) as [->|_]; apply eqm_eq; ring.
  - rewrite (bigsum_single _ i); [|lia|intros k Hk Hn; destruct (Nat.eqb_spec k i); [contradiction|reflexivity]].
    rewrite Nat.eqb_refl. unfold prow. apply (HX i Hi). exact Hj.
Qed.

Lemma gap_indices_spec N gap : (0 < gap)%nat ->
  let l := gap_indices N gap in
  (forall i, (i < length l)%nat -> nth i l O = (i * gap)%nat /\ (i * gap < N)%nat) /\ (N <= length l * gap)%nat.
Proof.
  intros Hg l. unfold l, gap_indices. rewrite map_length, seq_length.
  pose proof (Nat.div_mod (N + gap - 1) gap ltac:(lia)) as D. pose proof (Nat.mod_upper_bound (N + gap - 1) gap ltac:(lia)) as M.
  set (c := ((N + gap - 1) / gap)%nat) in *. split.
  - intros i Hi. rewrite nth_map_seq by exact Hi. split; [reflexivity|]. clear - Hi D M Hg. nia.
  - clear - D M Hg. nia.
Qed.

Lemma poly_to_bigint r : built_ring 2 r -> forall level B p X gap, (0 < gap)%nat -> rns_repr r level B p X ->
  let out := PolyToBigintLvl r level p gap in
  (rN r <= length out * gap)%nat /\
  forall i, (i < length out)%nat -> (i * gap < rN r)%nat /\ nth i out 0 = X (i * gap)%nat mod lprod r level.
Proof.
  intros HB level B p X gap Hg HX out. destruct (built_ring_wf 2 r ltac:(lia) HB) as (L & Hw & _).
  destruct (gap_indices_spec (rN r) gap Hg) as [G1 G2]. unfold out, PolyToBigintLvl. rewrite map_length.
  split; [exact G2|]. intros i Hi. destruct (G1 i Hi) as [E1 E2]. split; [exact E2|].
  rewrite (nth_map_gen _ _ _ O) by exact Hi. rewrite E1. apply (crt_value_spec L r level B); assumption.
Qed.

Lemma poly_to_bigint_centered r : built_ring 2 r -> forall level B p X gap, (0 < gap)%nat -> rns_repr r level B p X ->
  let out := PolyToBigintCenteredLvl r level p gap in
  let Q := lprod r level in
  (rN r <= length out * gap)%nat /\
  forall i, (i < length out)%nat -> (i * gap < rN r)%nat /\
    eqm Q (nth i out 0) (X (i * gap)%nat) /\ - (Q + 1) <= 2 * nth i out 0 < Q - 1 /\
    (- Q < 2 * X (i * gap)%nat < Q - 1 -> nth i out 0 = X (i * gap)%nat).
Proof.
  intros HB level B p X gap Hg HX out Q. destruct (built_ring_wf 2 r ltac:(lia) HB) as (L & Hw & _).
  destruct (gap_indices_spec (rN r) gap Hg) as [G1 G2]. unfold out, PolyToBigintCenteredLvl. rewrite map_length.
  split; [exact G2|]. intros i Hi. destruct (G1 i Hi) as [E1 E2]. split; [exact E2|].
  rewrite (nth_map_gen _ _ _ O) by exact Hi. rewrite E1. cbv zeta. rewrite (crt_value_spec L r level B p X _ Hw HX E2).
  rewrite level_modulus_spec by (apply HX). fold Q.
  assert (HQ : 0 < Q) by (apply (lprod_pos L r Hw)).
  assert (Odd : Z.odd Q = true).
  { unfold Q. rewrite lprod_prodZ. assert (G : forall q, In q (firstn (S level) (moduli r)) -> Z.odd q = true).
    { intros q Hq. apply firstn_in in Hq. unfold moduli in Hq. apply in_map_iff in Hq. destruct Hq as (m & <- & Hm).
      apply (wf_odd _ _ (wfr_mods _ _ _ Hw m Hm)). }
    revert G. generalize (firstn (S level) (moduli r)). induction l as [|q l IH]; intros G; [rewrite prodZ_nil; reflexivity|].
    rewrite prodZ_cons, Z.odd_mul, (G q (or_introl eq_refl)), IH; [reflexivity|]. intros; apply G; right; assumption. }
  apply Z.odd_spec in Odd. destruct Odd as [h Eh].
  assert (Es : Z.shiftr Q 1 = h).
  { rewrite Z.shiftr_div_pow2 by lia. change (2 ^ 1) with 2. rewrite Eh. replace (2 * h + 1) with (1 + h * 2) by ring. rewrite Z.div_add by lia. reflexivity. }
  rewrite Es. set (x := X (i * gap)%nat) in *. pose proof (Z.mod_pos_bound x Q HQ) as M.
  assert (U : forall v, eqm Q v x -> - (Q + 1) <= 2 * v < Q - 1 -> - Q < 2 * x < Q - 1 -> v = x).
  { intros v Ev R1 R2. apply eqm_elim in Ev; [|lia]. destruct Ev as [n En]. assert (n = 0); [|subst n; lia].
    clear - En R1 R2 HQ. nia. }
  destruct (Z.leb_spec h (x mod Q)) as [H|H].
  - assert (E : eqm Q (x mod Q - Q) x).
    { transitivity (x mod Q); [apply (eqm_intro _ _ _ (-1)); ring|apply eqm_mod]. }
    split; [exact E|]. split; [lia|]. apply U; [exact E|lia].
  - split; [apply eqm_mod|]. split; [lia|]. apply U; [apply eqm_mod|lia].
Qed.

(** ** EqualLvl *)
Lemma equal_lvl r : built_ring 2 r -> forall level p1 p2 X Y,
  rns_repr r level (fun _ => W) p1 X -> rns_repr r level (fun _ => W) p2 Y ->
  let '(b, p1', p2') := EqualLvl r level p1 p2 in
  (b = true <-> forall k, (k < rN r)%nat -> eqm (lprod r level) (X k) (Y k)) /\
  rns_repr r level canon p1' X /\ rns_repr r level canon p2' Y.
Proof.
  intros HB level p1 p2 X Y HX HY. unfold EqualLvl. destruct (built_ring_wf 2 r ltac:(lia) HB) as (L & Hw & HW).
  assert (Hl := proj1 HX).
  assert (E : forallb (fun i => Nat.eqb (length (prow p1 i)) (length (prow p2 i))) (seq 0 (S level)) = true).
  { apply forallb_forall. intros i Hi. apply in_seq in Hi. apply Nat.eqb_eq. unfold prow.
    destruct HX as (_ & _ & HX), HY as (_ & _ & HY). rewrite (proj1 (HX i ltac:(lia))), (proj1 (HY i ltac:(lia))). reflexivity. }
  rewrite E.
  assert (Red : forall p Z0, rns_repr r level (fun _ => W) p Z0 -> rns_repr r level canon (ReduceLvl r level p p) Z0).
  { intros p Z0 (_ & H2 & H3). split; [exact Hl|]. split; [unfold ReduceLvl, op1; rewrite lvl_length; lia|].
    intros i Hi. unfold ReduceLvl, op1. rewrite lvl_nth_lt by lia. unfold canon.
    pose proof (wf_ring_mod _ _ _ i Hw ltac:(lia)) as Hwi. pose proof (wf_ge _ _ Hwi). pose proof (wf_W _ _ Hwi).
    apply (row_map _ _ W _ _ _ Z0); [|apply H3; exact Hi].
    intros k x Hk Hx Ex. rewrite (wf_bred _ _ Hwi), BRedAdd_correct by lia.
    split; [apply Z.mod_pos_bound; lia|]. rewrite eqm_mod. exact Ex. }
  pose proof (Red p1 X HX) as R1. pose proof (Red p2 Y HY) as R2.
  split; [|split; assumption].
  set (q1 := ReduceLvl r level p1 p1) in *. set (q2 := ReduceLvl r level p2 p2) in *.
  destruct R1 as (_ & _ & R1). destruct R2 as (_ & _ & R2). rewrite forallb_forall. split.
  - intros H k Hk. apply (lprod_eqm L r Hw level _ _ Hl). intros i Hi.
    assert (H' := H i ltac:(apply in_seq; lia)). rewrite forallb_forall in H'. specialize (H' k ltac:(apply in_seq; lia)).
    apply Z.eqb_eq in H'. unfold prow in H'. rewrite <- (proj2 (proj2 (R1 i Hi) k Hk)), H'. apply (R2 i Hi). exact Hk.
  - intros H i Hi. apply in_seq in Hi. apply forallb_forall. intros k Hk. apply in_seq in Hk. apply Z.eqb_eq. unfold prow.
    destruct (proj2 (R1 i ltac:(lia)) k ltac:(lia)) as [A1 A2]. destruct (proj2 (R2 i ltac:(lia)) k ltac:(lia)) as [B1 B2]. unfold canon in *.
    apply (eqm_small (mq (rmod r i))); [assumption|assumption|]. rewrite A2, B2.
    apply (lprod_eqm L r Hw level _ _ Hl); [apply H; lia|lia].
Qed.

(** ** Scaling by t/Q *)
Lemma nearest_quot Q n : 0 < Q -> 0 <= n ->
  (if Q <=? 2 * Z.rem n Q then Z.quot n Q + 1 else Z.quot n Q) = nearest Q n.
Proof.
  intros HQ Hn. rewrite Z.quot_div_nonneg, Z.rem_mod_nonneg by lia.
  pose proof (Z.div_mod n Q ltac:(lia)) as D. pose proof (Z.mod_pos_bound n Q HQ) as M. unfold nearest.
  destruct (Z.leb_spec Q (2 * (n mod Q))).
  - apply (Z.div_unique_pos _ _ _ (2 * (n mod Q) - Q)); lia.
  - apply (Z.div_unique_pos _ _ _ (2 * (n mod Q) + Q)); lia.
Qed.

Lemma gap_one N : length (gap_indices N 1) = N /\ forall k, (k < N)%nat -> nth k (gap_indices N 1) O = k.
Proof.
  unfold gap_indices. rewrite map_length, seq_length. replace (N + 1 - 1)%nat with N by lia. rewrite Nat.div_1_r.
  split; [reflexivity|]. intros k Hk. rewrite nth_map_seq by exact Hk. lia.
Qed.

Lemma simple_scale r : built_ring 2 r -> forall t B p1 p2 X, 0 < t -> t < W ->
  length p1 = length (rmods r) -> rns_repr r (length (rmods r) - 1) B p1 X ->
  let Q := lprod r (length (rmods r) - 1) in
  let out := SimpleScale r t p1 p2 in
  length out = length p2 /\
  forall j k, (j < length p2)%nat -> (k < rN r)%nat ->
    coeff out j k = nearest Q (t * (X k mod Q)) /\ 0 <= coeff out j k <= t /\ eqm t (coeff out j k) (nearest Q (t * X k)).
Proof.
  intros HB t B p1 p2 X Ht HtW Hlen HX Q out. destruct (built_ring_wf 2 r ltac:(lia) HB) as (L & Hw & _).
  unfold out, SimpleScale. split; [apply map_length|]. intros j k Hj Hk.
  assert (EQ : rbigQ r = Q).
  { rewrite (wfr_Q _ _ _ Hw). unfold Q, lprod. assert (HX' := proj1 HX). replace (S (length (rmods r) - 1)) with (length (moduli r)) by (unfold moduli; rewrite map_length; lia).
    rewrite firstn_all. reflexivity. }
  assert (HQ : 0 < Q) by (apply (lprod_pos L r Hw)).
  unfold coeff. rewrite (nth_map_gen _ _ _ []) by exact Hj. destruct (gap_one (rN r)) as [G1 G2].
  unfold PolyToBigintLvl. rewrite (nth_map_gen _ _ _ 0) by (rewrite map_length; lia).
  rewrite (nth_map_gen _ _ _ O) by lia. rewrite G2 by exact Hk.
  assert (El : Level p1 = (length (rmods r) - 1)%nat) by (unfold Level; lia). rewrite El.
  rewrite (crt_value_spec L r _ B p1 X k Hw HX Hk). fold Q. rewrite EQ. cbv zeta.
  pose proof (Z.mod_pos_bound (X k) Q HQ) as M. set (x := X k mod Q) in *.
  rewrite nearest_quot; [|exact HQ|apply Z.mul_nonneg_nonneg; lia]. rewrite (Z.mul_comm x t).
  assert (R : 0 <= nearest Q (t * x) <= t).
  { unfold nearest. split; [apply Z.div_pos; [|lia]; clear - M Ht HQ; nia|].
    assert (H : (2 * (t * x) + Q) / (2 * Q) < t + 1); [|lia]. apply Z.div_lt_upper_bound; [lia|]. clear - M Ht HQ. nia. }
  rewrite w64_small by lia. split; [reflexivity|]. split; [exact R|].
  assert (DM := Z.div_mod (X k) Q ltac:(lia)). fold x in DM. unfold nearest.
  set (n := X k / Q) in *. rewrite DM.
  replace (2 * (t * (Q * n + x)) + Q) with (2 * (t * x) + Q + (t * n) * (2 * Q)) by ring.
  rewrite Z.div_add by lia. symmetry. apply (eqm_intro _ _ _ n). ring.
Qed.

Lemma odd_lprod L r level : wf_ring L L r -> Z.odd (lprod r level) = true.
Proof.
  intros Hw. rewrite lprod_prodZ. assert (G : forall q, In q (firstn (S level) (moduli r)) -> Z.odd q = true).
  { intros q Hq. apply firstn_in in Hq. unfold moduli in Hq. apply in_map_iff in Hq. destruct Hq as (m & <- & Hm).
    apply (wf_odd _ _ (wfr_mods _ _ _ Hw m Hm)). }
  revert G. generalize (firstn (S level) (moduli r)). induction l as [|q l IH]; intros G; [rewrite prodZ_nil; reflexivity|].
  rewrite prodZ_cons, Z.odd_mul, (G q (or_introl eq_refl)), IH; [reflexivity|]. intros; apply G; right; assumption.
Qed.

Lemma scale_const t Q : prime t -> 5 <= t -> 2 * t <= W -> ~ (t | Q) ->
  let sc := wsub t (MForm (ModExp (Q mod t) (t - 2) t) t (BRedParams t)) in
  0 < sc <= t /\ eqm t (sc * Q) (- W).
Proof.
  intros Hp H5 H2 Hcop sc. pose proof (Z.mod_pos_bound Q t ltac:(lia)) as MQ. set (Qt := Q mod t) in *.
  assert (EQ : eqm t Qt Q) by apply eqm_mod. unfold sc. rewrite ModExp_correct by (clearbody Qt; lia).
  pose proof (Z.mod_pos_bound (Qt ^ (t - 2)) t ltac:(lia)) as B1.
  assert (Ev : eqm t ((Qt ^ (t - 2)) mod t) (Qt ^ (t - 2))) by apply eqm_mod.
  set (v := (Qt ^ (t - 2)) mod t) in *. clearbody v Qt. rewrite MForm_correct by lia.
  pose proof (Z.mod_pos_bound (v * W) t ltac:(lia)) as B2.
  assert (Eu : eqm t ((v * W) mod t) (v * W)) by apply eqm_mod.
  set (u := (v * W) mod t) in *. clearbody u.
  unfold wsub. rewrite w64_small by lia. split; [lia|].
  transitivity (- (u * Q)); [apply (eqm_intro _ _ _ Q); ring|]. apply eqm_opp.
  rewrite Eu, Ev. transitivity (Q ^ (t - 2) * W * Q).
  - apply eqm_mul; [|reflexivity]. apply eqm_mul; [|reflexivity]. apply eqm_pow. exact EQ.
  - transitivity (W * (Q * Q ^ (t - 2))); [apply eqm_eq; ring|]. rewrite (fermat_inv t Q Hp Hcop). apply eqm_eq. ring.
Qed.

Lemma scale_word t tInv Q h c sc x x' X d : Z.odd t = true -> 5 <= t -> 2 * t <= W -> eqm W (t * tInv) 1 -> 0 <= c -> (c + 4) * t <= W ->
  0 < sc <= t -> eqm t (sc * Q) (- W) -> 0 <= x < (c + 2) * t -> eqm t x x' -> x' = t * X + h - Q * d ->
  0 <= MRed (wadd (wsub t (h mod t)) x) sc t tInv < t /\ eqm t (MRed (wadd (wsub t (h mod t)) x) sc t tInv) d.
Proof.
  intros Ho H5 H2 Hinv Hc HcW Rsc Esc Hx Ex Ex'. assert (W1 : 1 < W) by reflexivity.
  pose proof (Z.mod_pos_bound h t ltac:(lia)) as Mh. assert (Eh : eqm t (h mod t) h) by apply eqm_mod.
  set (hm := h mod t) in *. clearbody hm.
  assert (E2 : wadd (wsub t hm) x = t - hm + x).
  { unfold wadd, wsub. rewrite (w64_small (t - hm)) by lia. apply w64_small. lia. }
  rewrite E2.
  assert (HP : (t - hm + x) * sc < t * W).
  { apply Z.le_lt_trans with ((t - hm + x) * t); [apply Z.mul_le_mono_nonneg_l; lia|]. rewrite Z.mul_comm. apply Z.mul_lt_mono_pos_l; lia. }
  split; [apply MRed_range; try assumption; lia|].
  apply odd_cancel_W; [lia|exact Ho|].
  rewrite MRed_eqm; try assumption; try lia.
  transitivity ((- (Q * d)) * sc).
  { apply eqm_mul; [|reflexivity]. transitivity (0 - h + x').
    - apply eqm_add; [|exact Ex]. apply eqm_sub; [apply (eqm_intro _ _ _ 1); ring|exact Eh].
    - rewrite Ex'. apply (eqm_intro _ _ _ X). ring. }
  transitivity (- (d * (sc * Q))); [apply eqm_eq; ring|]. rewrite Esc. apply eqm_eq. ring.
Qed.

Lemma rns_scale rQ rT : built_ring 4 rQ -> built_ring 2 rT -> rN rQ = rN rT -> disjoint_moduli rQ rT ->
  length (rmods rT) = 1%nat -> (length (rmods rQ) <= 32)%nat ->
  forall c pool p1 p2 X, 0 <= c -> lsum rQ (length (rmods rQ) - 1) <= c * W -> (c + 4) * mq (rmod rT 0) <= W ->
  length p1 = length (rmods rQ) -> length pool = length (rmods rQ) ->
  rns_repr rQ (length (rmods rQ) - 1) (fun _ => W) p1 X ->
  let Q := lprod rQ (length (rmods rQ) - 1) in
  let t := mq (rmod rT 0) in
  let out := snd (RNSScale (NewRNSScaler rQ rT) pool p1 p2) in
  exists D, rns_repr rT 0 canon out D /\ kept 0 p2 out /\
    forall k, (k < rN rQ)%nat -> -1 <= D k - nearest Q (t * X k) <= 1 /\
      (Q <= 2 ^ 42 * ((t * X k + Q / 2) mod Q) -> Q <= 2 ^ 42 * (Q - (t * X k + Q / 2) mod Q) -> D k = nearest Q (t * X k)).
Proof.
  intros HBQ HBT EN Hdis HT1 H32 c pool p1 p2 X Hc Hs HcW Hlen Hlp HX Q t out.
  destruct (built_pair 4 2 rQ rT ltac:(lia) ltac:(lia) HBQ HBT EN) as (L & HQ & HT & BQ & BT).
  assert (Hl := proj1 HX). set (lev := (length (rmods rQ) - 1)%nat) in *.
  pose proof (wf_ring_mod _ _ _ 0%nat HT ltac:(lia)) as HwT. pose proof (wf_ge _ _ HwT) as GT. pose proof (wf_W _ _ HwT) as GT2. fold t in GT, GT2.
  assert (Q0 : 0 < Q) by (apply (lprod_pos L rQ HQ)).
  assert (EQ : rbigQ rQ = Q).
  { rewrite (wfr_Q _ _ _ HQ). unfold Q, lprod. replace (S lev) with (length (moduli rQ)) by (unfold moduli, lev; rewrite map_length; lia).
    rewrite firstn_all. reflexivity. }
  assert (Odd := odd_lprod L rQ lev HQ). fold Q in Odd. apply Z.odd_spec in Odd. destruct Odd as [h Eh].
  assert (Es : Z.shiftr Q 1 = h).
  { rewrite Z.shiftr_div_pow2 by lia. change (2 ^ 1) with 2. rewrite Eh. replace (2 * h + 1) with (1 + h * 2) by ring. rewrite Z.div_add by lia. reflexivity. }
  assert (Eh2 : Q / 2 = h) by (rewrite <- Es, Z.shiftr_div_pow2 by lia; reflexivity).
  (* the pool *)
  unfold out, RNSScale, NewRNSScaler. cbn [rsQ rsT rs_qHalf rs_qHalfModT rs_qInv rs_params snd]. cbv zeta. fold t. rewrite EQ, Es.
  assert (EL1 : minLevelBinary rQ p1 pool = lev) by (unfold minLevelBinary, Level; lia). rewrite EL1.
  set (pool1 := MulScalarLvl rQ t lev p1 pool).
  assert (Lp1 : length pool1 = S lev) by (unfold pool1, MulScalarLvl, op1; rewrite lvl_length; lia).
  assert (EL2 : minLevelBinary rQ pool1 pool1 = lev) by (unfold minLevelBinary, Level; lia). rewrite EL2.
  assert (Wp1 : words rQ lev (fun _ => W) p1).
  { destruct HX as (_ & H2 & H3). split; [exact H2|]. intros i Hi. split; [apply H3; exact Hi|]. intros k Hk. apply (H3 i Hi). exact Hk. }
  assert (C1 : forall i k, (i <= lev)%nat -> (k < rN rQ)%nat -> coeff pool1 i k = (coeff p1 i k * t) mod mq (rmod rQ i)).
  { intros i k Hi Hk. apply (scalar_mul_ops rQ lev HBQ Hl p1 pool t Wp1 i k Hi Hk). lia. }
  assert (Len1 : forall i, (i <= lev)%nat -> length (nth i pool1 []) = rN rQ).
  { intros i Hi. unfold pool1, MulScalarLvl, op1. rewrite lvl_nth_lt by lia. rewrite map_length. apply Wp1. exact Hi. }
  assert (Wp2 : words rQ lev canon pool1).
  { split; [lia|]. intros i Hi. split; [apply Len1; exact Hi|]. intros k Hk. rewrite C1 by assumption.
    pose proof (wf_ge _ _ (wf_ring_mod _ _ _ i HQ ltac:(lia))). apply Z.mod_pos_bound. unfold canon. lia. }
  pose proof (scalar_add_ops rQ lev pool1 pool1 h HBQ Hl Wp2) as SA. destruct (AddScalarBigintLvl rQ lev pool1 h pool1) as [pool2 z1] eqn:EA.
  cbn [fst]. destruct (SubScalarBigintLvl rQ lev pool1 h pool1) as [a2 z2]. destruct SA as (_ & _ & SA).
  assert (Ep2 : pool2 = op1 rQ (fun m x => CRed (wadd x (h mod mq m)) (mq m)) lev pool1 pool1) by (injection EA as <- _; reflexivity).
  assert (Lp2 : length pool2 = S lev) by (rewrite Ep2; unfold op1; rewrite lvl_length; lia).
  set (Y := fun k => t * X k + h).
  assert (HY : rns_repr rQ lev (fun _ => W) pool2 Y).
  { split; [exact Hl|]. split; [lia|]. intros i Hi. split.
    - rewrite Ep2. unfold op1. rewrite lvl_nth_lt by lia. rewrite map_length. apply Len1. exact Hi.
    - intros k Hk. pose proof (wf_ring_mod _ _ _ i HQ ltac:(lia)) as Hwi. pose proof (wf_ge _ _ Hwi). pose proof (wf_W _ _ Hwi).
      destruct (SA i k Hi Hk) as [E1 _]. change (nth k (nth i pool2 []) 0) with (coeff pool2 i k). rewrite E1.
      split; [pose proof (Z.mod_pos_bound (coeff pool1 i k + h) (mq (rmod rQ i)) ltac:(lia)); lia|].
      rewrite eqm_mod. unfold Y. apply eqm_add; [|reflexivity]. rewrite C1 by assumption. rewrite eqm_mod, (Z.mul_comm t).
      apply eqm_mul; [|reflexivity]. destruct HX as (_ & _ & HX). apply (HX i Hi). exact Hk. }
  assert (EmT : moduli rT = [t]).
  { unfold moduli, t, rmod. destruct (rmods rT) as [|m [|m' l]]; cbn in HT1; try lia. reflexivity. }
  destruct (modUpExact_spec L rQ rT HQ HT lev Hl ltac:(lia) 0%nat c pool2 [] Y ltac:(lia) Hc Hs) as (X' & HL & HR & _).
  { intros j Hj. assert (j = 0)%nat by lia. subst j. fold t. lia. }
  { exact HY. }
  rewrite EmT in HR. replace (firstn (S lev) (moduli rQ)) with (moduli rQ) in HR.
  2: { symmetry. apply firstn_all2. unfold moduli. rewrite map_length. lia. }
  rewrite Lp2. set (poolT := modUpExact rQ rT (S lev) 1 (basisextenderparameters (moduli rQ) [t]) pool2 []) in *.
  destruct HR as (_ & _ & HR). specialize (HR 0%nat ltac:(lia)). fold t in HR. cbv beta in HR.
  assert (HD := divided_poly Q (rN rQ) Y X' Q0 HL). cbv zeta in HD.
  assert (Near : forall k, (k < rN rQ)%nat -> (Y k) / Q = nearest Q (t * X k)) by (intros k Hk; symmetry; apply nearest_half; lia).
  exists (fun k => (Y k - X' k) / Q).
  split; [|split].
  2: { apply lvl_kept. }
  2: { intros k Hk. destruct (HD k Hk) as [E1 [E2 E3]]. rewrite <- (Near k Hk). rewrite Eh2. split; [exact E2|]. exact E3. }
  split; [lia|]. split; [rewrite lvl_length; lia|].
  intros i Hi. assert (i = 0)%nat by lia. subst i. rewrite lvl_nth_lt by lia. fold t. unfold canon.
  rewrite firstn_all2 by (unfold prow; rewrite (proj1 HR), EN; lia).
  set (sc := wsub t (MForm _ _ _)).
  assert (Hcop : ~ (t | Q)).
  { intros DQ. unfold Q in DQ. rewrite lprod_prodZ in DQ.
    assert (G : exists q, In q (firstn (S lev) (moduli rQ)) /\ (t | q)).
    { revert DQ. generalize (firstn (S lev) (moduli rQ)). induction l as [|q l IH]; intros DQ.
      - rewrite prodZ_nil in DQ. apply Z.divide_1_r_nonneg in DQ; lia.
      - rewrite prodZ_cons in DQ. apply prime_mult in DQ; [|apply (wf_prime _ _ HwT)]. destruct DQ as [D|D].
        + exists q. split; [left; reflexivity|exact D].
        + destruct (IH D) as (q' & A & A'). exists q'. split; [right; exact A|exact A']. }
    destruct G as (q & Hq & Dq). apply firstn_in in Hq.
    apply prime_div_prime in Dq; [|apply (wf_prime _ _ HwT)|apply (moduli_prime L rQ HQ q Hq)].
    subst q. apply (Hdis t Hq). rewrite EmT. left. reflexivity. }
  destruct (scale_const t Q (wf_prime _ _ HwT) GT GT2 Hcop) as [Rsc Esc]. fold sc in Rsc, Esc.
  apply (row_map _ _ ((c + 2) * t) _ _ _ X').
  2: { unfold prow. exact HR. }
  intros k x Hk Hx Ex. rewrite <- EN in Hk. destruct (HD k Hk) as [E1 _].
  pose proof (wf_inv _ _ HwT) as Hinv. fold t in Hinv.
  apply (scale_word t (mqinv (rmod rT 0)) Q h c sc x (X' k) (X k)); try assumption; [apply (wf_odd _ _ HwT)|].
  unfold Y in E1. unfold Y. rewrite <- E1. ring.
Qed.

(** ** Setting coefficients *)
Lemma set_prefix_full new old : length new = length old -> set_prefix new old = new.
Proof. intros H. unfold set_prefix. rewrite H, skipn_all. apply app_nil_r. Qed.
Lemma set_prefix_nil new : set_prefix new [] = new.
Proof. unfold set_prefix. rewrite skipn_nil. apply app_nil_r. Qed.

Lemma set_row r i N f coeffs p1 : length coeffs = N -> (nth i p1 [] = [] \/ length (nth i p1 []) = N) -> 5 <= mq (rmod r i) ->
  (forall c, In c coeffs -> f c = c mod mq (rmod r i)) ->
  row_repr N (mq (rmod r i)) (mq (rmod r i)) (set_prefix (map f coeffs) (prow p1 i)) (fun k => nth k coeffs 0).
Proof.
  intros Hl Hp G Hf. unfold prow.
  assert (E : set_prefix (map f coeffs) (nth i p1 []) = map f coeffs).
  { destruct Hp as [-> | Hp]; [apply set_prefix_nil|apply set_prefix_full; rewrite map_length; lia]. }
  rewrite E. split; [rewrite map_length; exact Hl|]. intros k Hk. rewrite (nth_map_gen _ _ _ 0) by lia.
  rewrite Hf by (apply nth_In; lia). split; [apply Z.mod_pos_bound; lia|apply eqm_mod].
Qed.

(** [p1] is a polynomial with the rows to be written. *)
Lemma set_bigint r : built_ring 2 r -> forall level coeffs p1, (level < length (rmods r))%nat -> length coeffs = rN r ->
  (forall i, (i <= level)%nat -> nth i p1 [] = [] \/ length (nth i p1 []) = rN r) ->
  rns_repr r level canon (SetCoefficientsBigintLvl r level coeffs p1) (fun k => nth k coeffs 0) /\
  kept level p1 (SetCoefficientsBigintLvl r level coeffs p1).
Proof.
  intros HB level coeffs p1 Hl Hc Hp. destruct (wf_bound 2 r level ltac:(lia) HB Hl) as (L & Hw & HW).
  split; [|apply lvl_kept]. split; [exact Hl|]. split; [unfold SetCoefficientsBigintLvl; rewrite lvl_length; lia|].
  intros i Hi. unfold SetCoefficientsBigintLvl. rewrite lvl_nth_lt by lia. destruct (HW i Hi) as (_ & G & G2).
  apply set_row; [exact Hc|apply Hp; exact Hi|exact G|].
  intros c _. pose proof (Z.mod_pos_bound c (mq (rmod r i)) ltac:(lia)). apply w64_small. lia.
Qed.

Lemma set_uint64 r : built_ring 2 r -> forall coeffs p1, length coeffs = rN r ->
  (forall i, (i < length (rmods r))%nat -> nth i p1 [] = [] \/ length (nth i p1 []) = rN r) ->
  rns_repr r (length (rmods r) - 1) canon (SetCoefficientsUint64 r coeffs p1) (fun k => nth k coeffs 0).
Proof.
  intros HB coeffs p1 Hc Hp. destruct (built_ring_wf 2 r ltac:(lia) HB) as (L0 & Hw0 & _).
  assert (Hne := wfr_ne _ _ _ Hw0). assert (Hl : (length (rmods r) - 1 < length (rmods r))%nat) by (destruct (rmods r); [congruence|cbn; lia]).
  destruct (wf_bound 2 r _ ltac:(lia) HB Hl) as (L & Hw & HW).
  split; [exact Hl|]. split; [unfold SetCoefficientsUint64; rewrite lvl_length; lia|].
  intros i Hi. unfold SetCoefficientsUint64. rewrite lvl_nth_lt by lia. destruct (HW i Hi) as (_ & G & G2).
  apply set_row; [exact Hc|apply Hp; lia|exact G|]. intros c _. reflexivity.
Qed.

Lemma set_int64 r : built_ring 2 r -> forall coeffs p1, length coeffs = rN r ->
  (forall i, (i < length (rmods r))%nat -> nth i p1 [] = [] \/ length (nth i p1 []) = rN r) ->
  rns_repr r (length (rmods r) - 1) canon (SetCoefficientsInt64 r coeffs p1) (fun k => nth k coeffs 0).
Proof.
  intros HB coeffs p1 Hc Hp. destruct (built_ring_wf 2 r ltac:(lia) HB) as (L0 & Hw0 & _).
  assert (Hne := wfr_ne _ _ _ Hw0). assert (Hl : (length (rmods r) - 1 < length (rmods r))%nat) by (destruct (rmods r); [congruence|cbn; lia]).
  destruct (wf_bound 2 r _ ltac:(lia) HB Hl) as (L & Hw & HW).
  split; [exact Hl|]. split; [unfold SetCoefficientsInt64; rewrite lvl_length; lia|].
  intros i Hi. unfold SetCoefficientsInt64. rewrite lvl_nth_lt by lia. destruct (HW i Hi) as (_ & G & G2).
  apply set_row; [exact Hc|apply Hp; lia|exact G|].
  intros c _. set (q := mq (rmod r i)) in *.
  pose proof (Z.quot_rem c q ltac:(lia)) as D. pose proof (Z.rem_bound_abs c q ltac:(lia)) as A.
  rewrite w64_small by lia. rewrite CRed_correct by lia.
  change (eqm q (Z.rem c q + q) c). apply (eqm_intro _ _ _ (1 - Z.quot c q)). lia.
Qed.

(** The two directions are inverse to each other. *)
Lemma bigint_round_trip r : built_ring 2 r -> forall level coeffs p1, (level < length (rmods r))%nat -> length coeffs = rN r ->
  (forall i, (i <= level)%nat -> nth i p1 [] = [] \/ length (nth i p1 []) = rN r) ->
  PolyToBigintLvl r level (SetCoefficientsBigintLvl r level coeffs p1) 1 = map (fun c => c mod lprod r level) coeffs.
Proof.
  intros HB level coeffs p1 Hl Hc Hp. destruct (set_bigint r HB level coeffs p1 Hl Hc Hp) as [HX _].
  destruct (built_ring_wf 2 r ltac:(lia) HB) as (L & Hw & _). destruct (gap_one (rN r)) as [G1 G2].
  unfold PolyToBigintLvl. apply (nth_ext _ _ 0 0); [rewrite !map_length; lia|].
  intros k Hk. rewrite map_length in Hk. rewrite (nth_map_gen _ _ _ O), (nth_map_gen _ _ _ 0) by lia. rewrite G2 by lia.
  rewrite (crt_value_spec L r level canon _ _ k Hw HX) by lia. reflexivity.
Qed.

Lemma poly_round_trip r : built_ring 2 r -> forall level p p1, (level < length (rmods r))%nat -> words r level canon p ->
  (forall i, (i <= level)%nat -> nth i p1 [] = [] \/ length (nth i p1 []) = rN r) ->
  forall i, (i <= level)%nat -> nth i (SetCoefficientsBigintLvl r level (PolyToBigintLvl r level p 1) p1) [] = nth i p [].
Proof.
  intros HB level p p1 Hl Hwd Hp i Hi. destruct (built_ring_wf 2 r ltac:(lia) HB) as (L & Hw & _).
  destruct (words_repr L r level canon p Hw Hl Hwd) as [X HX].
  set (cs := PolyToBigintLvl r level p 1). destruct (gap_one (rN r)) as [G1 G2].
  assert (Hc : length cs = rN r) by (unfold cs, PolyToBigintLvl; rewrite map_length; exact G1).
  destruct (set_bigint r HB level cs p1 Hl Hc Hp) as [(_ & _ & HY) _]. specialize (HY i Hi).
  pose proof HX as HX0. destruct HX0 as (_ & _ & HX'). specialize (HX' i Hi).
  apply (nth_ext _ _ 0 0); [rewrite (proj1 HY), (proj1 HX'); reflexivity|].
  intros k Hk. rewrite (proj1 HY) in Hk. destruct (proj2 HY k Hk) as [R1 E1]. destruct (proj2 HX' k Hk) as [R2 E2]. unfold canon in *.
  apply (eqm_small (mq (rmod r i))); [assumption|assumption|]. rewrite E1, E2.
  unfold cs, PolyToBigintLvl. rewrite (nth_map_gen _ _ _ O) by lia. rewrite G2 by lia.
  rewrite (crt_value_spec L r level canon p X k Hw HX Hk).
  pose proof (lprod_eqm L r Hw level (X k mod lprod r level) (X k) Hl) as [F _]. apply F; [apply eqm_mod|exact Hi].
Qed.
