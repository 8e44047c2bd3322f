(** Passing between a conjugate-invariant ring and the standard ring of twice the degree. *)
From Coq Require Import Znumtheory.
From Verif Require Import Word ModRed Arith ModRedProofs PolySpec PolyProofs SmallPrimes Ring RingProofs NTT NTTProofs RingOps RNSSpec RowProofs OpsProofs
  Automorphism AutoProps NTTProps CI CISpec CIProofs CIProps.

(** ** The root found does not depend on the fuel *)
Lemma rho_walk_mono f : forall f' x y m c d, (f <= f')%nat -> rho_walk f x y m c = Some d -> rho_walk f' x y m c = Some d.
Proof.
  induction f as [|f IH]; intros f' x y m c d Hf H; [discriminate|]. destruct f' as [|f']; [lia|].
  cbn [rho_walk] in *. destruct (if _ <? _ then _ else _) as [x' y']. destruct (1 <? _); [exact H|]. destruct (_ =? 0); [exact H|].
  apply IH; [lia|exact H].
Qed.

Lemma rho_retry_mono f f' t : forall c m d, (f <= f')%nat -> rho_retry f t c m = Some d -> rho_retry f' t c m = Some d.
Proof.
  induction t as [|t IH]; intros c m d Hf H; [exact H|]. cbn [rho_retry] in *.
  destruct (rho_walk f 2 2 m c) as [d'|] eqn:E; [|discriminate]. rewrite (rho_walk_mono f f' _ _ _ _ _ Hf E).
  destruct (1 <? d'); [exact H|]. apply IH; assumption.
Qed.

Lemma large_factors_mono f : forall f' m l r, (f <= f')%nat -> large_factors f m l = Some r -> large_factors f' m l = Some r.
Proof.
  induction f as [|f IH]; intros f' m l r Hf H; [discriminate|]. destruct f' as [|f']; [lia|].
  cbn [large_factors] in *. unfold factorizationPollardsRho in *.
  destruct (rho_retry (S f) 9 1 m) as [d|] eqn:E; [|discriminate]. rewrite (rho_retry_mono (S f) (S f') 9 1 m d Hf E).
  destruct (d =? 0); [exact H|]. cbv zeta in *. destruct (_ && _); (apply IH; [lia|exact H]).
Qed.

Lemma getFactors_mono f f' n l : (f <= f')%nat -> getFactors f n = Some l -> getFactors f' n = Some l.
Proof.
  intros Hf. unfold getFactors. destruct (small_factors smallPrimes n []) as [m fs]. destruct (m =? 1); [tauto|]. apply large_factors_mono. exact Hf.
Qed.

Lemma root_loop_mono f : forall f' q g l r, (f <= f')%nat -> primitiveRoot_loop f q g l = Some r -> primitiveRoot_loop f' q g l = Some r.
Proof.
  induction f as [|f IH]; intros f' q g l r Hf H; [discriminate|]. destruct f' as [|f']; [lia|].
  cbn [primitiveRoot_loop] in *. destruct (root_ok _ _ _); [exact H|]. apply IH; [lia|exact H].
Qed.

Lemma primitiveRoot_mono f f' q g : (f <= f')%nat -> primitiveRoot f q = Some g -> primitiveRoot f' q = Some g.
Proof.
  intros Hf. unfold primitiveRoot. destruct (getFactors f (q - 1)) as [l|] eqn:E; [|discriminate].
  rewrite (getFactors_mono f f' _ _ Hf E). apply root_loop_mono. exact Hf.
Qed.

Lemma gen_modp_mono f f' R q m : (f <= f')%nat -> gen_modp f R q = Some m -> gen_modp f' R q = Some m.
Proof.
  intros Hf. unfold gen_modp. cbv zeta. destruct (primitiveRoot f q) as [g|] eqn:E; [|discriminate].
  rewrite (primitiveRoot_mono f f' _ _ Hf E). tauto.
Qed.

Lemma gen_modp_unique f f' R q m m' : gen_modp f R q = Some m -> gen_modp f' R q = Some m' -> m = m'.
Proof.
  intros H H'. destruct (Nat.le_ge_cases f f') as [Hf|Hf].
  - rewrite (gen_modp_mono f f' R q m Hf H) in H'. congruence.
  - rewrite (gen_modp_mono f' f R q m' Hf H') in H. congruence.
Qed.

Lemma gen_modp_mq fuel R q m : gen_modp fuel R q = Some m -> mq m = q.
Proof. unfold gen_modp. cbv zeta. destruct (primitiveRoot fuel q); [|discriminate]. intros E. injection E as <-. reflexivity. Qed.

Opaque gen_modp.
Lemma gen_all_unique f f' R ms : forall l l', sequence (map (gen_modp f R) ms) = Some l -> sequence (map (gen_modp f' R) ms) = Some l' -> l = l'.
Proof.
  induction ms as [|q ms IH]; intros l l' H H'; cbn [map sequence] in *; [congruence|].
  destruct (gen_modp f R q) as [m|] eqn:E; [|discriminate]. destruct (gen_modp f' R q) as [m'|] eqn:E'; [|discriminate].
  destruct (sequence (map (gen_modp f R) ms)) as [t|]; [|discriminate]. destruct (sequence (map (gen_modp f' R) ms)) as [t'|]; [|discriminate].
  specialize (IH t t' eq_refl eq_refl). injection H as <-. injection H' as <-. rewrite IH, (gen_modp_unique f f' R q m m' E E'). reflexivity.
Qed.

(** Everything a successful construction has computed. *)
Lemma custom_inv fuel N ms R r : NewRingWithCustomNTT fuel N ms R = inl r ->
  (16 <= N /\ Z.land N (N - 1) = 0 /\ length ms <> O /\ AllDistinct ms = true /\ forallb IsPrime ms = true /\
   forallb (fun qi => Z.land qi (R - 1) =? 1) ms = true) /\
  exists mps, sequence (map (gen_modp fuel R) ms) = Some mps /\
    r = mkRing (Z.to_nat N) R mps (fold_left Z.mul ms 1) (rescale_params ms).
Proof.
  unfold NewRingWithCustomNTT. intros E.
  destruct (Z.ltb_spec N 16); [discriminate|]. destruct (Z.eqb_spec (Z.land N (N - 1)) 0); [|discriminate].
  cbn [orb negb] in E. destruct (Nat.eqb_spec (length ms) 0); [discriminate|].
  destruct (AllDistinct ms); [|discriminate]. destruct (forallb IsPrime ms); [|discriminate]. cbn [negb] in E.
  destruct (forallb _ ms); [|discriminate]. cbn [negb] in E.
  destruct (sequence _) as [mps|]; [|discriminate]. injection E as <-. split; [tauto|]. exists mps. split; reflexivity.
Qed.

Lemma custom_intro fuel N ms R mps :
  (16 <= N /\ Z.land N (N - 1) = 0 /\ length ms <> O /\ AllDistinct ms = true /\ forallb IsPrime ms = true /\
   forallb (fun qi => Z.land qi (R - 1) =? 1) ms = true) -> sequence (map (gen_modp fuel R) ms) = Some mps ->
  NewRingWithCustomNTT fuel N ms R = inl (mkRing (Z.to_nat N) R mps (fold_left Z.mul ms 1) (rescale_params ms)).
Proof.
  intros (H1 & H2 & H3 & H4 & H5 & H6) E. unfold NewRingWithCustomNTT.
  destruct (Z.ltb_spec N 16); [lia|]. rewrite H2, Z.eqb_refl. cbn [orb negb]. destruct (Nat.eqb_spec (length ms) 0); [contradiction|].
  rewrite H4, H5, H6, E. reflexivity.
Qed.

Lemma custom_moduli fuel N ms R r : NewRingWithCustomNTT fuel N ms R = inl r -> moduli r = ms.
Proof.
  intros H. apply custom_inv in H. destruct H as [_ (mps & E & ->)]. unfold moduli. cbn [rmods].
  revert mps E. induction ms as [|q ms IH]; intros mps E; cbn [map sequence] in E; [injection E as <-; reflexivity|].
  destruct (gen_modp fuel R q) as [m|] eqn:Eg; [|discriminate].
  destruct (sequence (map (gen_modp fuel R) ms)) as [t|] eqn:Et; [|discriminate]. injection E as <-. cbn [map]. f_equal.
  - apply (gen_modp_mq _ _ _ _ Eg).
  - apply IH. reflexivity.
Qed.

(** ** The two rings of a pair *)
Lemma paired_wf c rc rs : 2 <= c -> paired c rc rs ->
  exists L, wf_ring (S L) L rc /\ wf_ring (S L) (S L) rs /\ rmods rc = rmods rs /\ rNthRoot rc = 2 ^ Z.of_nat (S (S L)) /\
    rNthRoot rs = 2 ^ Z.of_nat (S (S L)) /\ built_ring c rs /\ built_ci c rc /\
    forall i, (i < length (rmods rc))%nat -> c * mq (rmod rc i) <= W.
Proof.
  intros Hc (f1 & f2 & N & ms & E1 & E2 & HN & Hms).
  assert (B1 : built_ci c rc) by (exists f1, N, ms; split; [exact E1|]; split; [lia|exact Hms]).
  assert (B2 : built_ring c rs) by (exists f2, (2 * N), ms; split; [exact E2|]; split; [lia|exact Hms]).
  destruct (built_ci_wf c rc Hc B1) as (L & Hw & HR & H8).
  destruct (built_nth_root c rs Hc B2) as (L' & Hw' & HR' & _).
  assert (ER : rNthRoot rs = 2 ^ Z.of_nat (S (S L))).
  { rewrite <- HR, (custom_nth_root _ _ _ _ _ E1), (custom_nth_root _ _ _ _ _ E2). lia. }
  assert (L' = S L).
  { rewrite ER in HR'. apply Z.pow_inj_r in HR'; lia. }
  subst L'. exists L. split; [exact Hw|]. split; [exact Hw'|]. split; [|tauto].
  unfold NewRingConjugateInvariant in E1. unfold NewRing in E2.
  apply custom_inv in E1. apply custom_inv in E2. destruct E1 as [_ (m1 & S1 & ->)], E2 as [_ (m2 & S2 & ->)]. cbn [rmods].
  replace (2 * (2 * N)) with (4 * N) in S2 by lia. apply (gen_all_unique _ _ _ _ _ _ S1 S2).
Qed.

Lemma forallb_and {A} (f g : A -> bool) l : forallb f l = true -> forallb g l = true -> forallb (fun x => f x && g x) l = true.
Proof. intros H1 H2. rewrite forallb_forall in *. intros x Hx. rewrite (H1 x Hx), (H2 x Hx). reflexivity. Qed.

Lemma forallb_split {A} (f g : A -> bool) l : forallb (fun x => f x && g x) l = true -> forallb f l = true /\ forallb g l = true.
Proof.
  intros H. rewrite forallb_forall in H. split; apply forallb_forall; intros x Hx; specialize (H x Hx); apply andb_prop in H; tauto.
Qed.

Lemma land_pow2 k : Z.land (2 ^ Z.of_nat k) (2 ^ Z.of_nat k - 1) = 0.
Proof. rewrite land_mod_pow2 by (apply Z.pow_nonneg; lia). apply Z_mod_same_full. Qed.

Lemma standard_ring_lemma : forall fuel N ms rc, NewRingConjugateInvariant fuel N ms = inl rc ->
  (forall fuel' rs, StandardRing fuel' rc = Some rs <-> NewRing fuel' (2 * N) ms = inl rs) /\
  exists rs, StandardRing fuel rc = Some rs.
Proof.
  intros fuel N ms rc E. pose proof (custom_moduli _ _ _ _ _ E) as Em. unfold NewRingConjugateInvariant in E.
  apply custom_inv in E. destruct E as [(H1 & H2 & H3 & H4 & H5 & H6) (mps & Es & Er)].
  destruct (pow2_of_land N H1 H2) as (k & Hk & EN).
  assert (L2 : Z.land (2 * N) (2 * N - 1) = 0).
  { rewrite EN, <- Z.pow_succ_r, <- Nat2Z.inj_succ by lia. apply land_pow2. }
  assert (EP : forall fuel' m, sequence (map (gen_modp fuel' (4 * N)) ms) = Some m ->
     NewRing fuel' (2 * N) ms = inl (mkRing (2 * rN rc) (4 * N) m (rbigQ rc) (rescale_params ms)) /\
     StandardRing fuel' rc = Some (mkRing (2 * rN rc) (4 * N) m (rbigQ rc) (rescale_params ms))).
  { intros fuel' m Hm. split.
    - unfold NewRing. replace (2 * (2 * N)) with (4 * N) by lia. rewrite (custom_intro fuel' (2 * N) ms (4 * N) m).
      + rewrite Er. cbn [rN rbigQ]. repeat f_equal. lia.
      + repeat split; try assumption. lia.
      + exact Hm.
    - unfold StandardRing, regen. cbv zeta. rewrite Em. replace (2 * Z.of_nat (2 * rN rc)) with (4 * N) by (rewrite Er; cbn [rN]; lia).
      rewrite (forallb_and _ _ ms H5 H6). cbn [negb]. rewrite Hm. reflexivity. }
  split.
  - intros fuel' rs. destruct (sequence (map (gen_modp fuel' (4 * N)) ms)) as [m|] eqn:Hm.
    + destruct (EP fuel' m Hm) as [-> ->]. split; intros H; injection H as <-; reflexivity.
    + split; intros H; exfalso.
      * unfold StandardRing, regen in H. cbv zeta in H. rewrite Em in H. replace (2 * Z.of_nat (2 * rN rc)) with (4 * N) in H by (rewrite Er; cbn [rN]; lia).
        rewrite Hm in H. destruct (negb _); discriminate.
      * unfold NewRing in H. replace (2 * (2 * N)) with (4 * N) in H by lia. apply custom_inv in H. destruct H as [_ (mps' & H & _)]. congruence.
  - exists (mkRing (2 * rN rc) (4 * N) mps (rbigQ rc) (rescale_params ms)). apply (EP fuel mps Es).
Qed.

Lemma ci_ring_lemma : forall fuel N ms rs, 16 <= N -> NewRing fuel (2 * N) ms = inl rs ->
  (forall fuel' rc, ConjugateInvariantRing fuel' rs = Some rc <-> NewRingConjugateInvariant fuel' N ms = inl rc) /\
  exists rc, ConjugateInvariantRing fuel rs = Some rc.
Proof.
  intros fuel N ms rs HN E. pose proof (custom_moduli _ _ _ _ _ E) as Em. unfold NewRing in E.
  apply custom_inv in E. replace (2 * (2 * N)) with (4 * N) in E by lia. destruct E as [(H1 & H2 & H3 & H4 & H5 & H6) (mps & Es & Er)].
  destruct (pow2_of_land (2 * N) H1 H2) as (k & Hk & EN).
  assert (L2 : Z.land N (N - 1) = 0).
  { destruct k as [|k]; [lia|]. rewrite Nat2Z.inj_succ, Z.pow_succ_r in EN by lia. replace N with (2 ^ Z.of_nat k) by lia. apply land_pow2. }
  assert (ED : Nat.div2 (rN rs) = Z.to_nat N).
  { rewrite Er. cbn [rN]. replace (Z.to_nat (2 * N)) with (2 * Z.to_nat N)%nat by lia. apply Nat.div2_double. }
  assert (EP : forall fuel' m, sequence (map (gen_modp fuel' (4 * N)) ms) = Some m ->
     NewRingConjugateInvariant fuel' N ms = inl (mkRing (Z.to_nat N) (4 * N) m (rbigQ rs) (rescale_params ms)) /\
     ConjugateInvariantRing fuel' rs = Some (mkRing (Z.to_nat N) (4 * N) m (rbigQ rs) (rescale_params ms))).
  { intros fuel' m Hm. split.
    - unfold NewRingConjugateInvariant. rewrite (custom_intro fuel' N ms (4 * N) m).
      + rewrite Er. reflexivity.
      + repeat split; try assumption.
      + exact Hm.
    - unfold ConjugateInvariantRing, regen. cbv zeta. rewrite Em, ED. replace (4 * Z.of_nat (Z.to_nat N)) with (4 * N) by lia.
      rewrite (forallb_and _ _ ms H5 H6). cbn [negb]. rewrite Hm. reflexivity. }
  split.
  - intros fuel' rc. destruct (sequence (map (gen_modp fuel' (4 * N)) ms)) as [m|] eqn:Hm.
    + destruct (EP fuel' m Hm) as [-> ->]. split; intros H; injection H as <-; reflexivity.
    + split; intros H; exfalso.
      * unfold ConjugateInvariantRing, regen in H. cbv zeta in H. rewrite Em, ED in H. replace (4 * Z.of_nat (Z.to_nat N)) with (4 * N) in H by lia.
        rewrite Hm in H. destruct (negb _); discriminate.
      * unfold NewRingConjugateInvariant in H. apply custom_inv in H. destruct H as [_ (mps' & H & _)]. congruence.
  - exists (mkRing (Z.to_nat N) (4 * N) mps (rbigQ rs) (rescale_params ms)). apply (EP fuel mps Es).
Qed.

(** The two conversions undo each other. *)
Lemma ring_swap_lemma : forall fuel N ms rc rs, NewRingConjugateInvariant fuel N ms = inl rc -> StandardRing fuel rc = Some rs ->
  ConjugateInvariantRing fuel rs = Some rc.
Proof.
  intros fuel N ms rc rs E Es. destruct (standard_ring_lemma fuel N ms rc E) as [H _]. apply H in Es.
  assert (HN : 16 <= N) by (unfold NewRingConjugateInvariant in E; apply custom_inv in E; tauto).
  destruct (ci_ring_lemma fuel N ms rs HN Es) as [H' _]. apply H'. exact E.
Qed.

(** ** Points *)
Lemma rev_half n i : (i < 2 ^ S n)%nat -> exists c, 0 <= c /\ rev_bits (S n) (Z.of_nat i) = 2 * c + (if Nat.ltb i (2 ^ n) then 0 else 1).
Proof.
  intros Hi. exists (rev_bits n (Z.of_nat i mod 2 ^ Z.of_nat n)). split; [apply rev_bits_range|]. rewrite rev_bits_top by lia. f_equal.
  pose proof (Z.pow_pos_nonneg 2 (Z.of_nat n) ltac:(lia) ltac:(lia)) as P. pose proof (two_pow_nat n) as E. cbn [Nat.pow] in Hi.
  destruct (Nat.ltb_spec i (2 ^ n)).
  - rewrite Z.div_small by lia. reflexivity.
  - rewrite <- (Z.mod_small 1 2) by lia. f_equal. symmetry. apply Z.div_unique with (Z.of_nat i - 2 ^ Z.of_nat n); lia.
Qed.

Lemma rev_compl n : forall x, 0 <= x < 2 ^ Z.of_nat n -> rev_bits n (2 ^ Z.of_nat n - 1 - x) = 2 ^ Z.of_nat n - 1 - rev_bits n x.
Proof.
  induction n as [|n IH]; intros x Hx; [reflexivity|]. cbn [rev_bits]. rewrite Nat2Z.inj_succ, Z.pow_succ_r in * by lia.
  set (M := 2 ^ Z.of_nat n) in *.
  assert (D : exists y b, x = 2 * y + b /\ 0 <= b < 2 /\ 0 <= y < M).
  { exists (x / 2), (x mod 2). pose proof (Z.div_mod x 2). pose proof (Z.mod_pos_bound x 2). lia. }
  destruct D as (y & b & -> & Hb & Hy).
  assert (E1 : (2 * y + b) mod 2 = b) by (symmetry; apply Z.mod_unique with y; lia).
  assert (E2 : (2 * y + b) / 2 = y) by (symmetry; apply Z.div_unique with b; lia).
  assert (E3 : (2 * M - 1 - (2 * y + b)) mod 2 = 1 - b) by (symmetry; apply Z.mod_unique with (M - 1 - y); lia).
  assert (E4 : (2 * M - 1 - (2 * y + b)) / 2 = M - 1 - y) by (symmetry; apply Z.div_unique with (1 - b); lia).
  rewrite E1, E2, E3, E4. rewrite IH by exact Hy. ring.
Qed.

(** Position M-1-k holds the point inverse to that of position k. *)
Lemma mirror_pt L k : (k < 2 ^ L)%nat ->
  2 * rev_bits L (Z.of_nat (2 ^ L - 1 - k)) + 1 = galpt L (2 * 2 ^ Z.of_nat L - 1) k.
Proof.
  intros Hk. pose proof (two_pow_nat L) as E. replace (Z.of_nat (2 ^ L - 1 - k)) with (2 ^ Z.of_nat L - 1 - Z.of_nat k) by lia.
  rewrite rev_compl by lia. unfold galpt. rewrite Nat2Z.inj_succ, Z.pow_succ_r by lia.
  pose proof (rev_bits_range L (Z.of_nat k)) as R. set (M := 2 ^ Z.of_nat L) in *. set (x := rev_bits L (Z.of_nat k)) in *. clearbody x M.
  apply Z.mod_unique with (2 * x); lia.
Qed.

Lemma mirror_values L m u k : wf_modp L m -> (k < 2 ^ L)%nat ->
  eqm (mq m) (values m L (pauto (2 ^ L) (2 * 2 ^ L - 1) u) k) (values m L u (2 ^ L - 1 - k)%nat).
Proof.
  intros Hw Hk. pose proof (two_pow_nat L) as E. pose proof (pow2n_pos L).
  replace (2 * 2 ^ L - 1)%nat with (Z.to_nat (2 * 2 ^ Z.of_nat L - 1)) by lia.
  apply values_pauto; [exact Hw|lia| |apply mirror_pt; exact Hk].
  replace (2 * 2 ^ Z.of_nat L - 1) with (1 + 2 * (2 ^ Z.of_nat L - 1)) by lia. apply Z.odd_add_mul_2.
Qed.

Lemma conj_values L m u k : wf_modp L m -> conj_inv L u -> (k < 2 ^ L)%nat ->
  eqm (mq m) (values m L u k) (values m L u (2 ^ L - 1 - k)%nat).
Proof.
  intros Hw Hu Hk. rewrite <- mirror_values by assumption. unfold values. apply peval_peq; [|reflexivity].
  intros j Hj. apply eqm_eq. symmetry. apply eqm_0. apply Hu. exact Hj.
Qed.

(** ** Unfolding *)
Lemma unfold_row L m row X : (2 <= L)%nat -> wf_modp (S L) m -> ci_repr L m (mq m) row X ->
  ntt_repr (S L) m (mq m) (row ++ map (fun jdx => nth (2 ^ L - 1 - (jdx - 2 ^ L)) row 0) (seq (2 ^ L) (2 ^ L))) (ci_poly (2 ^ L) X).
Proof.
  intros HL Hw [Hl Hr]. set (N := (2 ^ L)%nat) in *. assert (E2 : (2 ^ S L = 2 * N)%nat) by (unfold N; cbn [Nat.pow]; lia).
  split; [rewrite app_length, map_length, seq_length; lia|]. intros k Hk. destruct (Nat.lt_ge_cases k N) as [H|H].
  - rewrite app_nth1 by lia. apply Hr. exact H.
  - rewrite app_nth2 by lia. rewrite Hl. rewrite (nth_map_any _ _ _ O) by (rewrite seq_length; lia).
    rewrite seq_nth by lia. replace (N + (k - N) - N)%nat with (k - N)%nat by lia.
    destruct (Hr (N - 1 - (k - N))%nat ltac:(lia)) as [B E]. split; [exact B|]. rewrite E.
    symmetry. etransitivity; [exact (conj_values (S L) m _ k Hw (ci_poly_conj L X) Hk)|]. apply eqm_eq. fold N.
    replace (2 ^ S L - 1 - k)%nat with (N - 1 - (k - N))%nat by lia. reflexivity.
Qed.

Lemma unfold_lemma : forall rc rs, paired 8 rc rs -> forall level p t1 out t2 B,
  (level < length (rmods rc))%nat -> words rc level B p ->
  (forall i, (i <= level)%nat -> B (mq (rmod rc i)) + 4 * mq (rmod rc i) <= W) ->
  length (nth 0 out []) = (2 * rN rc)%nat ->
  exists u, UnfoldConjugateInvariantToStandard level (CIForwardLvl rc level p t1) out = Some u /\
    words rs level canon u /\ kept level out u /\
    forall i k, (i <= level)%nat -> (k < rN rs)%nat ->
      coeff (InvNTTLvl rs level u t2) i k = ci_poly (rN rc) (co (nth i p [])) k mod mq (rmod rc i).
Proof.
  intros rc rs Hp level p t1 out t2 B Hlev Hwp HB Hout.
  destruct (paired_wf 8 rc rs ltac:(lia) Hp) as (L & Hw & Hw' & Em & _ & _ & _ & _ & H8).
  assert (EN := wfr_N _ _ _ Hw). assert (EN' := wfr_N _ _ _ Hw'). assert (HL := wfr_logN _ _ _ Hw).
  assert (Emod : forall i, rmod rs i = rmod rc i) by (intros i; unfold rmod; rewrite Em; reflexivity).
  assert (F : forall i, (i <= level)%nat -> ci_repr L (rmod rc i) (mq (rmod rc i)) (nth i (CIForwardLvl rc level p t1) []) (co (nth i p []))).
  { intros i Hi. assert (Hwf := wf_ring_mod _ _ _ i Hw ltac:(lia)). assert (R := words_row _ _ _ _ i Hwp Hi). rewrite EN in R.
    apply (ci_ntt_repr L (rmod rc i) ltac:(lia) Hwf) in R; [|apply HB; exact Hi|apply H8; lia].
    unfold CIForwardLvl, prow. rewrite lvl_nth_lt by lia. rewrite EN. exact R. }
  assert (F0 : length (nth 0 (CIForwardLvl rc level p t1) []) = (2 ^ L)%nat) by (apply (F O); lia).
  unfold UnfoldConjugateInvariantToStandard, prow. rewrite F0, Hout, EN. destruct (Nat.eqb_spec (2 * 2 ^ L) (2 * 2 ^ L)) as [_|]; [|congruence]. cbn [negb].
  eexists. split; [reflexivity|].
  assert (U : forall i, (i <= level)%nat -> ntt_repr (S L) (rmod rc i) (mq (rmod rc i))
     (nth i (lvl (S level) (fun i0 => nth i0 (CIForwardLvl rc level p t1) [] ++
         map (fun jdx => nth (2 ^ L - 1 - (jdx - 2 ^ L)) (nth i0 (CIForwardLvl rc level p t1) []) 0) (seq (2 ^ L) (2 ^ L))) out) [])
     (ci_poly (2 ^ L) (co (nth i p [])))).
  { intros i Hi. rewrite lvl_nth_lt by lia. apply unfold_row; [lia|apply (wf_ring_mod _ _ _ i Hw); lia|apply F; exact Hi]. }
  split; [|split].
  - split; [rewrite lvl_length; lia|]. intros i Hi. destruct (U i Hi) as [U1 U2]. rewrite EN', Emod. split; [exact U1|].
    intros k Hk. apply U2. exact Hk.
  - split; [rewrite lvl_length; reflexivity|]. intros i Hi. apply lvl_nth_ge. lia.
  - intros i k Hi Hk. assert (Hwf := wf_ring_mod _ _ _ i Hw ltac:(lia)). assert (G := wf_ge _ _ Hwf).
    specialize (U i Hi). apply (row_repr_weaken _ _ (mq (rmod rc i)) (2 * mq (rmod rc i))) in U; [|lia].
    assert (I1 := invntt_row_repr (S L) (rmod rc i) ltac:(lia) Hwf _ _ ltac:(specialize (H8 i ltac:(lia)); lia) U).
    unfold coeff, InvNTTLvl, prow. rewrite lvl_nth_lt by lia. rewrite Emod, EN'. rewrite EN' in Hk.
    apply (row_repr_nth _ (mq (rmod rc i)) _ _ k ltac:(lia) I1 Hk).
Qed.

(** ** The index of an automorphism *)
Lemma index_gen r M g : rNthRoot r = 2 ^ Z.of_nat (S M) -> (M <= 61)%nat -> (rN r <= 2 ^ M)%nat -> Z.odd g = true ->
  length (PermuteNTTIndex r g) = rN r /\
  forall i, (i < rN r)%nat ->
    0 <= nth i (PermuteNTTIndex r g) 0 < 2 ^ Z.of_nat M /\
    2 * rev_bits M (nth i (PermuteNTTIndex r g) 0) + 1 = galpt M g i.
Proof.
  intros HR HM HN Hg. unfold PermuteNTTIndex. rewrite map_length, seq_length. split; [reflexivity|]. intros i Hi.
  rewrite nth_map_seq by exact Hi.
  assert (HLen : Len64 (rNthRoot r) - 2 = Z.of_nat M).
  { unfold Len64. rewrite HR. destruct (Z.eqb_spec (2 ^ Z.of_nat (S M)) 0) as [E|_]; [exfalso; revert E; apply Z.pow_nonzero; lia|].
    rewrite Z.log2_pow2 by lia. lia. }
  rewrite HLen.
  assert (Hi' : 0 <= Z.of_nat i < 2 ^ Z.of_nat M) by (rewrite <- two_pow_nat; lia).
  rewrite (BitReverse64_rev_bits M (Z.of_nat i)) by lia.
  pose proof (rev_bits_range M (Z.of_nat i)) as Hr.
  assert (HLW : 2 ^ Z.of_nat M <= 2 ^ 61) by (apply Z.pow_le_mono_r; lia).
  assert (E1 : wadd (wmul 2 (rev_bits M (Z.of_nat i))) 1 = 2 * rev_bits M (Z.of_nat i) + 1).
  { unfold wadd, wmul, w64. clear - Hr HLW. assert (W = 2 ^ 64) by reflexivity. rewrite (Z.mod_small (2 * _)) by lia. apply Z.mod_small. lia. }
  rewrite E1, HR, land_mask by lia. unfold wmul. rewrite w64_mod_pow2 by lia. fold (galpt M g i).
  destruct (galpt_half M g i Hg) as [Ht Hh].
  assert (E2 : wshr (wsub (galpt M g i) 1) 1 = (galpt M g i - 1) / 2).
  { unfold wshr, wsub, w64. assert (W = 2 ^ 64) by reflexivity. rewrite Z.mod_small; [reflexivity|].
    clear - Ht Hh HLW H. set (t := galpt M g i) in *. clearbody t. set (h := (t - 1) / 2) in *. clearbody h. lia. }
  rewrite E2. rewrite BitReverse64_rev_bits by lia.
  pose proof (rev_bits_range M ((galpt M g i - 1) / 2)) as Hr2. split; [exact Hr2|].
  rewrite rev_bits_invol by exact Hh. symmetry. exact Ht.
Qed.

(** The index of the conjugation reverses the order. *)
Lemma conj_index r L i : rNthRoot r = 2 ^ Z.of_nat (S L) -> (L <= 61)%nat -> rN r = (2 ^ L)%nat -> (i < rN r)%nat ->
  nth i (PermuteNTTIndex r (2 * Z.of_nat (rN r) - 1)) 0 = Z.of_nat (rN r - 1 - i).
Proof.
  intros HR HL HN Hi. pose proof (two_pow_nat L) as E.
  destruct (index_gen r L (2 * Z.of_nat (rN r) - 1) HR HL ltac:(lia)) as [_ H].
  { replace (2 * Z.of_nat (rN r) - 1) with (1 + 2 * (Z.of_nat (rN r) - 1)) by lia. apply Z.odd_add_mul_2. }
  destruct (H i Hi) as [R P]. revert R P. generalize (nth i (PermuteNTTIndex r (2 * Z.of_nat (rN r) - 1)) 0). intros x R P.
  rewrite HN, E, <- mirror_pt in P by lia.
  assert (P' : rev_bits L x = rev_bits L (Z.of_nat (2 ^ L - 1 - i))) by lia. apply (f_equal (rev_bits L)) in P'.
  rewrite !rev_bits_invol in P' by lia. rewrite HN. exact P'.
Qed.

(** ** Folding *)
Lemma fold_trace L P : peq (2 ^ S L) 0 (padd (pauto (2 ^ S L) (2 * 2 ^ S L - 1) P) P) (ci_poly (2 ^ L) (ci_trace (2 ^ L) P)).
Proof.
  intros k Hk. apply eqm_0. unfold padd. rewrite conj_at by exact Hk. set (N := (2 ^ L)%nat). assert (Pn : (0 < N)%nat) by apply pow2n_pos.
  replace (2 ^ S L)%nat with (2 * N)%nat in * by (unfold N; cbn [Nat.pow]; lia). unfold ci_poly, ci_trace.
  destruct (Nat.eqb_spec k 0) as [->|H0].
  - destruct (Nat.ltb_spec 0 N); [|lia]. destruct (Nat.eqb_spec 0 0); [ring|lia].
  - destruct (Nat.ltb_spec k N); [destruct (Nat.eqb_spec k 0); [lia|ring]|].
    destruct (Nat.eqb_spec k N) as [->|Hn]; [replace (2 * N - N)%nat with N by lia; ring|].
    destruct (Nat.eqb_spec (2 * N - k) 0); [lia|]. replace (2 * N - (2 * N - k))%nat with k by lia. ring.
Qed.

Lemma fold_lemma : forall rc rs, paired 8 rc rs -> forall level p t1 out t2 B,
  (level < length (rmods rc))%nat -> words rs level B p ->
  (forall i, (i <= level)%nat -> B (mq (rmod rc i)) + 4 * mq (rmod rc i) <= W) ->
  length (nth 0 out []) = rN rc ->
  exists f, FoldStandardToConjugateInvariant rc level (NTTLvl rs level p t1) (PermuteNTTIndex rs (2 * Z.of_nat (rN rs) - 1)) out = Some f /\
    words rc level canon f /\ kept level out f /\
    forall i k, (i <= level)%nat -> (k < rN rc)%nat ->
      coeff (CIBackwardLvl rc level f t2) i k = ci_trace (rN rc) (co (nth i p [])) k mod mq (rmod rc i).
Proof.
  intros rc rs Hp level p t1 out t2 B Hlev Hwp HB Hout.
  destruct (paired_wf 8 rc rs ltac:(lia) Hp) as (L & Hw & Hw' & Em & _ & HR & _ & _ & H8).
  assert (EN := wfr_N _ _ _ Hw). assert (EN' := wfr_N _ _ _ Hw'). assert (HL := wfr_logN _ _ _ Hw).
  assert (Emod : forall i, rmod rs i = rmod rc i) by (intros i; unfold rmod; rewrite Em; reflexivity).
  assert (E2 : (2 ^ S L = 2 * 2 ^ L)%nat) by (cbn [Nat.pow]; lia).
  assert (F : forall i, (i <= level)%nat -> ntt_repr (S L) (rmod rc i) (mq (rmod rc i)) (nth i (NTTLvl rs level p t1) []) (co (nth i p []))).
  { intros i Hi. assert (Hwf := wf_ring_mod _ _ _ i Hw ltac:(lia)). assert (R := words_row _ _ _ _ i Hwp Hi). rewrite EN', Emod in R.
    apply (ntt_row_repr (S L) (rmod rc i) ltac:(lia) Hwf) in R; [|apply HB; exact Hi|apply H8; lia].
    unfold NTTLvl, prow. rewrite lvl_nth_lt by lia. rewrite EN', Emod. exact R. }
  assert (F0 : length (nth 0 (NTTLvl rs level p t1) []) = (2 ^ S L)%nat) by (apply (F O); lia).
  set (idx := PermuteNTTIndex rs (2 * Z.of_nat (rN rs) - 1)).
  assert (Li : length idx = rN rs) by (unfold idx, PermuteNTTIndex; rewrite map_length, seq_length; reflexivity).
  unfold FoldStandardToConjugateInvariant. cbv zeta. unfold prow at 1 2. rewrite F0, Hout, EN, E2. destruct (Nat.eqb_spec (2 * 2 ^ L) (2 * 2 ^ L)) as [_|]; [|congruence]. cbn [negb].
  eexists. split; [reflexivity|].
  match goal with |- words _ _ _ ?x /\ _ => set (res := x) end.
  assert (U : forall i, (i <= level)%nat -> ci_repr L (rmod rc i) (mq (rmod rc i)) (nth i res []) (ci_trace (2 ^ L) (co (nth i p [])))).
  { intros i Hi. assert (Hwf := wf_ring_mod _ _ _ i Hw ltac:(lia)). assert (G := wf_ge _ _ Hwf). specialize (H8 i ltac:(lia)).
    destruct (F i Hi) as [F1 F2]. set (P := co (nth i p [])) in *.
    unfold res. rewrite lvl_nth_lt by lia. unfold PermuteNTTWithIndexLvl, prow. rewrite !lvl_nth_lt by lia.
    set (row := nth i (NTTLvl rs level p t1) []) in *.
    assert (A1 : row_repr (2 ^ L) (mq (rmod rc i)) (mq (rmod rc i))
       (firstn (2 ^ L) (map (fun x => nth (Z.to_nat x) row 0) (firstn (2 ^ L) idx)))
       (values (rmod rc i) (S L) (pauto (2 ^ S L) (2 * 2 ^ S L - 1) P))).
    { assert (Ll : length (firstn (2 ^ L) idx) = (2 ^ L)%nat) by (rewrite firstn_length; lia).
      rewrite firstn_all2 by (rewrite map_length, Ll; lia). split; [rewrite map_length; exact Ll|]. intros k Hk.
      rewrite (nth_map_any _ _ _ 0) by lia. rewrite nth_firstn by exact Hk.
      unfold idx. rewrite (conj_index rs (S L)) by (assumption || lia). rewrite Nat2Z.id, EN'.
      destruct (F2 (2 ^ S L - 1 - k)%nat ltac:(lia)) as [B1 V1]. split; [exact B1|]. rewrite V1. symmetry. apply mirror_values; [exact Hwf|lia]. }
    assert (A2 : row_repr (2 ^ L) (mq (rmod rc i)) (mq (rmod rc i)) (firstn (2 ^ L) row) (values (rmod rc i) (S L) P)).
    { split; [rewrite firstn_length; lia|]. intros k Hk. rewrite nth_firstn by exact Hk. apply F2. lia. }
    eapply row_map2; [|exact A1|exact A2]. intros k x y Hk Hx Hy Ex Ey.
    assert (ES : wadd x y = x + y) by (unfold wadd, w64; apply Z.mod_small; lia). rewrite ES.
    rewrite CRed_correct by lia. split; [apply Z.mod_pos_bound; lia|]. rewrite eqm_mod, Ex, Ey.
    rewrite <- values_add. unfold values. apply peval_peq; [|reflexivity]. intros j Hj. apply eqm_eq. apply eqm_0. apply fold_trace. exact Hj. }
  split; [|split].
  - split; [unfold res; rewrite lvl_length; lia|]. intros i Hi. destruct (U i Hi) as [U1 U2]. rewrite EN. split; [exact U1|].
    intros k Hk. apply U2. exact Hk.
  - unfold res, PermuteNTTWithIndexLvl. split; [rewrite !lvl_length; lia|]. intros i Hi. rewrite !lvl_nth_ge by lia. reflexivity.
  - intros i k Hi Hk. assert (Hwf := wf_ring_mod _ _ _ i Hw ltac:(lia)). assert (G := wf_ge _ _ Hwf).
    specialize (U i Hi). apply (row_repr_weaken _ _ (mq (rmod rc i)) (2 * mq (rmod rc i))) in U; [|lia].
    destruct (ci_inv_repr L (rmod rc i) ltac:(lia) Hwf _ _ ltac:(specialize (H8 i ltac:(lia)); lia) U) as [I1 _].
    unfold coeff, CIBackwardLvl, prow. rewrite lvl_nth_lt by lia. rewrite EN in *.
    apply (row_repr_nth _ (mq (rmod rc i)) _ _ k ltac:(lia) I1 Hk).
Qed.

(** ** Automorphisms of a conjugate-invariant ring *)
Lemma galpt_mod4 L g i : (i < 2 ^ S L)%nat -> 
  (galpt (S L) g i) mod 4 = (g * (1 + (if Nat.ltb i (2 ^ L) then 0 else 2))) mod 4.
Proof.
  intros Hi. destruct (rev_half L i Hi) as (c & Hc & E). unfold galpt. rewrite E.
  replace (2 ^ Z.of_nat (S (S L))) with (4 * 2 ^ Z.of_nat L) by (rewrite !Nat2Z.inj_succ, !Z.pow_succ_r by lia; ring).
  pose proof (Z.pow_pos_nonneg 2 (Z.of_nat L) ltac:(lia) ltac:(lia)).
  rewrite <- (Zmod_div_mod 4 (4 * 2 ^ Z.of_nat L)) by (try lia; exists (2 ^ Z.of_nat L); ring).
  replace (g * (2 * (2 * c + (if Nat.ltb i (2 ^ L) then 0 else 1)) + 1))
    with (g * (1 + (if Nat.ltb i (2 ^ L) then 0 else 2)) + (g * c) * 4) by (destruct (Nat.ltb i (2 ^ L)); ring).
  apply Z_mod_plus_full.
Qed.

Lemma ci_index_half r L g i : rNthRoot r = 2 ^ Z.of_nat (S (S L)) -> (L <= 60)%nat -> rN r = (2 ^ L)%nat -> Z.odd g = true -> (i < rN r)%nat ->
  let x := nth i (PermuteNTTIndex r g) 0 in
  0 <= x < 2 * Z.of_nat (rN r) /\ 2 * rev_bits (S L) x + 1 = galpt (S L) g i /\
  (g mod 4 = 1 -> x < Z.of_nat (rN r)) /\ (g mod 4 = 3 -> Z.of_nat (rN r) <= x).
Proof.
  intros HR HL HN Hg Hi x. pose proof (two_pow_nat L) as E.
  assert (E2 : 2 ^ Z.of_nat (S L) = 2 * Z.of_nat (rN r)) by (rewrite Nat2Z.inj_succ, Z.pow_succ_r, HN, E by lia; reflexivity).
  destruct (index_gen r (S L) g HR ltac:(lia) ltac:(cbn [Nat.pow]; lia) Hg) as [_ H].
  destruct (H i Hi) as [R P]. fold x in R, P. rewrite E2 in R. split; [exact R|]. split; [exact P|].
  assert (Hx : (Z.to_nat x < 2 ^ S L)%nat) by (cbn [Nat.pow]; lia).
  destruct (rev_half L (Z.to_nat x) Hx) as (c & Hc & Er). rewrite Z2Nat.id in Er by lia.
  assert (G := galpt_mod4 L g i ltac:(cbn [Nat.pow]; lia)). rewrite <- P, Er in G. rewrite HN in Hi.
  destruct (Nat.ltb_spec i (2 ^ L)); [|lia]. replace (g * (1 + 0)) with g in G by ring.
  assert (G' : (2 * (2 * c + (if Nat.ltb (Z.to_nat x) (2 ^ L) then 0 else 1)) + 1) mod 4 = (1 + (if Nat.ltb (Z.to_nat x) (2 ^ L) then 0 else 2)) mod 4).
  { replace (2 * (2 * c + (if Nat.ltb (Z.to_nat x) (2 ^ L) then 0 else 1)) + 1) with (1 + (if Nat.ltb (Z.to_nat x) (2 ^ L) then 0 else 2) + c * 4)
      by (destruct (Nat.ltb _ _); ring). apply Z_mod_plus_full. }
  rewrite G' in G. clear G'. destruct (Nat.ltb_spec (Z.to_nat x) (2 ^ L)) as [Hlt|Hge].
  - change ((1 + 0) mod 4) with 1 in G. split; intros Hg4; [lia|]. rewrite Hg4 in G. discriminate.
  - change ((1 + 2) mod 4) with 3 in G. split; intros Hg4; [|lia]. rewrite Hg4 in G. discriminate.
Qed.

Lemma ci_permute_lemma : forall r, built_ci 8 r -> forall level p t1 out t2 B g,
  (level < length (rmods r))%nat -> words r level B p ->
  (forall i, (i <= level)%nat -> B (mq (rmod r i)) + 4 * mq (rmod r i) <= W) ->
  0 <= g -> g mod 4 = 1 ->
  let C := CIBackwardLvl r level (PermuteNTTLvl r level (CIForwardLvl r level p t1) g out) t2 in
  words r level canon C /\
  forall i k, (i <= level)%nat -> (k < 2 * rN r)%nat ->
    eqm (mq (rmod r i)) (ci_poly (rN r) (co (nth i C [])) k)
      (pauto (2 * rN r) (Z.to_nat g) (ci_poly (rN r) (co (nth i p []))) k).
Proof.
  intros r Hr level p t1 out t2 B g Hlev Hwp HB Hg0 Hg4 C.
  destruct (built_ci_wf 8 r ltac:(lia) Hr) as (L & Hw & HR & H8).
  assert (EN := wfr_N _ _ _ Hw). assert (HL := wfr_logN _ _ _ Hw).
  assert (E2 : (2 * rN r = 2 ^ S L)%nat) by (rewrite EN; cbn [Nat.pow]; lia).
  assert (Hodd : Z.odd g = true).
  { rewrite (Z.div_mod g 4), Hg4 by lia. replace (4 * (g / 4) + 1) with (1 + 2 * (2 * (g / 4))) by ring. apply Z.odd_add_mul_2. }
  destruct (index_gen r (S L) g HR ltac:(lia) ltac:(lia) Hodd) as [Hlen _].
  assert (K : forall i, (i <= level)%nat -> row_repr (2 ^ L) (mq (rmod r i)) (mq (rmod r i)) (nth i C [])
     (pauto (2 ^ S L) (Z.to_nat g) (ci_poly (2 ^ L) (co (nth i p []))))).
  { intros i Hi. assert (Hwf := wf_ring_mod _ _ _ i Hw ltac:(lia)). assert (G := wf_ge _ _ Hwf).
    assert (R := words_row _ _ _ _ i Hwp Hi). rewrite EN in R.
    apply (ci_ntt_repr L (rmod r i) ltac:(lia) Hwf) in R; [|apply HB; exact Hi|apply H8; lia].
    unfold C, CIBackwardLvl, PermuteNTTLvl, PermuteNTTWithIndexLvl, CIForwardLvl, prow. rewrite !lvl_nth_lt by lia. rewrite EN.
    match type of R with ci_repr _ _ _ ?x _ => set (row := x) in * end. set (X := co (nth i p [])) in *.
    assert (Y : ci_repr L (rmod r i) (2 * mq (rmod r i)) (map (fun x => nth (Z.to_nat x) row 0) (PermuteNTTIndex r g))
       (pauto (2 ^ S L) (Z.to_nat g) (ci_poly (2 ^ L) X))).
    { split; [rewrite map_length, Hlen; exact EN|]. intros k Hk. rewrite (nth_map_any _ _ _ 0) by lia.
      destruct (ci_index_half r L g k HR ltac:(lia) EN Hodd ltac:(lia)) as (Rx & Px & Hx & _). specialize (Hx Hg4).
      set (x := nth k (PermuteNTTIndex r g) 0) in *. clearbody x.
      destruct (proj2 R (Z.to_nat x) ltac:(lia)) as [B1 V1]. split; [lia|]. rewrite V1.
      transitivity (values (rmod r i) (S L) (pauto (2 ^ S L) (Z.to_nat g) (ci_poly (2 ^ L) X)) k).
      - symmetry. apply values_pauto; [exact Hwf|exact Hg0|exact Hodd|]. rewrite Z2Nat.id by lia. exact Px.
      - unfold values. apply peval_peq; [|reflexivity]. intros j Hj. apply eqm_eq. symmetry. apply conj_ci_poly; [|exact Hj].
        apply conj_auto; [apply Nodd_Z; assumption|apply ci_poly_conj]. }
    apply (ci_inv_repr L (rmod r i) ltac:(lia) Hwf _ _ ltac:(specialize (H8 i ltac:(lia)); lia) Y). }
  split.
  - split; [unfold C, CIBackwardLvl; rewrite lvl_length; lia|]. intros i Hi. destruct (K i Hi) as [K1 K2]. rewrite EN. split; [exact K1|].
    intros k Hk. apply K2. exact Hk.
  - intros i k Hi Hk. specialize (K i Hi). rewrite E2, EN. rewrite EN in Hk.
    rewrite <- (conj_ci_poly L (pauto (2 ^ S L) (Z.to_nat g) (ci_poly (2 ^ L) (co (nth i p [])))) k).
    + refine (ci_poly_peq L (rmod r i) ltac:(lia) _ _ _ k Hk). intros k' Hk'. apply K. exact Hk'.
    + apply conj_auto; [apply Nodd_Z; assumption|apply ci_poly_conj].
    + cbn [Nat.pow]. lia.
Qed.

Lemma ci_permute_outside_lemma : forall r, built_ci 8 r -> forall g, g mod 4 = 3 -> forall i, (i < rN r)%nat ->
  Z.of_nat (rN r) <= nth i (PermuteNTTIndex r g) 0.
Proof.
  intros r Hr g Hg4 i Hi. destruct (built_ci_wf 8 r ltac:(lia) Hr) as (L & Hw & HR & H8).
  assert (EN := wfr_N _ _ _ Hw). assert (HL := wfr_logN _ _ _ Hw).
  assert (Hodd : Z.odd g = true).
  { rewrite (Z.div_mod g 4), Hg4 by lia. replace (4 * (g / 4) + 3) with (3 + 2 * (2 * (g / 4))) by ring. apply Z.odd_add_mul_2. }
  apply (ci_index_half r L g i HR ltac:(lia) EN Hodd Hi). exact Hg4.
Qed.
