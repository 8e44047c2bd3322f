(** Every polynomial in RNS form represents an integer polynomial, and only one up to the moduli; extension
    of small polynomials to the special moduli. *)
From Verif Require Import Word ModRed Arith Fermat ModRedProofs PolySpec PolyProofs Ring RingProofs NTT NTTProofs RingOps RNSSpec RowProofs OpsProofs OpsProps NTTProps Repr BasisExt CRT BasisProps AutoProps Gadget AccumProofs GadgetSpec GadgetProofs Frlwe FrlweSetup FrlweProps FrlweSwitch RlweSpec Rlwe.

Lemma crt_exists l : (forall q, In q l -> prime q) -> NoDup l -> forall v, exists x, forall i, (i < length l)%nat -> eqm (nth i l 0) x (v i).
Proof.
  induction l as [|q l IH]; intros Hp Hnd v; [exists 0; cbn; intros i Hi; lia|].
  inversion Hnd as [|? ? Hni Hnd']; subst.
  destruct (IH (fun x Hx => Hp x (or_intror Hx)) Hnd' (fun i => v (S i))) as [x Hx].
  assert (HR : rel_prime q (prodZ l)) by (apply prime_prodZ; [apply Hp; left; reflexivity|intros y Hy; apply Hp; right; exact Hy|exact Hni]).
  apply rel_prime_bezout in HR. destruct HR as [u w Huw].
  exists (x + prodZ l * (w * (v O - x))). intros [|i] Hi; cbn [nth length] in *.
  - apply (eqm_intro _ _ _ (- u * (v O - x))).
    transitivity (x + (w * prodZ l) * (v O - x)); [ring|]. replace (w * prodZ l) with (1 - u * q) by lia. ring.
  - assert (Hin : In (nth i l 0) l) by (apply nth_In; lia).
    destruct (prodZ_divide _ _ Hin) as [c Ec].
    apply (eqm_trans _ _ x); [|apply Hx; lia].
    apply (eqm_intro _ _ _ (c * (w * (v O - x)))). rewrite Ec at 1. ring.
Qed.

Lemma nodup_app' {A} (l l' : list A) : NoDup l -> NoDup l' -> (forall x, In x l -> ~ In x l') -> NoDup (l ++ l').
Proof.
  induction l as [|a l IH]; intros H H' Hd; [exact H'|]. inversion H; subst. cbn. constructor.
  - rewrite in_app_iff. intros [X|X]; [contradiction|]. apply (Hd a); [left; reflexivity|exact X].
  - apply IH; [assumption|assumption|]. intros x Hx. apply Hd. right. exact Hx.
Qed.

Lemma moduli_nodup r : built_ring 9 r -> NoDup (moduli r).
Proof.
  intros Hr. destruct (built_ring_wf 9 r ltac:(lia) Hr) as (L & Hw & _). apply (wfr_distinct _ _ _ Hw).
Qed.

Section Exist.
  Variables (rQ rP : Ring).
  Hypothesis HP : ring_pair rQ rP.

  Lemma qp_modQ i : (i < length (rmods rQ))%nat -> let q := mq (rmod rQ i) in 5 <= q /\ 9 * q <= W /\ Z.odd q = true.
  Proof. intros Hi. destruct (built_mod 9 rQ i ltac:(lia) (proj1 HP) Hi) as (Q5 & Q9 & Qo & _). split; [exact Q5|]. split; assumption. Qed.
  Lemma qp_modP i : (i < length (rmods rP))%nat -> let q := mq (rmod rP i) in 5 <= q /\ 9 * q <= W /\ Z.odd q = true.
  Proof. intros Hi. destruct (built_mod 9 rP i ltac:(lia) (proj1 (proj2 HP)) Hi) as (Q5 & Q9 & Qo & _). split; [exact Q5|]. split; assumption. Qed.

  Lemma qp_exists levelQ levelP (VQ VP : nat -> nat -> Z) : (levelQ < length (rmods rQ))%nat -> (levelP < length (rmods rP))%nat ->
    exists X : poly, forall k, (k < rN rQ)%nat ->
      (forall i, (i <= levelQ)%nat -> eqm (mq (rmod rQ i)) (X k) (VQ i k)) /\ (forall i, (i <= levelP)%nat -> eqm (mq (rmod rP i)) (X k) (VP i k)).
  Proof.
    intros HlQ HlP. destruct HP as (BQ & BP & EN & Hdis).
    apply (finite_choice 0 (rN rQ) (fun k x => (forall i, (i <= levelQ)%nat -> eqm (mq (rmod rQ i)) x (VQ i k)) /\ (forall i, (i <= levelP)%nat -> eqm (mq (rmod rP i)) x (VP i k)))).
    intros k Hk.
    destruct (crt_exists (moduli rQ ++ moduli rP)) with (v := fun i => if Nat.ltb i (length (rmods rQ)) then VQ i k else VP (i - length (rmods rQ))%nat k) as [x Hx].
    - intros q Hq. apply in_app_iff in Hq. destruct Hq as [Hq|Hq]; [apply (sw_prime rQ)|apply (sw_prime rP)]; assumption.
    - apply nodup_app'; [apply moduli_nodup; exact BQ|apply moduli_nodup; exact BP|exact Hdis].
    - exists x. split; intros i Hi.
      + specialize (Hx i). rewrite app_length, <- !moduli_length in Hx. specialize (Hx ltac:(lia)).
        rewrite app_nth1 in Hx by (rewrite <- moduli_length; lia). rewrite nth_moduli in Hx by lia.
        destruct (Nat.ltb_spec i (length (rmods rQ))); [exact Hx|lia].
      + specialize (Hx (length (rmods rQ) + i)%nat). rewrite app_length, <- !moduli_length in Hx. specialize (Hx ltac:(lia)).
        rewrite app_nth2 in Hx by (rewrite <- moduli_length; lia). rewrite <- moduli_length in Hx.
        replace (length (rmods rQ) + i - length (rmods rQ))%nat with i in Hx by lia. rewrite nth_moduli in Hx by lia.
        destruct (Nat.ltb_spec (length (rmods rQ) + i) (length (rmods rQ))); [lia|].
        replace (length (rmods rQ) + i - length (rmods rQ))%nat with i in Hx by lia. exact Hx.
  Qed.
End Exist.

(** The polynomial behind a row in the NTT domain. *)
Lemma ntt_of_words r L level p : built_ring 9 r -> rN r = (2 ^ L)%nat -> (level < length (rmods r))%nat -> words r level canon p ->
  forall i, (i <= level)%nat -> ntt_repr L (rmod r i) (mq (rmod r i)) (nth i p []) (co (invntt_row (2 ^ L) (rmod r i) (nth i p []))).
Proof.
  intros Hr EL Hl Hw i Hi.
  assert (Hr2 : built_ring 2 r) by (apply (built_le 9); [lia|exact Hr]).
  destruct (built_L r L Hr2 EL) as [Hwr H4].
  destruct (built_mod 9 r i ltac:(lia) Hr ltac:(lia)) as (Q5 & Q9 & _).
  assert (R := words_row _ _ _ _ i Hw Hi). rewrite EL in R. unfold canon in R.
  assert (R2 : row_repr (2 ^ L) (mq (rmod r i)) (2 * mq (rmod r i)) (nth i p []) (co (nth i p []))) by (apply (row_repr_weaken _ _ (mq (rmod r i))); [lia|exact R]).
  pose proof (ntt_repr_exists L (rmod r i) ltac:(lia) (built_wf r L Hr2 EL i ltac:(lia)) (nth i p []) ltac:(lia)
    (row_repr_length _ _ _ _ _ R2) (row_repr_below _ _ _ _ _ R2)) as E.
  destruct E as [E1 E2]. split; [exact E1|]. intros k Hk. split; [apply (proj2 R k Hk)|apply (E2 k Hk)].
Qed.

Lemma ntt_unique r L level p X Y : built_ring 9 r -> rN r = (2 ^ L)%nat ->
  rns_ntt r L level canon p X -> rns_ntt r L level canon p Y -> forall i, (i <= level)%nat -> peq (rN r) (mq (rmod r i)) X Y.
Proof.
  intros Hr EL (H1 & H2 & HX) (_ & _ & HY) i Hi.
  assert (Hr2 : built_ring 2 r) by (apply (built_le 9); [lia|exact Hr]).
  destruct (built_L r L Hr2 EL) as [Hwr H4].
  destruct (built_mod 9 r i ltac:(lia) Hr ltac:(lia)) as (Q5 & Q9 & _).
  assert (A : forall Z, ntt_repr L (rmod r i) (canon (mq (rmod r i))) (nth i p []) Z -> row_repr (2 ^ L) (mq (rmod r i)) (mq (rmod r i)) (invntt_row (2 ^ L) (rmod r i) (nth i p [])) Z).
  { intros Z HZ. apply (invntt_row_repr L (rmod r i) ltac:(lia) (built_wf r L Hr2 EL i ltac:(lia))); [lia|].
    apply (row_repr_weaken _ _ (mq (rmod r i))); [lia|exact HZ]. }
  intros k Hk. rewrite EL in Hk. destruct (proj2 (A X (HX i Hi)) k Hk) as [_ E1]. destruct (proj2 (A Y (HY i Hi)) k Hk) as [_ E2].
  rewrite <- E1. exact E2.
Qed.

Lemma mont_unique r L level p X Y : built_ring 9 r -> rN r = (2 ^ L)%nat ->
  rns_ntt r L level canon p (pscale W X) -> rns_ntt r L level canon p (pscale W Y) -> forall i, (i <= level)%nat -> peq (rN r) (mq (rmod r i)) X Y.
Proof.
  intros Hr EL HX HY i Hi. destruct (built_mod 9 r i ltac:(lia) Hr ltac:(destruct HX; lia)) as (Q5 & Q9 & Qo & _).
  apply (pscale_cancel _ _ W); [lia|apply odd_gcd_W; exact Qo|]. apply (ntt_unique r L level p); assumption.
Qed.

Lemma odd_prod l : (forall q, In q l -> Z.odd q = true) -> Z.odd (fold_right Z.mul 1 l) = true.
Proof.
  induction l as [|q l IH]; intros H; [reflexivity|]. cbn [fold_right]. rewrite Z.odd_mul.
  rewrite (H q (or_introl eq_refl)). apply IH. intros x Hx. apply H. right. exact Hx.
Qed.

Lemma moduli_odd r q : built_ring 9 r -> In q (moduli r) -> Z.odd q = true.
Proof.
  intros Hr Hq. apply (In_nth _ _ 0) in Hq. destruct Hq as (i & Hi & <-). rewrite <- moduli_length in Hi.
  rewrite nth_moduli by exact Hi. destruct (built_mod 9 r i ltac:(lia) Hr Hi) as (_ & _ & Qo & _). exact Qo.
Qed.

Section QP.
  Variables (rQ rP : Ring) (L : nat).
  Hypothesis (HP : ring_pair rQ rP) (EL : rN rQ = (2 ^ L)%nat).

  Lemma qp_EL : rN rP = (2 ^ L)%nat.
  Proof. rewrite (proj1 (proj2 (proj2 HP))). exact EL. Qed.

  Lemma qp_words_ntt levelQ levelP (p : rows * rows) : (levelQ < length (rmods rQ))%nat -> (levelP < length (rmods rP))%nat ->
    words rQ levelQ canon (fst p) -> words rP levelP canon (snd p) -> exists X, qp_ntt rQ rP L levelQ levelP canon p X.
  Proof.
    intros HlQ HlP WQ WP.
    destruct (qp_exists rQ rP HP levelQ levelP (fun i k => co (invntt_row (2 ^ L) (rmod rQ i) (nth i (fst p) [])) k)
      (fun i k => co (invntt_row (2 ^ L) (rmod rP i) (nth i (snd p) [])) k) HlQ HlP) as [X HX].
    exists X. split.
    - split; [exact HlQ|]. split; [apply WQ|]. intros i Hi.
      pose proof (ntt_of_words rQ L levelQ (fst p) (proj1 HP) EL HlQ WQ i Hi) as R.
      apply (row_repr_peq _ _ _ _ _ _) with (2 := R). intros k Hk. symmetry. apply values_peq.
      intros x Hx. apply (HX x ltac:(rewrite EL; exact Hx)). exact Hi.
    - split; [exact HlP|]. split; [apply WP|]. intros i Hi.
      pose proof (ntt_of_words rP L levelP (snd p) (proj1 (proj2 HP)) qp_EL HlP WP i Hi) as R.
      apply (row_repr_peq _ _ _ _ _ _) with (2 := R). intros k Hk. symmetry. apply values_peq.
      intros x Hx. apply (HX x ltac:(rewrite EL; exact Hx)). exact Hi.
  Qed.

  Lemma qp_words_mont levelQ levelP (p : rows * rows) : (levelQ < length (rmods rQ))%nat -> (levelP < length (rmods rP))%nat ->
    words rQ levelQ canon (fst p) -> words rP levelP canon (snd p) -> exists b, qp_ntt rQ rP L levelQ levelP canon p (pscale W b).
  Proof.
    intros HlQ HlP WQ WP. destruct (qp_words_ntt levelQ levelP p HlQ HlP WQ WP) as (X & X1 & X2).
    set (M := fold_right Z.mul 1 (moduli rQ ++ moduli rP)).
    assert (Mo : Z.odd M = true).
    { apply odd_prod. intros q Hq. apply in_app_iff in Hq. destruct Hq as [Hq|Hq]; [apply (moduli_odd rQ)|apply (moduli_odd rP)]; try assumption; apply HP. }
    assert (HR : rel_prime W M) by (apply Zgcd_1_rel_prime, odd_gcd_W; exact Mo).
    apply rel_prime_bezout in HR. destruct HR as [w u Hw].
    assert (HW : forall q, In q (moduli rQ ++ moduli rP) -> forall x, eqm q (W * (w * x)) x).
    { intros q Hq x. destruct (prodZ_divide _ _ Hq) as [c Ec]. Transparent prodZ. unfold prodZ in Ec. Opaque prodZ. fold M in Ec.
      apply (eqm_intro _ _ _ (- u * c * x)). transitivity ((w * W) * x); [ring|]. replace (w * W) with (1 - u * M) by lia. rewrite Ec. ring. }
    exists (pscale w X). split.
    - revert X1. apply (ntt_peq rQ L EL). intros i Hi k Hk. unfold pscale. symmetry. apply HW. apply in_app_iff. left.
      rewrite <- nth_moduli by lia. apply nth_In. rewrite <- moduli_length. lia.
    - revert X2. apply (ntt_peq rP L qp_EL). intros i Hi k Hk. unfold pscale. symmetry. apply HW. apply in_app_iff. right.
      rewrite <- nth_moduli by lia. apply nth_In. rewrite <- moduli_length. lia.
  Qed.
End QP.

(** ** Extension of small polynomials *)
Lemma small_residue Q x X : 5 <= Q -> Z.odd Q = true -> 0 <= x < Q + 1 -> eqm Q x X -> 2 * Z.abs X < Q ->
  X = if Q / 2 <? x then x - Q else x.
Proof.
  intros HQ Ho Hx E HX. apply eqm_elim in E; [|lia]. destruct E as [k Ek].
  assert (Odd : Q = 2 * (Q / 2) + 1) by (pose proof (Z.div2_odd Q) as D; rewrite Ho, Z.div2_div in D; cbn [Z.b2z] in D; exact D).
  set (h := Q / 2) in *. clearbody h. destruct (Z.ltb_spec h x).
  - assert (k = 1) by nia. subst k. lia.
  - assert (k = 0) by nia. subst k. lia.
Qed.

Lemma extend_word_spec Q pi x X : 5 <= Q -> Q < W -> Z.odd Q = true -> 5 <= pi -> pi < W -> 0 <= x < Q + 1 -> eqm Q x X ->
  2 * Z.abs X < Q -> Z.abs X <= pi -> 0 <= extend_word Q pi x < pi + 1 /\ eqm pi (extend_word Q pi x) X.
Proof.
  intros HQ HQW Ho Hpi HpW Hx E HX HXp. pose proof (small_residue Q x X HQ Ho Hx E HX) as EX.
  unfold extend_word. replace (wshr Q 1) with (Q / 2) by reflexivity.
  destruct (Z.ltb_spec (Q / 2) x) as [H|H].
  - change (Z.lxor 0 1) with 1. unfold wmul, wsub. rewrite Z.mul_0_r, Z.mul_1_r. change (w64 0) with 0. rewrite Z.lor_0_l.
    rewrite (w64_small (Q - x)) by lia. rewrite (w64_small (pi - (Q - x))) by lia. rewrite w64_small by lia.
    split; [lia|]. apply (eqm_intro _ _ _ 1). lia.
  - change (Z.lxor 1 1) with 0. unfold wmul. rewrite Z.mul_0_r, Z.mul_1_r. change (w64 0) with 0. rewrite Z.lor_0_r.
    rewrite w64_small by lia. split; [lia|]. apply eqm_eq. lia.
Qed.

Lemma extend_small rQ rP p levelP out X : built_ring 2 rQ -> built_ring 2 rP -> rN rP = rN rQ -> (levelP < length (rmods rP))%nat ->
  row_repr (rN rQ) (mq (rmod rQ 0)) (mq (rmod rQ 0) + 1) (nth 0 p []) X -> small_poly rQ rP levelP X ->
  rns_repr rP levelP (fun q => q + 1) (ExtendBasisSmallNormAndCenter rQ rP p levelP out) X /\ kept levelP out (ExtendBasisSmallNormAndCenter rQ rP p levelP out).
Proof.
  intros BQ BP EN HlP [Hl HX] HS. unfold ExtendBasisSmallNormAndCenter.
  assert (H0 : (0 < length (rmods rQ))%nat).
  { destruct (built_ring_wf 2 rQ ltac:(lia) BQ) as (L & Hw & _). pose proof (wfr_ne _ _ _ Hw). destruct (rmods rQ); [contradiction|cbn; lia]. }
  destruct (built_mod 2 rQ 0 ltac:(lia) BQ H0) as (Q5 & Q2 & Qo & _).
  split; [|apply lvl_kept].
  split; [exact HlP|]. split; [rewrite lvl_length; lia|]. intros i Hi. rewrite lvl_nth_lt by lia. rewrite EN.
  destruct (built_mod 2 rP i ltac:(lia) BP ltac:(lia)) as (P5 & P2 & _).
  split; [rewrite map_length; exact Hl|]. intros k Hk. unfold prow. rewrite nth_map_lt by (rewrite Hl; exact Hk).
  destruct (HX k Hk) as [B E]. destruct (HS k Hk) as [S1 S2].
  apply extend_word_spec; try assumption; try lia. apply S2. exact Hi.
Qed.
