(** The maps of keys, the lists of rotations and what can be computed with them. *)
From Coq Require Import Permutation.
From Verif Require Import Word ModRed Arith PolySpec PolyProofs Ring RingProofs NTT RingOps RNSSpec Automorphism AutoProps Gadget GadgetSpec Frlwe RlweSpec Rlwe Float64 RingUtil Ckks CkksSpec RotKeys RotKeysSpec.
Open Scope Z_scope.

(** ** Maps *)
Lemma put_keys m g key : forall h, In h (map fst (put m g key)) <-> h = g \/ In h (map fst m).
Proof.
  induction m as [|[a x] t IH]; intros h; cbn [put map fst In].
  - split; [intros [E|[]]; left; symmetry; exact E|intros [E|[]]; left; symmetry; exact E].
  - destruct (a =? g) eqn:E; cbn [map fst In].
    + apply Z.eqb_eq in E. subst a. split; [tauto|]. intros [->|H]; [left; reflexivity|exact H].
    + rewrite IH. tauto.
Qed.
Lemma put_nodup m g key : NoDup (map fst m) -> NoDup (map fst (put m g key)).
Proof.
  induction m as [|[a x] t IH]; intros H; cbn [put map fst].
  - constructor; [intros []|constructor].
  - inversion H as [|? ? H1 H2]; subst. destruct (a =? g) eqn:E; cbn [map fst]; [constructor; assumption|].
    constructor; [|apply IH; exact H2]. rewrite put_keys. intros [->|Hi]; [rewrite Z.eqb_refl in E; discriminate|contradiction].
Qed.
Lemma get_put m g key h : GetRotationKey (put m g key) h = if h =? g then Some key else GetRotationKey m h.
Proof.
  unfold GetRotationKey. induction m as [|[a x] t IH]; cbn [put find fst].
  - rewrite (Z.eqb_sym g h). destruct (h =? g); reflexivity.
  - destruct (a =? g) eqn:E; cbn [find fst].
    + apply Z.eqb_eq in E. subst a. rewrite (Z.eqb_sym g h). destruct (h =? g); reflexivity.
    + destruct (a =? h) eqn:E2; [|exact IH]. apply Z.eqb_eq in E2. subst a. rewrite E. reflexivity.
Qed.
Lemma get_some m h : (exists key, GetRotationKey m h = Some key) <-> In h (map fst m).
Proof.
  unfold GetRotationKey. induction m as [|[a x] t IH]; cbn [find fst map In].
  - split; [intros [? H]; discriminate|intros []].
  - destruct (a =? h) eqn:E.
    + apply Z.eqb_eq in E. split; [left; exact E|]. intros _. eexists. reflexivity.
    + apply Z.eqb_neq in E. rewrite IH. tauto.
Qed.
Lemma get_none m h : ~ In h (map fst m) -> GetRotationKey m h = None.
Proof. intros H. destruct (GetRotationKey m h) eqn:E; [|reflexivity]. exfalso. apply H, get_some. eexists. exact E. Qed.

Lemma fold_put_keys rQ rP l : forall m h, In h (map fst (fold_left (fun m g => put m g (NewSwitchingKey rQ rP)) l m)) <-> In h l \/ In h (map fst m).
Proof.
  induction l as [|g t IH]; intros m h; cbn [fold_left In]; [tauto|]. rewrite IH, put_keys. split; [intros [|[->|]]; tauto|intros [[->|]|]; tauto].
Qed.
Lemma fold_put_nodup rQ rP l : forall m, NoDup (map fst m) -> NoDup (map fst (fold_left (fun m g => put m g (NewSwitchingKey rQ rP)) l m)).
Proof. induction l as [|g t IH]; intros m H; cbn [fold_left]; [exact H|]. apply IH, put_nodup, H. Qed.

Section Loop.
  Variables (rQ rP : Ring) (sk : rows * rows) (d : nat -> draw).
  Definition made (i : nat) (g : Z) : swkey :=
    genrotKey rQ rP sk (InverseGaloisElement rQ g) (drE (d i)) (drQ (d i)) (drP (d i)) (drPool (d i)) (drPoolQ (d i)).

  Lemma loop_keys l : forall i m h, In h (map fst (gen_loop rQ rP sk d i l m)) <-> In h l \/ In h (map fst m).
  Proof.
    induction l as [|g t IH]; intros i m h; cbn [gen_loop In]; [tauto|]. rewrite IH, put_keys. split; [intros [|[->|]]; tauto|intros [[->|]|]; tauto].
  Qed.
  Lemma loop_nodup l : forall i m, NoDup (map fst m) -> NoDup (map fst (gen_loop rQ rP sk d i l m)).
  Proof. induction l as [|g t IH]; intros i m H; cbn [gen_loop]; [exact H|]. apply IH, put_nodup, H. Qed.
  Lemma loop_get l : forall i m h key, GetRotationKey (gen_loop rQ rP sk d i l m) h = Some key -> 
    (exists j, (i <= j < i + length l)%nat /\ key = made j h) \/ (~ In h l /\ GetRotationKey m h = Some key).
  Proof.
    induction l as [|g t IH]; intros i m h key H; cbn [gen_loop] in H; [right; split; [intros []|exact H]|].
    apply IH in H. destruct H as [(j & Hj & ->)|[H1 H2]]; [left; exists j; cbn [length]; split; [lia|reflexivity]|].
    rewrite get_put in H2. destruct (h =? g) eqn:E.
    - apply Z.eqb_eq in E. subst h. left. exists i. cbn [length]. split; [lia|]. injection H2 as <-. reflexivity.
    - right. apply Z.eqb_neq in E. cbn [In]. split; [|exact H2]. intros [|]; [apply E; symmetry; assumption|contradiction].
  Qed.

  Lemma set_keys l h : (exists key, GetRotationKey (GenRotationKeys rQ rP l sk d) h = Some key) <-> In h l.
  Proof. rewrite get_some. unfold GenRotationKeys. rewrite loop_keys. unfold NewRotationKeySet. rewrite fold_put_keys. cbn [map In]. tauto. Qed.
  Lemma set_nodup l : NoDup (map fst (GenRotationKeys rQ rP l sk d)).
  Proof. unfold GenRotationKeys. apply loop_nodup. apply fold_put_nodup. constructor. Qed.
  Lemma set_size l : length (GenRotationKeys rQ rP l sk d) = length (nodup Z.eq_dec l).
  Proof.
    rewrite <- (map_length fst). apply Permutation_length. apply NoDup_Permutation; [apply set_nodup|apply NoDup_nodup|].
    intros h. rewrite nodup_In, <- (set_keys l h). symmetry. apply get_some.
  Qed.
  Lemma set_get l h key : GetRotationKey (GenRotationKeys rQ rP l sk d) h = Some key -> exists j, (j < length l)%nat /\ key = made j h.
  Proof.
    intros H. assert (Hi : In h l) by (apply set_keys; eexists; exact H). apply loop_get in H. destruct H as [(j & Hj & E)|[H _]]; [exists j; split; [lia|exact E]|contradiction].
  Qed.
End Loop.

(** ** Integers that wrap *)
Lemma wint_mod x : eqm (2 ^ 64) (wint x) x.
Proof. unfold wint. apply (eqm_intro _ _ _ (- ((x + 2 ^ 63) / 2 ^ 64))). pose proof (Z.div_mod (x + 2 ^ 63) (2 ^ 64) ltac:(lia)). lia. Qed.
Lemma wint_small x : - 2 ^ 63 <= x < 2 ^ 63 -> wint x = x.
Proof. intros H. unfold wint. rewrite Z.mod_small by lia. lia. Qed.

Section Rot.
  Variable rQ : Ring.
  Hypothesis B2 : built_ring 2 rQ.
  Notation gal := (GaloisElementForColumnRotationBy rQ).
  Let n := rN rQ.

  Lemma gal_wrap k l : eqm (2 ^ 64) k l -> gal k = gal l.
  Proof.
    intros E. apply (gal_eq_iff 2 rQ (Z.le_refl 2) B2). destruct (gal_setup 2 rQ (Z.le_refl 2) B2) as (m & HN & Hm & _ & _). rewrite (half_N rQ m HN).
    change (eqm (2 ^ Z.of_nat m) k l). assert (P : 0 < 2 ^ Z.of_nat m) by (apply Z.pow_pos_nonneg; lia).
    assert (E2 : 2 ^ 64 = 2 ^ (64 - Z.of_nat m) * 2 ^ Z.of_nat m) by (rewrite <- Z.pow_add_r by lia; f_equal; lia).
    pose proof (Z.div_mod k (2 ^ 64) ltac:(lia)) as D1. pose proof (Z.div_mod l (2 ^ 64) ltac:(lia)) as D2. unfold eqm in E. rewrite E in D1.
    set (c := 2 ^ (64 - Z.of_nat m)) in *. apply (eqm_intro _ _ _ ((k / 2 ^ 64 - l / 2 ^ 64) * c)).
    revert D1 D2. generalize (k / 2 ^ 64) (l / 2 ^ 64) (l mod 2 ^ 64). rewrite E2. intros a b r0 D1 D2. clear - D1 D2. rewrite D1, D2. ring.
  Qed.
  Lemma rot_wrap k l M : eqm (2 ^ 64) k l -> rot rQ k M = rot rQ l M.
  Proof. intros E. unfold rot. rewrite (gal_wrap k l E). reflexivity. Qed.

  Lemma rot_pos : (0 < n)%nat.
  Proof. destruct (gal_setup 2 rQ (Z.le_refl 2) B2) as (m & HN & _). unfold n. rewrite HN. pose proof (Nat.pow_nonzero 2 (m + 1)). lia. Qed.
  Lemma rot_0 q M : peq n q (rot rQ 0 M) M.
  Proof. unfold rot. rewrite (gal_0 2 rQ (Z.le_refl 2) B2). apply pauto_id, rot_pos. Qed.
  Lemma gal_nat_odd k : Nat.odd (Z.to_nat (gal k)) = true.
  Proof.
    destruct (gal_range 2 rQ (Z.le_refl 2) B2 k) as [R O]. rewrite <- O. rewrite <- (Z2Nat.id (gal k)) at 2 by lia.
    generalize (Z.to_nat (gal k)). intros x. rewrite <- Z.negb_even, <- Nat.negb_even. f_equal.
    destruct (Nat.even x) eqn:E; symmetry.
    - apply Nat.even_spec in E. destruct E as [y ->]. apply Z.even_spec. exists (Z.of_nat y). lia.
    - destruct (Z.even (Z.of_nat x)) eqn:E2; [|reflexivity]. apply Z.even_spec in E2. destruct E2 as [y Ey].
      assert (x = 2 * Z.to_nat y)%nat by lia. rewrite H, Nat.even_mul in E. discriminate.
  Qed.
  Lemma rot_rot q k l M : peq n q (rot rQ k (rot rQ l M)) (rot rQ (k + l) M).
  Proof.
    unfold rot. fold n. rewrite pauto_comp_mod by (try apply rot_pos; apply gal_nat_odd).
    replace ((Z.to_nat (gal l) * Z.to_nat (gal k)) mod (2 * n))%nat with (Z.to_nat (gal (k + l))); [reflexivity|].
    destruct (gal_range 2 rQ (Z.le_refl 2) B2 k) as [R _]. destruct (gal_range 2 rQ (Z.le_refl 2) B2 l) as [R' _].
    pose proof (gal_add 2 rQ (Z.le_refl 2) B2 l k) as E. rewrite (Z.add_comm k l), <- E. apply Nat2Z.inj.
    rewrite Nat2Z.inj_mod, Nat2Z.inj_mul, !Z2Nat.id; [rewrite Nat2Z.inj_mul; reflexivity|lia|lia|apply Z.mod_pos_bound; pose proof rot_pos; fold n; lia].
  Qed.
  Lemma rot_add q k A B : peq n q (rot rQ k (padd A B)) (padd (rot rQ k A) (rot rQ k B)).
  Proof. unfold rot. apply pauto_add. Qed.
  Lemma rot_peq q k A B : peq n q A B -> peq n q (rot rQ k A) (rot rQ k B).
  Proof. intros H. unfold rot. apply pauto_peq. exact H. Qed.

  (** The sum of len rotations from a on. *)
  Definition range (batch a : Z) (len : nat) (M : poly) : poly := psum len (fun t => rot rQ ((a + Z.of_nat t) * batch) M).
  Lemma range_S q batch a len M : peq n q (range batch a (S len) M) (padd (range batch a len M) (rot rQ ((a + Z.of_nat len) * batch) M)).
  Proof. intros k Hk. apply eqm_eq. unfold range, psum, padd. cbn [bigsum]. ring. Qed.
  Lemma range_0 q batch a M : peq n q (range batch a 0 M) pzero.
  Proof. intros k Hk. reflexivity. Qed.
  Lemma range_app q batch a len1 len2 M :
    peq n q (range batch a (len1 + len2) M) (padd (range batch a len1 M) (range batch (a + Z.of_nat len1) len2 M)).
  Proof.
    induction len2 as [|l IH].
    - rewrite Nat.add_0_r. intros k Hk. apply eqm_eq. unfold padd, range at 3, psum, bigsum. cbn. ring.
    - rewrite Nat.add_succ_r. etransitivity; [apply range_S|].
      transitivity (padd (range batch a len1 M) (padd (range batch (a + Z.of_nat len1) l M) (rot rQ ((a + Z.of_nat len1 + Z.of_nat l) * batch) M))).
      + replace (a + Z.of_nat (len1 + l)) with (a + Z.of_nat len1 + Z.of_nat l) by lia.
        etransitivity; [apply padd_peq; [exact IH|reflexivity]|]. intros k Hk. apply eqm_eq. unfold padd. ring.
      + apply padd_peq; [reflexivity|]. symmetry. apply range_S.
  Qed.
  Lemma rot_range q batch b a len M : peq n q (rot rQ (b * batch) (range batch a len M)) (range batch (b + a) len M).
  Proof.
    induction len as [|l IH].
    - etransitivity; [apply rot_peq, range_0|]. etransitivity; [|symmetry; apply range_0].
      apply peq_exact. intros k Hk. unfold rot, pauto, pzero. apply bigsum_zero. intros i Hi. ring.
    - etransitivity; [apply rot_peq, range_S|]. etransitivity; [apply rot_add|]. etransitivity; [|symmetry; apply range_S].
      apply padd_peq; [exact IH|]. etransitivity; [apply rot_rot|]. replace (b * batch + (a + Z.of_nat l) * batch) with ((b + a + Z.of_nat l) * batch) by ring. reflexivity.
  Qed.
  Lemma range_sum batch len M : sum_rotations rQ batch len M = range batch 0 len M.
  Proof. reflexivity. Qed.
End Rot.
