(** The lists of rotations. *)
From Coq Require Import Permutation.
From Verif Require Import Word ModRed Arith PolySpec PolyProofs Ring RingProofs NTT RingOps RNSSpec Automorphism AutoProps Gadget GadgetSpec Frlwe RlweSpec Rlwe Float64 RingUtil Ckks CkksSpec RotKeys RotKeysSpec RotKeysProofs.
Open Scope Z_scope.

Lemma insert_in k l x : In x (insert k l) <-> x = k \/ In x l.
Proof.
  unfold insert. destruct (in_dec Z.eq_dec k l) as [H|H].
  - split; [tauto|]. intros [-> |]; assumption.
  - rewrite in_app_iff. cbn [In]. split; [intros [|[-> |[]]]; tauto|intros [-> |]; tauto].
Qed.
Lemma insert_nodup k l : NoDup l -> NoDup (insert k l).
Proof.
  intros N. unfold insert. destruct (in_dec Z.eq_dec k l) as [H|H]; [exact N|].
  apply (Permutation_NoDup (l := k :: l)); [apply Permutation_cons_append|]. constructor; assumption.
Qed.

Lemma log_mask n j : (j <= 61)%nat -> wint (n - Z.land n (wint (wint (2 * 2 ^ Z.of_nat j) - 1))) = wint (n - n mod 2 ^ Z.of_nat (S j)).
Proof.
  intros Hj. assert (E : 2 * 2 ^ Z.of_nat j = 2 ^ Z.of_nat (S j)) by (rewrite Nat2Z.inj_succ, Z.pow_succ_r by lia; reflexivity). rewrite E.
  assert (P : 0 < 2 ^ Z.of_nat (S j)) by (apply Z.pow_pos_nonneg; lia).
  assert (U : 2 ^ Z.of_nat (S j) <= 2 ^ 62) by (apply Z.pow_le_mono_r; lia).
  rewrite (wint_small (2 ^ Z.of_nat (S j))) by lia. rewrite (wint_small (2 ^ Z.of_nat (S j) - 1)) by lia. rewrite Z.sub_1_r, <- Z.ones_equiv, Z.land_ones by lia. reflexivity.
Qed.

(** What the loop inserts. *)
Definition log_entry (n batch x : Z) (j : nat) : Prop :=
  2 ^ Z.of_nat j < n /\ (x = wint (2 ^ Z.of_nat j * batch) \/ x = wint (wint (n - n mod 2 ^ Z.of_nat (S j)) * batch)).

Lemma log_loop_spec n batch : n <= 2 ^ 62 -> forall fuel j acc, (62 < fuel + j)%nat -> (j <= 62)%nat -> NoDup acc ->
  exists l, log_loop fuel (2 ^ Z.of_nat j) n batch acc = Some l /\ NoDup l /\
    forall x, In x l <-> In x acc \/ exists j', (j <= j')%nat /\ log_entry n batch x j'.
Proof.
  intros Hn. induction fuel as [|f IH]; intros j acc Hf Hj N; [lia|]. cbn [log_loop]. destruct (2 ^ Z.of_nat j <? n) eqn:E.
  - apply Z.ltb_lt in E. assert (J : (j <= 61)%nat).
    { destruct (Nat.leb j 61) eqn:J; [apply Nat.leb_le; exact J|]. apply Nat.leb_gt in J. assert (j = 62%nat) by lia. subst j. change (2 ^ Z.of_nat 62) with (2 ^ 62) in E. lia. }
    rewrite log_mask by exact J. 
    assert (U : 2 ^ Z.of_nat (S j) <= 2 ^ 62) by (apply Z.pow_le_mono_r; lia).
    assert (P : 0 < 2 ^ Z.of_nat (S j)) by (apply Z.pow_pos_nonneg; lia).
    assert (E2 : 2 * 2 ^ Z.of_nat j = 2 ^ Z.of_nat (S j)) by (rewrite Nat2Z.inj_succ, Z.pow_succ_r by lia; reflexivity).
    rewrite E2, (wint_small (2 ^ Z.of_nat (S j))) by lia.
    destruct (IH (S j) (insert (wint (wint (n - n mod 2 ^ Z.of_nat (S j)) * batch)) (insert (wint (2 ^ Z.of_nat j * batch)) acc)) ltac:(lia) ltac:(lia)) as (l & H1 & H2 & H3);
      [apply insert_nodup, insert_nodup, N|].
    exists l. split; [exact H1|]. split; [exact H2|]. intros x. rewrite H3, !insert_in. split.
    + intros [[-> |[-> |H]]|(j' & G1 & G2)].
      * right. exists j. split; [lia|]. split; [exact E|right; reflexivity].
      * right. exists j. split; [lia|]. split; [exact E|left; reflexivity].
      * left. exact H.
      * right. exists j'. split; [lia|exact G2].
    + intros [H|(j' & G1 & G2)]; [tauto|]. destruct (Nat.eq_dec j' j) as [-> |D].
      * destruct G2 as [_ [-> | ->]]; tauto.
      * right. exists j'. split; [lia|exact G2].
  - apply Z.ltb_ge in E. exists acc. split; [reflexivity|]. split; [exact N|]. intros x. split; [tauto|]. intros [H|(j' & G1 & G2 & _)]; [exact H|].
    exfalso. assert (2 ^ Z.of_nat j <= 2 ^ Z.of_nat j') by (apply Z.pow_le_mono_r; lia). lia.
Qed.

Lemma log_list fuel order batch n : (62 < fuel)%nat -> (forall l, Permutation l (order l)) -> n <= 2 ^ 62 ->
  exists l, RotationsForInnerSumLog fuel order batch n = Some l /\ NoDup l /\ forall x, In x l <-> exists j, log_entry n batch x j.
Proof.
  intros Hf Ho Hn. destruct (log_loop_spec n batch Hn fuel 0 [] ltac:(lia) ltac:(lia) ltac:(constructor)) as (l & H1 & H2 & H3). change (2 ^ Z.of_nat 0) with 1 in H1.
  exists (order l). unfold RotationsForInnerSumLog. rewrite H1. split; [reflexivity|]. split; [apply (Permutation_NoDup (Ho l) H2)|].
  intros x. split.
  - intros H. apply (Permutation_in _ (Permutation_sym (Ho l))) in H. apply H3 in H. destruct H as [[]|(j & _ & H)]. exists j. exact H.
  - intros (j & H). apply (Permutation_in _ (Ho l)). apply H3. right. exists j. split; [lia|exact H].
Qed.

(** Beyond 2^62 the counter wraps to 0 and the loop never ends. *)
Lemma log_loop_0 fuel n batch : 0 < n -> forall acc, log_loop fuel 0 n batch acc = None.
Proof.
  intros Hn. induction fuel as [|f IH]; intros acc; [reflexivity|]. cbn [log_loop]. rewrite (proj2 (Z.ltb_lt 0 n) Hn). change (wint (2 * 0)) with 0. apply IH.
Qed.
Lemma log_loop_diverges fuel n batch : 2 ^ 62 < n < 2 ^ 63 -> forall cnt j acc, (cnt + j = 62)%nat -> log_loop fuel (2 ^ Z.of_nat j) n batch acc = None.
Proof.
  intros Hn. induction fuel as [|f IH]; intros cnt j acc Hj; [reflexivity|]. cbn [log_loop].
  assert (U : 2 ^ Z.of_nat j <= 2 ^ 62) by (apply Z.pow_le_mono_r; lia). rewrite (proj2 (Z.ltb_lt (2 ^ Z.of_nat j) n)) by lia.
  destruct cnt as [|c].
  - assert (j = 62%nat) by lia. subst j. change (wint (2 * 2 ^ Z.of_nat 62)) with (- 2 ^ 63).
    destruct f as [|f]; [reflexivity|]. cbn [log_loop]. rewrite (proj2 (Z.ltb_lt (- 2 ^ 63) n)) by lia. change (wint (2 * - 2 ^ 63)) with 0. apply log_loop_0. lia.
  - assert (U' : 2 ^ Z.of_nat (S j) <= 2 ^ 62) by (apply Z.pow_le_mono_r; lia).
    assert (P : 0 < 2 ^ Z.of_nat (S j)) by (apply Z.pow_pos_nonneg; lia).
    assert (E2 : 2 * 2 ^ Z.of_nat j = 2 ^ Z.of_nat (S j)) by (rewrite Nat2Z.inj_succ, Z.pow_succ_r by lia; reflexivity).
    rewrite E2, (wint_small (2 ^ Z.of_nat (S j))) by lia. apply (IH c). lia.
Qed.
Lemma log_diverges fuel order batch n : 2 ^ 62 < n < 2 ^ 63 -> RotationsForInnerSumLog fuel order batch n = None.
Proof. intros H. unfold RotationsForInnerSumLog. change 1 with (2 ^ Z.of_nat 0). rewrite (log_loop_diverges fuel n batch H 62) by reflexivity. reflexivity. Qed.

Lemma flat_two (f g : nat -> Z) l : length (flat_map (fun j => [f j; g j]) l) = (2 * length l)%nat.
Proof. induction l as [|a t IH]; [reflexivity|]. cbn [flat_map app length]. rewrite IH. lia. Qed.

Section Computes.
  Variable rQ : Ring.
  Hypothesis B2 : built_ring 2 rQ.
  Let n := rN rQ.
  Notation rng := (range rQ).

  Lemma pow_S i : 2 ^ Z.of_nat (S i) = 2 ^ Z.of_nat i + 2 ^ Z.of_nat i.
  Proof. rewrite Nat2Z.inj_succ, Z.pow_succ_r by lia. lia. Qed.
  Lemma npow_Z i : Z.of_nat (2 ^ i) = 2 ^ Z.of_nat i.
  Proof. rewrite Nat2Z.inj_pow. reflexivity. Qed.

  (** Doubling. *)
  Lemma double_range q batch i M Y : peq n q Y (rng batch 0 (2 ^ i) M) ->
    peq n q (padd Y (rot rQ (2 ^ Z.of_nat i * batch) Y)) (rng batch 0 (2 ^ S i) M).
  Proof.
    intros H. replace (2 ^ S i)%nat with (2 ^ i + 2 ^ i)%nat by (cbn; lia). etransitivity; [|symmetry; apply range_app].
    apply padd_peq; [exact H|]. etransitivity; [apply rot_peq; exact H|]. etransitivity; [apply (rot_range rQ B2)|].
    rewrite npow_Z, Z.add_0_r, Z.add_0_l. reflexivity.
  Qed.
  Lemma start_range q batch M : peq n q M (rng batch 0 1 M).
  Proof.
    symmetry. etransitivity; [apply range_S|]. transitivity (padd pzero (rot rQ 0 M)).
    - apply padd_peq; [apply range_0|]. replace ((0 + Z.of_nat 0) * batch) with 0 by lia. reflexivity.
    - transitivity (rot rQ 0 M); [intros k Hk; apply eqm_eq; unfold padd, pzero; ring|apply (rot_0 rQ B2)].
  Qed.

  Lemma computed_doubling rots batch M top : (forall i, (i < top)%nat -> exists k, In k rots /\ eqm (2 ^ 64) k (2 ^ Z.of_nat i * batch)) ->
    forall i, (i <= top)%nat -> exists l Y, computed rQ rots M i l /\ In Y l /\ forall q, peq n q Y (rng batch 0 (2 ^ i) M).
  Proof.
    intros HR. induction i as [|i IH]; intros Hi.
    - exists [M], M. split; [constructor|]. split; [left; reflexivity|]. intros q. apply start_range.
    - destruct (IH ltac:(lia)) as (l & Y & C & HY & E). destruct (HR i ltac:(lia)) as (k & Hk & Ek).
      exists (padd Y (rot rQ k Y) :: rot rQ k Y :: l), (padd Y (rot rQ k Y)). split; [|split; [left; reflexivity|]].
      + apply computed_add; [apply computed_rot; assumption|right; exact HY|left; reflexivity].
      + intros q. rewrite (rot_wrap rQ B2 _ _ Y Ek). apply double_range, E.
  Qed.

  (** Doubling and adding. *)
  Lemma computed_binary rots batch M len top :
    (forall i, (i < top)%nat -> exists k, In k rots /\ eqm (2 ^ 64) k (2 ^ Z.of_nat i * batch)) ->
    (forall i, (i < top)%nat -> exists k, In k rots /\ eqm (2 ^ 64) k ((len - len mod 2 ^ Z.of_nat (S i)) * batch)) ->
    forall i, (i <= top)%nat -> exists c l Y, computed rQ rots M c l /\ (c <= 2 * i)%nat /\ In Y l /\ (forall q, peq n q Y (rng batch 0 (2 ^ i) M)) /\
      (len mod 2 ^ Z.of_nat i = 0 \/
       exists A, In A l /\ forall q, peq n q A (rng batch (len - len mod 2 ^ Z.of_nat i) (Z.to_nat (len mod 2 ^ Z.of_nat i)) M)).
  Proof.
    intros HR HA. induction i as [|i IH]; intros Hi.
    - exists 0%nat, [M], M. split; [constructor|]. split; [lia|]. split; [left; reflexivity|]. split; [intros q; apply start_range|]. left. apply Z.mod_1_r.
    - destruct (IH ltac:(lia)) as (c & l & Y & C & Hc & HY & E & Acc). destruct (HR i ltac:(lia)) as (k & Hk & Ek). destruct (HA i ltac:(lia)) as (k' & Hk' & Ek').
      assert (P : 0 < 2 ^ Z.of_nat i) by (apply Z.pow_pos_nonneg; lia). pose proof (pow_S i) as PS.
      pose proof (Z.mod_pos_bound len (2 ^ Z.of_nat i) P) as Rm.
      assert (D : len mod 2 ^ Z.of_nat (S i) = len mod 2 ^ Z.of_nat i \/ len mod 2 ^ Z.of_nat (S i) = len mod 2 ^ Z.of_nat i + 2 ^ Z.of_nat i).
      { assert (E1 : (len mod 2 ^ Z.of_nat (S i)) mod 2 ^ Z.of_nat i = len mod 2 ^ Z.of_nat i).
        { symmetry. apply Zmod_div_mod; [exact P|lia|]. exists 2. lia. }
        pose proof (Z.mod_pos_bound len (2 ^ Z.of_nat (S i)) ltac:(lia)) as R1. revert E1 R1. rewrite PS. generalize (len mod (2 ^ Z.of_nat i + 2 ^ Z.of_nat i)) (len mod 2 ^ Z.of_nat i). clear - P.
        generalize dependent (2 ^ Z.of_nat i). intros m P a b E1 R1. pose proof (Z.div_mod a m ltac:(lia)) as D. rewrite E1 in D.
        pose proof (Z.mod_pos_bound a m P) as B. rewrite E1 in B. assert (T : a / m = 0 \/ a / m = 1).
        { assert (0 <= a / m) by (apply Z.div_pos; lia). assert (a / m < 2) by (apply Z.div_lt_upper_bound; lia). lia. }
        destruct T as [T|T]; rewrite T in D; lia. }
      set (l1 := padd Y (rot rQ k Y) :: rot rQ k Y :: l).
      assert (C1 : computed rQ rots M (S c) l1) by (apply computed_add; [apply computed_rot; assumption|right; exact HY|left; reflexivity]).
      assert (E1 : forall q, peq n q (padd Y (rot rQ k Y)) (rng batch 0 (2 ^ S i) M)) by (intros q; rewrite (rot_wrap rQ B2 _ _ Y Ek); apply double_range, E).
      destruct D as [D|D].
      + exists (S c), l1, (padd Y (rot rQ k Y)). split; [exact C1|]. split; [lia|]. split; [left; reflexivity|]. split; [exact E1|].
        rewrite D. destruct Acc as [Acc|(A & HA1 & HA2)]; [left; exact Acc|]. right. exists A. split; [right; right; exact HA1|exact HA2].
      + assert (HYr : In Y l1) by (right; right; exact HY).
        assert (C2 : computed rQ rots M (S (S c)) (rot rQ k' Y :: l1)) by (apply computed_rot; assumption).
        set (b := len - len mod 2 ^ Z.of_nat (S i)) in *.
        assert (ER : forall q, peq n q (rot rQ k' Y) (rng batch b (2 ^ i) M)).
        { intros q. rewrite (rot_wrap rQ B2 _ _ Y Ek'). etransitivity; [apply rot_peq, E|]. etransitivity; [apply (rot_range rQ B2)|]. rewrite Z.add_0_r. reflexivity. }
        assert (Hb : len - len mod 2 ^ Z.of_nat i = b + Z.of_nat (2 ^ i)) by (unfold b; rewrite D, npow_Z; lia).
        assert (HL : Z.to_nat (len mod 2 ^ Z.of_nat (S i)) = (2 ^ i + Z.to_nat (len mod 2 ^ Z.of_nat i))%nat).
        { rewrite D. apply Nat2Z.inj. rewrite Nat2Z.inj_add, !Z2Nat.id, npow_Z by lia. lia. }
        rewrite HL. destruct Acc as [Acc|(A & HA1 & HA2)].
        * exists (S (S c)), (rot rQ k' Y :: l1), (padd Y (rot rQ k Y)). split; [exact C2|]. split; [lia|]. split; [right; left; reflexivity|]. split; [exact E1|].
          right. exists (rot rQ k' Y). split; [left; reflexivity|]. rewrite Acc. change (Z.to_nat 0) with 0%nat. rewrite Nat.add_0_r. exact ER.
        * exists (S (S c)), (padd (rot rQ k' Y) A :: rot rQ k' Y :: l1), (padd Y (rot rQ k Y)).
          split; [apply computed_add; [exact C2|left; reflexivity|right; right; right; exact HA1]|]. split; [lia|]. split; [right; right; left; reflexivity|]. split; [exact E1|].
          right. exists (padd (rot rQ k' Y) A). split; [left; reflexivity|]. intros q. etransitivity; [|symmetry; apply range_app].
          apply padd_peq; [apply ER|]. rewrite <- Hb. apply HA2.
  Qed.

  Lemma log_computes fuel order batch len M : (62 < fuel)%nat -> (forall l, Permutation l (order l)) -> 1 <= len <= 2 ^ 62 ->
    exists rots, RotationsForInnerSumLog fuel order batch len = Some rots /\ NoDup rots /\ Z.of_nat (length rots) <= 2 * Z.log2_up len /\
      computes rQ rots M (Z.to_nat (2 * Z.log2_up len)) (sum_rotations rQ batch (Z.to_nat len) M).
  Proof.
    intros Hf Ho Hn. destruct (log_list fuel order batch len Hf Ho ltac:(lia)) as (rots & HL & ND & Hin). exists rots. split; [exact HL|]. split; [exact ND|].
    set (top := Z.to_nat (Z.log2_up len)). assert (Tp : Z.of_nat top = Z.log2_up len) by (unfold top; rewrite Z2Nat.id; [reflexivity|apply Z.log2_up_nonneg]).
    assert (Lt : forall j, 2 ^ Z.of_nat j < len <-> (j < top)%nat).
    { intros j. rewrite Nat2Z.inj_lt, Tp. apply Z.log2_up_lt_pow2; lia. }
    split.
    - set (f := fun j : nat => [wint (2 ^ Z.of_nat j * batch); wint (wint (len - len mod 2 ^ Z.of_nat (S j)) * batch)]).
      assert (I : incl rots (flat_map f (seq 0 top))).
      { intros x Hx. apply Hin in Hx. destruct Hx as (j & H1 & H2). apply in_flat_map. exists j. split; [apply in_seq; apply Lt in H1; lia|]. unfold f. cbn [In]. destruct H2 as [-> | ->]; tauto. }
      apply NoDup_incl_length in I; [|exact ND]. unfold f in I. rewrite flat_two, seq_length in I. lia.
    - destruct (computed_binary rots batch M len top) with (i := top) as (c & l & Y & C & Hc & HY & E & Acc).
      + intros i Hi. exists (wint (2 ^ Z.of_nat i * batch)). split; [|apply wint_mod]. apply Hin. exists i. split; [apply Lt; exact Hi|left; reflexivity].
      + intros i Hi. eexists. split; [apply Hin; exists i; split; [apply Lt; exact Hi|right; reflexivity]|].
        apply (eqm_trans _ _ (wint (len - len mod 2 ^ Z.of_nat (S i)) * batch)); [apply wint_mod|]. apply eqm_mul; [apply wint_mod|reflexivity].
      + lia.
      + exists c, l. assert (Hc' : (c <= Z.to_nat (2 * Z.log2_up len))%nat) by lia. clear Hc.
        assert (LU : len <= 2 ^ Z.of_nat top) by (rewrite Tp; (destruct (Z.eq_dec len 1) as [-> |]; [cbn; lia|apply Z.log2_up_spec; lia])).
        rewrite range_sum. destruct (Z.eq_dec len (2 ^ Z.of_nat top)) as [EQ|NE].
        * exists Y. split; [exact C|]. split; [exact Hc'|]. split; [exact HY|]. intros q. replace (Z.to_nat len) with (2 ^ top)%nat; [apply E|].
          apply Nat2Z.inj. rewrite npow_Z, Z2Nat.id; lia.
        * rewrite (Z.mod_small len (2 ^ Z.of_nat top)) in Acc by lia. destruct Acc as [Acc|(A & HA1 & HA2)]; [lia|].
          exists A. split; [exact C|]. split; [exact Hc'|]. split; [exact HA1|]. replace (len - len) with 0 in HA2 by lia. exact HA2.
  Qed.

  (** The rotations by the powers of two from 2^a to 2^(b-1). *)
  Lemma trace_computes a b M : (a <= b)%nat ->
    computes rQ (RotationsForTrace a b) M (b - a) (sum_rotations rQ (2 ^ Z.of_nat a) (2 ^ (b - a)) M).
  Proof.
    intros Hab. destruct (computed_doubling (RotationsForTrace a b) (2 ^ Z.of_nat a) M (b - a)) with (i := (b - a)%nat) as (l & Y & C & HY & E).
    - intros i Hi. exists (wint (2 ^ Z.of_nat (a + i))). split.
      + unfold RotationsForTrace. apply in_map_iff. exists (a + i)%nat. split; [reflexivity|]. apply in_seq. lia.
      + rewrite <- Z.pow_add_r by lia. rewrite <- Nat2Z.inj_add, (Nat.add_comm i a). apply wint_mod.
    - lia.
    - exists (b - a)%nat, l, Y. split; [exact C|]. split; [lia|]. split; [exact HY|exact E].
  Qed.
End Computes.
