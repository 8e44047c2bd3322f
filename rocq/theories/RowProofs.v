(** Transforms and pointwise operations on one row. *)
From Verif Require Import Word ModRed Arith ModRedProofs PolySpec PolyProofs Ring RingProofs NTT NTTProofs RingOps RNSSpec.

Lemma bitrev_rev_bits L i : Z.of_nat (bitrev L i) = rev_bits L (Z.of_nat i).
Proof.
  unfold bitrev.
  assert (H : forall L i, bigsum L (fun b => if Nat.testbit i b then 2 ^ Z.of_nat (L - 1 - b) else 0) = rev_bits L (Z.of_nat i)).
  { clear. induction L as [|L IH]; intros i; [reflexivity|].
    rewrite bigsum_S_l. cbn [rev_bits].
    rewrite <- (Nat2Z.inj_div i 2) || idtac.
    replace (Z.of_nat i / 2) with (Z.of_nat (Nat.div2 i)) by (rewrite Nat.div2_div, Nat2Z.inj_div; reflexivity).
    rewrite <- IH. f_equal.
    - cbn [Nat.testbit]. replace (S L - 1 - 0)%nat with L by lia.
      rewrite Zmod_odd. rewrite <- (Nat2Z.id i) at 1.
      replace (Nat.odd (Z.to_nat (Z.of_nat i))) with (Z.odd (Z.of_nat i)).
      + destruct (Z.odd (Z.of_nat i)); ring.
      + rewrite Nat2Z.id. destruct (Nat.Even_or_Odd i) as [[m ->]|[m ->]].
        * rewrite Nat.odd_mul, Nat2Z.inj_mul, Z.odd_mul. reflexivity.
        * rewrite Nat.odd_add, Nat.odd_mul, Nat2Z.inj_add, Nat2Z.inj_mul, Z.odd_add, Z.odd_mul. reflexivity.
    - apply bigsum_ext. intros b Hb. cbn [Nat.testbit]. replace (S L - 1 - S b)%nat with (L - 1 - b)%nat by lia.
      reflexivity. }
  rewrite H. pose proof (rev_bits_range L (Z.of_nat i)). lia.
Qed.

(** ** Generic lemmas on represented rows *)
Lemma row_repr_below N q B row X : row_repr N q B row X -> below B row.
Proof. intros [Hl H]. apply below_intro. intros k Hk. apply H. lia. Qed.
Lemma row_repr_length N q B row X : row_repr N q B row X -> length row = N.
Proof. intros [Hl _]. exact Hl. Qed.

Lemma row_repr_weaken N q B B' row X : B <= B' -> row_repr N q B row X -> row_repr N q B' row X.
Proof. intros HB [Hl H]. split; [exact Hl|]. intros k Hk. destruct (H k Hk). split; [lia|assumption]. Qed.

Lemma row_repr_peq N q B row X Y : (forall k, (k < N)%nat -> eqm q (X k) (Y k)) -> row_repr N q B row X -> row_repr N q B row Y.
Proof.
  intros E [Hl H]. split; [exact Hl|]. intros k Hk. destruct (H k Hk) as [? E']. split; [assumption|].
  rewrite E'. apply E. exact Hk.
Qed.

Lemma row_repr_co N q B row : below B row -> length row = N -> row_repr N q B row (co row).
Proof. intros H Hl. split; [exact Hl|]. intros k Hk. split; [apply below_nth; [exact H|lia]|reflexivity]. Qed.

Lemma row_repr_canon_unique N q row row' X : 0 < q -> row_repr N q q row X -> row_repr N q q row' X -> row = row'.
Proof.
  intros Hq [L1 H1] [L2 H2]. apply (list_ext _ _ 0); [congruence|]. intros k Hk. rewrite L1 in Hk.
  destruct (H1 k Hk) as [B1 E1], (H2 k Hk) as [B2 E2].
  rewrite <- (Z.mod_small _ _ B1), <- (Z.mod_small _ _ B2). transitivity (X k mod q); [exact E1|symmetry; exact E2].
Qed.

Lemma row_repr_nth N q row X k : 0 < q -> row_repr N q q row X -> (k < N)%nat -> nth k row 0 = X k mod q.
Proof. intros Hq [_ H] Hk. destruct (H k Hk) as [B E]. rewrite <- (Z.mod_small _ _ B). exact E. Qed.

Lemma nth_map_lt (f : Z -> Z) l k : (k < length l)%nat -> nth k (map f l) 0 = f (nth k l 0).
Proof. intros. rewrite (nth_indep _ 0 (f 0)) by (rewrite map_length; lia). apply map_nth. Qed.

Lemma row_map N q B B' f row X Y :
  (forall k x, (k < N)%nat -> 0 <= x < B -> eqm q x (X k) -> 0 <= f x < B' /\ eqm q (f x) (Y k)) ->
  row_repr N q B row X -> row_repr N q B' (map f row) Y.
Proof.
  intros Hf [Hl H]. split; [rewrite map_length; exact Hl|]. intros k Hk.
  destruct (H k Hk) as [? ?]. rewrite (nth_indep _ 0 (f 0)) by (rewrite map_length; lia). rewrite map_nth.
  apply Hf; assumption.
Qed.

Lemma row_map2 N q B1 B2 B' f r1 r2 X Y Z' :
  (forall k x y, (k < N)%nat -> 0 <= x < B1 -> 0 <= y < B2 -> eqm q x (X k) -> eqm q y (Y k) ->
     0 <= f x y < B' /\ eqm q (f x y) (Z' k)) ->
  row_repr N q B1 r1 X -> row_repr N q B2 r2 Y -> row_repr N q B' (map2 f r1 r2) Z'.
Proof.
  intros Hf [L1 H1] [L2 H2]. split; [rewrite map2_length; lia|]. intros k Hk.
  destruct (H1 k Hk), (H2 k Hk). rewrite (nth_map2 _ _ _ _ _ 0 0) by lia. apply Hf; assumption.
Qed.

Lemma map3_length f x y z : length (map3 f x y z) = Nat.min (Nat.min (length x) (length y)) (length z).
Proof. unfold map3. rewrite map2_length, combine_length. reflexivity. Qed.
Lemma nth_map3 f x y z k : (k < length x)%nat -> (k < length y)%nat -> (k < length z)%nat ->
  nth k (map3 f x y z) 0 = f (nth k x 0) (nth k y 0) (nth k z 0).
Proof.
  intros. unfold map3. rewrite (nth_map2 _ _ _ _ _ (0, 0) 0) by (rewrite ?combine_length; lia).
  revert y z k H H0 H1. induction x as [|a x IH]; intros [|b y] z k H H0 H1; cbn in H, H0; try lia.
  destruct k; [reflexivity|]. cbn. destruct z as [|c z]; [cbn in H1; lia|]. cbn. apply (IH y z); cbn in H1; lia.
Qed.

Lemma row_map3 N q B1 B2 B3 B' f r1 r2 r3 X Y V Z' :
  (forall k x y z, (k < N)%nat -> 0 <= x < B1 -> 0 <= y < B2 -> 0 <= z < B3 ->
     eqm q x (X k) -> eqm q y (Y k) -> eqm q z (V k) ->
     0 <= f x y z < B' /\ eqm q (f x y z) (Z' k)) ->
  row_repr N q B1 r1 X -> row_repr N q B2 r2 Y -> row_repr N q B3 r3 V -> row_repr N q B' (map3 f r1 r2 r3) Z'.
Proof.
  intros Hf [L1 H1] [L2 H2] [L3 H3]. split; [rewrite map3_length; lia|]. intros k Hk.
  destruct (H1 k Hk), (H2 k Hk), (H3 k Hk). rewrite nth_map3 by lia. apply Hf; assumption.
Qed.

(** ** Transforms *)
Section Row.
  Variables (L : nat) (m : modp).
  Hypothesis HL : (2 <= L)%nat.
  Hypothesis Hwf : wf_modp L m.
  Let q := mq m.
  Let N := (2 ^ L)%nat.

  Lemma q_ge5 : 5 <= q. Proof. apply (wf_ge L m Hwf). Qed.
  Lemma q_odd : Z.odd q = true. Proof. apply (wf_odd L m Hwf). Qed.
  Lemma q_inv : eqm W (q * mqinv m) 1. Proof. apply (wf_inv L m Hwf). Qed.
  Lemma q_2W : 2 * q <= W. Proof. apply (wf_W L m Hwf). Qed.

  Lemma pt_rev i : pt m L i = psi_of m ^ (2 * rev_bits L (Z.of_nat i) + 1).
  Proof. unfold pt. rewrite bitrev_rev_bits. reflexivity. Qed.

  (** Every evaluation point is a root of X^N + 1. *)
  Lemma pt_root i : eqm q (pt m L i ^ Z.of_nat N) (-1).
  Proof.
    clear HL.
    rewrite pt_rev. unfold N. rewrite two_pow_nat, <- Z.pow_mul_r
      by (pose proof (rev_bits_range L (Z.of_nat i)); try lia; apply Z.pow_nonneg; lia).
    rewrite Z.mul_comm, Z.pow_mul_r by (pose proof (rev_bits_range L (Z.of_nat i)); try lia; apply Z.pow_nonneg; lia).
    rewrite (eqm_pow q _ (-1)) by apply (wf_psi L m Hwf).
    apply eqm_eq. rewrite Z.pow_add_r by (pose proof (rev_bits_range L (Z.of_nat i)); lia).
    rewrite Z.pow_mul_r by (pose proof (rev_bits_range L (Z.of_nat i)); lia).
    change ((-1) ^ 2) with 1. rewrite Z.pow_1_l by (pose proof (rev_bits_range L (Z.of_nat i)); lia). reflexivity.
  Qed.

  Lemma N_pos : (0 < N)%nat. Proof. clear q m HL Hwf. unfold N. pose proof (pow2n_pos L). lia. Qed.

  Lemma values_peq X Y : peq N q X Y -> forall i, eqm q (values m L X i) (values m L Y i).
  Proof. intros H i. unfold values. fold N. rewrite H. reflexivity. Qed.
  Lemma values_mul X Y i : eqm q (values m L (pmul N X Y) i) (values m L X i * values m L Y i).
  Proof. unfold values. apply peval_mul; [apply N_pos|apply pt_root]. Qed.
  Lemma values_add X Y i : values m L (padd X Y) i = values m L X i + values m L Y i.
  Proof. apply peval_add. Qed.
  Lemma values_sub X Y i : values m L (psub X Y) i = values m L X i - values m L Y i.
  Proof. apply peval_sub. Qed.
  Lemma values_opp X i : values m L (popp X) i = - values m L X i.
  Proof. apply peval_opp. Qed.
  Lemma values_scale c X i : values m L (pscale c X) i = c * values m L X i.
  Proof. apply peval_scale. Qed.

  Lemma nttlazy_row_repr B row X : 4 * q <= B -> B + 4 * q <= W ->
    row_repr N q B row X -> ntt_repr L m (B + 2 * q) (nttlazy_row N m row) X.
  Proof.
    intros HB4 HB HX. pose proof q_ge5. pose proof q_2W.
    destruct (ntt_rounds_spec q (mqinv m) (psi_of m) L (mpsi m) ltac:(lia) q_odd q_inv (wf_psi L m Hwf)
       (wf_tbl_len L m Hwf) (wf_tbl L m Hwf) B (co row) L O row) as (Hl & Hb & Hv); try assumption; try lia.
    - apply HX.
    - destruct L; [lia|]. apply (row_repr_below _ _ _ _ _ HX).
    - intros i j Hi Hj. assert (i = O) by (cbn in Hi; lia). subst i. rewrite Rsum_0. reflexivity.
    - unfold nttlazy_row, NTTLazy. unfold N. rewrite Nat.log2_pow2 by lia. cbn [Nat.pow] in *.
      fold q. split; [exact Hl|]. intros i Hi. split; [apply below_nth; [exact Hb|rewrite Hl; exact Hi]|].
      rewrite Hv by exact Hi. rewrite Rsum_final. unfold values. rewrite pt_rev.
      apply peval_peq; [|reflexivity]. intros k Hk. apply HX. exact Hk.
  Qed.

  Lemma ReduceVec_repr N' B row X : B <= W -> row_repr N' q B row X ->
    row_repr N' q q (ReduceVec row q (mbred m)) X.
  Proof.
    intros HB. apply row_map. intros k x Hk Hx E. rewrite (wf_bred L m Hwf).
    pose proof q_ge5. pose proof q_2W.
    fold q. rewrite BRedAdd_correct by (unfold W in *; lia).
    split; [apply Z.mod_pos_bound; lia|]. rewrite eqm_mod. exact E.
  Qed.

  Lemma ntt_row_repr B row X : B + 4 * q <= W -> 8 * q <= W ->
    row_repr N q B row X -> ntt_repr L m q (ntt_row N m row) X.
  Proof.
    intros HB H8 HX. pose proof q_ge5.
    assert (HX' : row_repr N q (Z.max B (4 * q)) row X) by (apply (row_repr_weaken _ _ B); [lia|exact HX]).
    apply nttlazy_row_repr in HX'; [|lia|lia].
    unfold ntt_row, NTT. apply (ReduceVec_repr _ (Z.max B (4 * q) + 2 * q)); [lia|exact HX'].
  Qed.

  Lemma pow2_cancel a b : eqm q (2 ^ Z.of_nat L * a) (2 ^ Z.of_nat L * b) -> eqm q a b.
  Proof.
    pose proof q_ge5. apply eqm_cancel; [lia|]. apply odd_gcd_pow2; [apply q_odd|lia].
  Qed.

  Lemma invcore_spec row : 6 * q <= W -> length row = N -> below (2 * q) row ->
    length (invNTTCore row N (mpsiInv m) q (mqinv m)) = N /\
    below (2 * q) (invNTTCore row N (mpsiInv m) q (mqinv m)).
  Proof.
    intros H6 Hl Hb. pose proof q_ge5. unfold invNTTCore, N. rewrite Nat.log2_pow2 by lia.
    apply (inv_rounds_below q (mqinv m) (psi_of m) (psiInv_of m) L (mpsiInv m)) with (k := O);
      try assumption; try lia; [apply q_odd|apply q_inv|apply (wf_tblInv_len L m Hwf)|apply (wf_tblInv L m Hwf)].
  Qed.

  (** The last scaling: multiplied by N it gives the core's output. *)
  Lemma ninv_scale x : 6 * q <= W -> 0 <= x < 2 * q ->
    0 <= MRed x (mninv m) q (mqinv m) < q /\ eqm q (2 ^ Z.of_nat L * MRed x (mninv m) q (mqinv m)) x /\
    0 <= MRedConstant x (mninv m) q (mqinv m) < 2 * q /\ eqm q (2 ^ Z.of_nat L * MRedConstant x (mninv m) q (mqinv m)) x.
  Proof.
    intros H6 Hx. pose proof q_ge5 as G. pose proof (wf_ninv_range L m Hwf) as Hn. fold q in Hn.
    pose proof (wf_ninv L m Hwf) as En. fold q in En.
    assert (Hp : x * mninv m < q * W) by nia.
    assert (C : forall v, eqm q (v * W) (x * mninv m) -> eqm q (2 ^ Z.of_nat L * v) x).
    { intros v Ev. apply odd_cancel_W; [lia|apply q_odd|].
      transitivity (2 ^ Z.of_nat L * (v * W)); [apply eqm_eq; ring|]. rewrite Ev.
      transitivity (x * (mninv m * 2 ^ Z.of_nat L)); [apply eqm_eq; ring|]. rewrite En. reflexivity. }
    split; [apply MRed_range; try lia; apply q_inv|].
    split; [apply C, MRed_eqm; try lia; apply q_inv|].
    split; [pose proof (MRedConstant_range x (mninv m) q (mqinv m) ltac:(lia) ltac:(lia) q_inv ltac:(lia) ltac:(lia) Hp); lia|].
    apply C, MRedConstant_eqm; try lia; apply q_inv.
  Qed.

  Lemma inv_value row X : 6 * q <= W -> ntt_repr L m (2 * q) row X ->
    forall k, (k < N)%nat ->
    0 <= nth k (invNTTCore row N (mpsiInv m) q (mqinv m)) 0 < 2 * q /\
    eqm q (nth k (invNTTCore row N (mpsiInv m) q (mqinv m)) 0) (2 ^ Z.of_nat L * X k).
  Proof.
    intros H6 HX k Hk. pose proof q_ge5.
    assert (Hb := row_repr_below _ _ _ _ _ HX). assert (Hl := row_repr_length _ _ _ _ _ HX).
    fold N in Hl. destruct (invcore_spec row H6 Hl Hb) as [Cl Cb].
    split; [apply below_nth; [exact Cb|lia]|].
    unfold invNTTCore. unfold N at 1. rewrite Nat.log2_pow2 by lia.
    change 1%nat with (2 ^ 0)%nat.
    rewrite (inv_rounds_value q (mqinv m) (psi_of m) (psiInv_of m) L (mpsiInv m)) with (f := X) (c := 1);
      try assumption; try lia; try (apply q_odd); try (apply q_inv).
    - apply eqm_eq. ring.
    - apply (wf_psi L m Hwf).
    - apply (wf_psiInv L m Hwf).
    - apply (wf_tblInv_len L m Hwf).
    - apply (wf_tblInv L m Hwf).
    - intros i j Hi Hj. assert (j = O) by (cbn in Hj; lia). subst j.
      replace (i * 2 ^ 0 + 0)%nat with i by (cbn [Nat.pow]; lia).
      destruct (proj2 HX i Hi) as [_ E]. rewrite E, Rsum_final. unfold values. rewrite pt_rev. apply eqm_eq. ring.
  Qed.

  Lemma invntt_row_repr row X : 6 * q <= W -> ntt_repr L m (2 * q) row X ->
    row_repr N q q (invntt_row N m row) X.
  Proof.
    intros H6 HX. unfold invntt_row, InvNTT, MulScalarMontgomeryVec. fold q.
    pose proof (inv_value row X H6 HX) as V.
    assert (Hb := row_repr_below _ _ _ _ _ HX). assert (Hl := row_repr_length _ _ _ _ _ HX).
    destruct (invcore_spec row H6 Hl Hb) as [Cl Cb].
    apply (row_map _ _ (2 * q) _ _ _ (fun k => 2 ^ Z.of_nat L * X k)).
    - intros k x Hk Hx E. destruct (ninv_scale x H6 Hx) as (R & S & _).
      split; [exact R|]. apply pow2_cancel. rewrite S. exact E.
    - split; [exact Cl|exact V].
  Qed.

  Lemma invnttlazy_row_repr row X : 6 * q <= W -> ntt_repr L m (2 * q) row X ->
    row_repr N q (2 * q) (invnttlazy_row N m row) X.
  Proof.
    intros H6 HX. unfold invnttlazy_row, InvNTTLazy, MulScalarMontgomeryConstantVec. fold q.
    pose proof (inv_value row X H6 HX) as V.
    assert (Hb := row_repr_below _ _ _ _ _ HX). assert (Hl := row_repr_length _ _ _ _ _ HX).
    destruct (invcore_spec row H6 Hl Hb) as [Cl Cb].
    apply (row_map _ _ (2 * q) _ _ _ (fun k => 2 ^ Z.of_nat L * X k)).
    - intros k x Hk Hx E. destruct (ninv_scale x H6 Hx) as (_ & _ & R & S).
      split; [exact R|]. apply pow2_cancel. rewrite S. exact E.
    - split; [exact Cl|exact V].
  Qed.

  (** Every row in range is the transform of the polynomial the inverse transform gives. *)
  Lemma ntt_repr_exists row : 6 * q <= W -> length row = N -> below (2 * q) row ->
    ntt_repr L m (2 * q) row (co (invntt_row N m row)).
  Proof.
    intros H6 Hl Hb. pose proof q_ge5.
    split; [exact Hl|]. intros i Hi. split; [apply below_nth; [exact Hb|fold N in Hi; lia]|].
    destruct (invcore_spec row H6 Hl Hb) as [Cl Cb].
    set (core := invNTTCore row N (mpsiInv m) q (mqinv m)) in *.
    assert (O1 := inv_rounds_onto q (mqinv m) (psi_of m) (psiInv_of m) L (mpsiInv m)
       ltac:(lia) H6 q_odd q_inv (wf_psi L m Hwf) (wf_psiInv L m Hwf) (wf_tblInv_len L m Hwf) (wf_tblInv L m Hwf)
       (co core) L O row ltac:(lia) Hl Hb).
    assert (O2 : forall j, (j < 2 ^ L)%nat ->
      eqm q (nth j (inv_rounds L (2 ^ 0) (mpsiInv m) q (mqinv m) row) 0) (co core j)).
    { intros j Hj. unfold co, core, invNTTCore, N. rewrite Nat.log2_pow2 by lia. reflexivity. }
    specialize (O1 O2 i O Hi ltac:(cbn; lia)).
    replace (i * 2 ^ 0 + 0)%nat with i in O1 by (cbn [Nat.pow]; lia).
    apply pow2_cancel. rewrite <- O1. rewrite Rsum_final. unfold values. rewrite <- pt_rev.
    rewrite <- peval_scale. apply peval_peq; [|reflexivity].
    intros k Hk. unfold co, pscale. unfold invntt_row, InvNTT, MulScalarMontgomeryVec. fold q. fold core.
    rewrite nth_map_lt by (fold N in Hk; lia).
    symmetry. apply ninv_scale; [exact H6|]. apply below_nth; [exact Cb|fold N in Hk; lia].
  Qed.
End Row.
