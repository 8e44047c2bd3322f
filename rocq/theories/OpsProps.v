(** The statements of the coefficient-wise properties, proved. *)
From Verif Require Import Word ModRed Arith ModRedProofs PolySpec PolyProofs Ring RingProofs NTT NTTProofs RingOps RNSSpec RowProofs OpsProofs.

(** What the library's ring knows about one of its moduli. *)
Lemma built_mod c r i : 2 <= c -> built_ring c r -> (i < length (rmods r))%nat ->
  let m := rmod r i in
  5 <= mq m /\ c * mq m <= W /\ Z.odd (mq m) = true /\ mbred m = BRedParams (mq m) /\
  mqinv m = MRedParams (mq m) /\ eqm W (mq m * mqinv m) 1.
Proof.
  intros Hc Hr Hi. destruct (built_ring_wf c r Hc Hr) as (L & Hw & HB).
  assert (Hwf := wf_ring_mod _ _ _ i Hw Hi). cbv zeta.
  split; [apply (wf_ge _ _ Hwf)|]. split; [apply HB; exact Hi|].
  split; [apply (wf_odd _ _ Hwf)|]. split; [apply (wf_bred _ _ Hwf)|].
  split; [apply (wf_qinv _ _ Hwf)|apply (wf_inv _ _ Hwf)].
Qed.

(** ** Word-level facts about the operations on reduced words *)
Section WordOps.
  Variables (q qInv : Z).
  Hypothesis (Hq : 5 <= q) (H4 : 4 * q <= W) (Hinv : eqm W (q * qInv) 1).

  Lemma wadd_small x y : 0 <= x -> 0 <= y -> x + y < W -> wadd x y = x + y.
  Proof. clear. intros. unfold wadd. apply w64_small. lia. Qed.
  Lemma wsub_small x y : 0 <= x - y < W -> wsub x y = x - y.
  Proof. clear. intros. unfold wsub. apply w64_small. lia. Qed.

  Lemma add_word x y : 0 <= x < q -> 0 <= y < q -> CRed (wadd x y) q = (x + y) mod q.
  Proof. intros. rewrite wadd_small by lia. apply CRed_correct; lia. Qed.
  Lemma sub_word x y : 0 <= x < q -> 0 <= y < q -> CRed (wsub (wadd x q) y) q = (x - y) mod q.
  Proof.
    intros. rewrite wadd_small by lia. rewrite wsub_small by lia. rewrite CRed_correct by lia.
    replace (x + q - y) with (x - y + 1 * q) by ring. apply Z_mod_plus_full.
  Qed.
  Lemma mont_pre x y : 0 <= x < W -> 0 <= y < q -> x * y < q * W.
  Proof. clear Hinv H4. intros. assert (0 < W) by reflexivity. nia. Qed.

  Lemma MRed_word x y : 0 <= x < W -> 0 <= y < q ->
    0 <= MRed x y q qInv < q /\ eqm q (MRed x y q qInv * W) (x * y).
  Proof.
    intros Hx Hy. assert (P := mont_pre x y Hx Hy).
    split; [apply MRed_range|apply MRed_eqm]; try assumption; lia.
  Qed.
  Lemma MRedC_word x y : 0 <= x < W -> 0 <= y < q ->
    0 < MRedConstant x y q qInv < 2 * q /\ eqm q (MRedConstant x y q qInv * W) (x * y).
  Proof.
    intros Hx Hy. assert (P := mont_pre x y Hx Hy).
    split; [apply MRedConstant_range|apply MRedConstant_eqm]; try assumption; lia.
  Qed.
End WordOps.

Ltac opset :=
  unfold AddLvl, SubLvl, NegLvl, AddNoModLvl, SubNoModLvl, ReduceLvl, ReduceConstantLvl, ModLvl,
    MulCoeffsLvl, MulCoeffsAndAddLvl, MulCoeffsAndAddNoModLvl, MulCoeffsConstantLvl,
    MulCoeffsMontgomeryLvl, MulCoeffsMontgomeryConstantLvl, MulCoeffsMontgomeryConstantAndNegLvl,
    MulCoeffsMontgomeryAndAddLvl, MulCoeffsMontgomeryAndAddNoModLvl,
    MulCoeffsMontgomeryConstantAndAddNoModLvl, MulCoeffsMontgomeryAndSubLvl,
    MulCoeffsMontgomeryAndSubNoModLvl, MulCoeffsMontgomeryConstantAndSubNoModLvl,
    MulScalarLvl, MulScalarBigintLvl, MFormLvl, MFormConstantLvl, InvMFormLvl.

Section Pointwise.
  Variables (r : Ring) (level : nat).
  Hypothesis (Hr : built_ring 4 r) (Hlev : (level < length (rmods r))%nat).

  Ltac start i k :=
    intros i k Hi Hk;
    destruct (built_mod 4 r i ltac:(lia) Hr ltac:(lia)) as (Q5 & Q4 & Qo & Eb & Ei & Hinv);
    repeat match goal with
      | H : words r level _ ?p |- _ =>
          let l := fresh "Len" in let b := fresh "Rng" in
          destruct (proj2 H i Hi) as [l b]; specialize (b k Hk); unfold canon in b; clear H
      end;
    opset;
    repeat first [rewrite op1_coeff by lia | rewrite op2_coeff by lia | rewrite op3_coeff by lia];
    rewrite ?Eb; set (q := mq (rmod r i)) in *; set (qInv := mqinv (rmod r i)) in *;
    try change (fun q => q) with canon in *.

  Lemma linear_ops a b z : words r level canon a -> words r level canon b ->
    forall i k, (i <= level)%nat -> (k < rN r)%nat ->
    let q := mq (rmod r i) in
    coeff (AddLvl r level a b z) i k = (coeff a i k + coeff b i k) mod q /\
    coeff (SubLvl r level a b z) i k = (coeff a i k - coeff b i k) mod q /\
    coeff (AddNoModLvl r level a b z) i k = coeff a i k + coeff b i k /\
    coeff (SubNoModLvl r level a b z) i k = coeff a i k + q - coeff b i k /\
    coeff (NegLvl r level a z) i k = q - coeff a i k /\
    (coeff (NegLvl r level a z) i k) mod q = (- coeff a i k) mod q.
  Proof.
    intros Ha Hb. cbv zeta. start i k.
    split; [apply add_word; lia|]. split; [apply sub_word; lia|].
    split; [apply wadd_small; lia|].
    split; [rewrite wadd_small by lia; apply wsub_small; lia|].
    rewrite wsub_small by lia. split; [reflexivity|].
    replace (q - coeff a i k) with (- coeff a i k + 1 * q) by ring. apply Z_mod_plus_full.
  Qed.

  Lemma reduction_ops a z : words r level (fun _ => W) a ->
    forall i k, (i <= level)%nat -> (k < rN r)%nat ->
    let q := mq (rmod r i) in
    coeff (ReduceLvl r level a z) i k = coeff a i k mod q /\
    0 <= coeff (ReduceConstantLvl r level a z) i k < 2 * q /\
    coeff (ReduceConstantLvl r level a z) i k mod q = coeff a i k mod q /\
    coeff (MFormLvl r level a z) i k = (coeff a i k * W) mod q /\
    0 <= coeff (MFormConstantLvl r level a z) i k < 2 * q /\
    coeff (MFormConstantLvl r level a z) i k mod q = (coeff a i k * W) mod q /\
    0 <= coeff (InvMFormLvl r level a z) i k < q /\
    (coeff (InvMFormLvl r level a z) i k * W) mod q = coeff a i k mod q.
  Proof.
    intros Ha. cbv zeta. start i k. set (x := coeff a i k) in *.
    split; [apply BRedAdd_correct; lia|].
    destruct (BRedAddConstant_spec x q ltac:(lia) ltac:(lia) ltac:(lia)) as (s & E & R).
    split; [exact R|]. split; [rewrite E; replace (x - s * q) with (x + (- s) * q) by ring; apply Z_mod_plus_full|].
    split; [apply MForm_correct; lia|].
    destruct (MFormConstant_spec x q ltac:(lia) ltac:(lia) ltac:(lia)) as (s' & E' & R').
    split; [exact R'|]. split; [rewrite E'; replace (x * W - s' * q) with (x * W + (- s') * q) by ring; apply Z_mod_plus_full|].
    split; [apply InvMForm_range; try assumption; lia|apply InvMForm_eqm; try assumption; lia].
  Qed.

  Lemma mod_op a z n : words r level (fun _ => W) a -> 2 <= n -> 2 * n <= W ->
    forall i k, (i <= level)%nat -> (k < rN r)%nat ->
    coeff (ModLvl r n level a z) i k = coeff a i k mod n.
  Proof. intros Ha Hn Hn'. start i k. apply BRedAdd_correct; lia. Qed.

  Lemma barrett_ops a b z : words r level (fun _ => W) a -> words r level (fun _ => W) b -> words r level canon z ->
    forall i k, (i <= level)%nat -> (k < rN r)%nat ->
    let q := mq (rmod r i) in
    coeff (MulCoeffsLvl r level a b z) i k = (coeff a i k * coeff b i k) mod q /\
    coeff (MulCoeffsAndAddLvl r level a b z) i k = (coeff z i k + coeff a i k * coeff b i k) mod q /\
    coeff (MulCoeffsAndAddNoModLvl r level a b z) i k = coeff z i k + (coeff a i k * coeff b i k) mod q /\
    0 <= coeff (MulCoeffsConstantLvl r level a b z) i k < 2 * q /\
    coeff (MulCoeffsConstantLvl r level a b z) i k mod q = (coeff a i k * coeff b i k) mod q.
  Proof.
    intros Ha Hb Hz. cbv zeta. start i k. set (x := coeff a i k) in *. set (y := coeff b i k) in *. set (w := coeff z i k) in *.
    rewrite BRed_correct by lia. assert (M := Z.mod_pos_bound (x * y) q ltac:(lia)).
    split; [reflexivity|]. split; [rewrite add_word by lia; apply Zplus_mod_idemp_r|].
    split; [apply wadd_small; lia|].
    destruct (BRedConstant_spec x y q ltac:(lia) ltac:(lia) ltac:(lia) ltac:(lia)) as (s & E & R).
    split; [exact R|]. rewrite E. replace (x * y - s * q) with (x * y + (- s) * q) by ring. apply Z_mod_plus_full.
  Qed.

  Lemma montgomery_ops a b z : words r level (fun _ => W) a -> words r level canon b -> words r level canon z ->
    forall i k, (i <= level)%nat -> (k < rN r)%nat ->
    let q := mq (rmod r i) in let x := coeff a i k in let y := coeff b i k in let w := coeff z i k in
    (0 <= coeff (MulCoeffsMontgomeryLvl r level a b z) i k < q /\
     eqm q (coeff (MulCoeffsMontgomeryLvl r level a b z) i k * W) (x * y)) /\
    (0 <= coeff (MulCoeffsMontgomeryAndAddLvl r level a b z) i k < q /\
     eqm q (coeff (MulCoeffsMontgomeryAndAddLvl r level a b z) i k * W) (w * W + x * y)) /\
    (0 <= coeff (MulCoeffsMontgomeryAndSubLvl r level a b z) i k < q /\
     eqm q (coeff (MulCoeffsMontgomeryAndSubLvl r level a b z) i k * W) (w * W - x * y)) /\
    (w <= coeff (MulCoeffsMontgomeryAndAddNoModLvl r level a b z) i k < w + q /\
     eqm q (coeff (MulCoeffsMontgomeryAndAddNoModLvl r level a b z) i k * W) (w * W + x * y)) /\
    (w < coeff (MulCoeffsMontgomeryAndSubNoModLvl r level a b z) i k <= w + q /\
     eqm q (coeff (MulCoeffsMontgomeryAndSubNoModLvl r level a b z) i k * W) (w * W - x * y)) /\
    (0 <= coeff (MulCoeffsMontgomeryConstantLvl r level a b z) i k < 2 * q /\
     eqm q (coeff (MulCoeffsMontgomeryConstantLvl r level a b z) i k * W) (x * y)) /\
    (0 <= coeff (MulCoeffsMontgomeryConstantAndNegLvl r level a b z) i k < 2 * q /\
     eqm q (coeff (MulCoeffsMontgomeryConstantAndNegLvl r level a b z) i k * W) (- (x * y))) /\
    (w <= coeff (MulCoeffsMontgomeryConstantAndAddNoModLvl r level a b z) i k < w + 2 * q /\
     eqm q (coeff (MulCoeffsMontgomeryConstantAndAddNoModLvl r level a b z) i k * W) (w * W + x * y)) /\
    (w <= coeff (MulCoeffsMontgomeryConstantAndSubNoModLvl r level a b z) i k < w + 2 * q /\
     eqm q (coeff (MulCoeffsMontgomeryConstantAndSubNoModLvl r level a b z) i k * W) (w * W - x * y)).
  Proof.
    intros Ha Hb Hz. cbv zeta. start i k. set (x := coeff a i k) in *. set (y := coeff b i k) in *. set (w := coeff z i k) in *.
    destruct (MRed_word q qInv Q5 Q4 Hinv x y Rng1 Rng0) as [R E].
    destruct (MRedC_word q qInv Q5 Q4 Hinv x y Rng1 Rng0) as [R' E'].
    set (v := MRed x y q qInv) in *. set (v' := MRedConstant x y q qInv) in *.
    assert (Esh : wshl q 1 = 2 * q).
    { unfold wshl. change (2 ^ 1) with 2. rewrite w64_small by lia. ring. }
    clearbody v v' w x y. clear Hi Hk Len Len0 Len1.
    assert (P : forall u c, u = c \/ u = c + q \/ u = c + 2 * q -> eqm q u c).
    { intros u c [->|[->| ->]]; [reflexivity| |]; [apply (eqm_intro _ _ _ 1)|apply (eqm_intro _ _ _ 2)]; ring. }
    rewrite Esh.
    assert (Q : forall u c d, eqm q (d * W) c -> eqm q u d -> eqm q (u * W) c) by (intros u c d E1 E2; rewrite E2; exact E1).
    assert (Ep : eqm q ((w + v) * W) (w * W + x * y)) by (rewrite <- E; apply eqm_eq; ring).
    assert (Em : eqm q ((w - v) * W) (w * W - x * y)) by (rewrite <- E; apply eqm_eq; ring).
    assert (Ep' : eqm q ((w + v') * W) (w * W + x * y)) by (rewrite <- E'; apply eqm_eq; ring).
    assert (Em' : eqm q ((w - v') * W) (w * W - x * y)) by (rewrite <- E'; apply eqm_eq; ring).
    assert (En' : eqm q ((- v') * W) (- (x * y))) by (rewrite <- E'; apply eqm_eq; ring).
    rewrite (wsub_small q v) by lia. rewrite (wsub_small (2 * q) v') by lia.
    rewrite !wadd_small by lia. rewrite !CRed_correct by lia.
    split; [split; [exact R|exact E]|].
    split. { split; [apply Z.mod_pos_bound; lia|]. apply (Q _ _ (w + v) Ep). apply eqm_mod. }
    split. { split; [apply Z.mod_pos_bound; lia|]. apply (Q _ _ (w - v) Em). rewrite eqm_mod. apply P. right; left; ring. }
    split; [split; [lia|exact Ep]|].
    split. { split; [lia|]. apply (Q _ _ (w - v) Em). apply P. right; left; ring. }
    split; [split; [lia|exact E']|].
    split. { split; [lia|]. apply (Q _ _ (- v') En'). apply P. right; right; ring. }
    split; [split; [lia|exact Ep']|].
    split; [lia|]. apply (Q _ _ (w - v') Em'). apply P. right; right; ring.
  Qed.

  Lemma scalar_mul_ops a z s : words r level (fun _ => W) a ->
    forall i k, (i <= level)%nat -> (k < rN r)%nat ->
    let q := mq (rmod r i) in
    (0 <= s < W -> coeff (MulScalarLvl r s level a z) i k = (coeff a i k * s) mod q) /\
    coeff (MulScalarBigintLvl r s level a z) i k = (coeff a i k * s) mod q.
  Proof.
    intros Ha. cbv zeta. start i k. set (x := coeff a i k) in *.
    assert (G : forall s, 0 <= s < W -> MRed x (MForm (BRedAdd s q (BRedParams q)) q (BRedParams q)) q qInv = (x * s) mod q).
    { intros u Hu. rewrite BRedAdd_correct by lia.
      assert (M := Z.mod_pos_bound u q ltac:(lia)). rewrite MForm_correct by lia.
      set (y := (u mod q * W) mod q). assert (Hy : 0 <= y < q) by (apply Z.mod_pos_bound; lia).
      destruct (MRed_word q qInv Q5 Q4 Hinv x y Rng Hy) as [R E].
      apply eqm_mod_eq; [exact R|]. apply odd_cancel_W; [lia|exact Qo|].
      rewrite E. unfold y. rewrite eqm_mod, eqm_mod. apply eqm_eq. ring. }
    split; [exact (G s)|]. rewrite G by (pose proof (Z.mod_pos_bound s q); lia).
    apply Zmult_mod_idemp_r.
  Qed.
End Pointwise.

(** ** Frame: rows above the level and the length of the destination. *)
Lemma lvl_kept level f out : kept level out (lvl (S level) f out).
Proof. split; [apply lvl_length|]. intros i Hi. apply lvl_nth_ge. lia. Qed.
Lemma op1_kept r f level a z : kept level z (op1 r f level a z).
Proof. apply lvl_kept. Qed.
Lemma op2_kept r f level a b z : kept level z (op2 r f level a b z).
Proof. apply lvl_kept. Qed.
Lemma op3_kept r f level a b z : kept level z (op3 r f level a b z).
Proof. apply lvl_kept. Qed.

Lemma frame_ops r level a b z (f : rows) :
  In f [AddLvl r level a b z; SubLvl r level a b z; AddNoModLvl r level a b z; SubNoModLvl r level a b z;
        NegLvl r level a z; ReduceLvl r level a z; ReduceConstantLvl r level a z;
        MulCoeffsLvl r level a b z; MulCoeffsAndAddLvl r level a b z;
        MulCoeffsAndAddNoModLvl r level a b z; MulCoeffsConstantLvl r level a b z;
        MulCoeffsMontgomeryLvl r level a b z; MulCoeffsMontgomeryConstantLvl r level a b z;
        MulCoeffsMontgomeryConstantAndNegLvl r level a b z; MulCoeffsMontgomeryAndAddLvl r level a b z;
        MulCoeffsMontgomeryAndAddNoModLvl r level a b z; MulCoeffsMontgomeryConstantAndAddNoModLvl r level a b z;
        MulCoeffsMontgomeryAndSubLvl r level a b z; MulCoeffsMontgomeryAndSubNoModLvl r level a b z;
        MulCoeffsMontgomeryConstantAndSubNoModLvl r level a b z; MFormLvl r level a z;
        MFormConstantLvl r level a z; InvMFormLvl r level a z;
        NTTLvl r level a z; NTTLazyLvl r level a z; InvNTTLvl r level a z; InvNTTLazyLvl r level a z] ->
  kept level z f.
Proof.
  cbn [In]. intros H.
  repeat (destruct H as [<- |H]; [opset; first [apply op1_kept|apply op2_kept|apply op3_kept|apply lvl_kept]|]).
  destruct H.
Qed.

(** ** C43 *)
Lemma scalar_add_ops r level a z s : built_ring 4 r -> (level < length (rmods r))%nat -> words r level canon a ->
  let '(a1, z1) := AddScalarBigintLvl r level a s z in
  let '(a2, z2) := SubScalarBigintLvl r level a s z in
  z1 = z /\ z2 = z /\
  forall i k, (i <= level)%nat -> (k < rN r)%nat ->
    coeff a1 i k = (coeff a i k + s) mod mq (rmod r i) /\
    coeff a2 i k = (coeff a i k - s) mod mq (rmod r i).
Proof.
  intros Hr Hlev Ha. cbn [AddScalarBigintLvl SubScalarBigintLvl]. unfold AddScalarBigintLvl, SubScalarBigintLvl.
  split; [reflexivity|]. split; [reflexivity|]. intros i k Hi Hk.
  destruct (built_mod 4 r i ltac:(lia) Hr ltac:(lia)) as (Q5 & Q4 & _).
  destruct (proj2 Ha i Hi) as [Len Rng]. specialize (Rng k Hk). unfold canon in Rng.
  rewrite !op1_coeff by lia. set (q := mq (rmod r i)) in *.
  assert (M := Z.mod_pos_bound s q ltac:(lia)).
  split; [rewrite add_word by lia; apply Zplus_mod_idemp_r|rewrite sub_word by lia; apply Zminus_mod_idemp_r].
Qed.

Lemma scalar_add_ops_word r level a z s : built_ring 4 r -> (level < length (rmods r))%nat -> words r level canon a ->
  (forall i, (i <= level)%nat -> 0 <= s < mq (rmod r i)) ->
  let '(a1, z1) := AddScalarLvl r level a s z in
  let '(a2, z2) := SubScalarLvl r level a s z in
  z1 = z /\ z2 = z /\
  forall i k, (i <= level)%nat -> (k < rN r)%nat ->
    coeff a1 i k = (coeff a i k + s) mod mq (rmod r i) /\
    coeff a2 i k = (coeff a i k - s) mod mq (rmod r i).
Proof.
  intros Hr Hlev Ha Hs. unfold AddScalarLvl, SubScalarLvl.
  split; [reflexivity|]. split; [reflexivity|]. intros i k Hi Hk. specialize (Hs i Hi).
  destruct (built_mod 4 r i ltac:(lia) Hr ltac:(lia)) as (Q5 & Q4 & _).
  destruct (proj2 Ha i Hi) as [Len Rng]. specialize (Rng k Hk). unfold canon in Rng.
  rewrite !op1_coeff by lia. set (q := mq (rmod r i)) in *.
  split; [apply add_word; lia|apply sub_word; lia].
Qed.

(** ** MulByPow2 *)
Lemma pow2_ops r level a z n : built_ring 4 r -> (level < length (rmods r))%nat -> words r level canon a ->
  0 <= n <= 64 ->
  forall i k, (i <= level)%nat -> (k < rN r)%nat ->
    coeff (MulByPow2Lvl_inplace r n level a) i k = (coeff a i k * 2 ^ n) mod mq (rmod r i) /\
    0 <= coeff (MulByPow2Lvl r n level a z) i k < mq (rmod r i) /\
    eqm (mq (rmod r i)) (coeff (MulByPow2Lvl r n level a z) i k * W) (coeff a i k * 2 ^ n).
Proof.
  intros Hr Hlev Ha Hn i k Hi Hk.
  destruct (built_mod 4 r i ltac:(lia) Hr ltac:(lia)) as (Q5 & Q4 & Qo & Eb & Ei & Hinv).
  destruct (proj2 Ha i Hi) as [Len Rng]. specialize (Rng k Hk). unfold canon in Rng.
  unfold MulByPow2Lvl_inplace, MulByPow2Lvl. cbv zeta.
  rewrite op1_coeff by (try lia; unfold MFormLvl; rewrite op1_length; lia).
  rewrite op1_coeff by lia. unfold MFormLvl. rewrite op1_coeff by lia.
  rewrite Eb, MForm_correct by lia. set (q := mq (rmod r i)) in *.
  set (y := (coeff a i k * W) mod q). assert (Hy : 0 <= y < q) by (apply Z.mod_pos_bound; lia).
  assert (P : 1 <= 2 ^ n) by (pose proof (Z.pow_pos_nonneg 2 n); lia).
  assert (Hp : forall x, 0 <= x < q -> 0 <= PowerOf2 x n q (mqinv (rmod r i)) < q /\
     eqm q (PowerOf2 x n q (mqinv (rmod r i)) * W) (x * 2 ^ n)).
  { intros x Hx. apply PowerOf2_correct; try assumption; try lia.
    assert (P' : 2 ^ n <= W) by (change W with (2 ^ 64); apply Z.pow_le_mono_r; lia).
    assert (0 < W) by reflexivity. clear -Hx P P'. nia. }
  destruct (Hp y Hy) as [R E]. destruct (Hp _ Rng) as [R' E'].
  split; [|split; assumption].
  apply eqm_mod_eq; [exact R|]. apply odd_cancel_W; [lia|exact Qo|].
  rewrite E. unfold y. rewrite eqm_mod. apply eqm_eq. ring.
Qed.

(** ** C45 *)
Lemma pmono_mul N m a k : (0 < N)%nat -> (k < N)%nat -> pmul N (pmono N m) a k = Tn N m a k.
Proof.
  intros HN Hk.
  assert (E : peq N 0 (pmono N m) (Tn N m pone)).
  { apply peq_exact. intros j Hj. apply pmono_Tn; assumption. }
  assert (E2 : peq N 0 (pmul N (pmono N m) a) (Tn N m a)).
  { rewrite E, pmul_comm, <- Tn_pmul. rewrite (pmul_1_r N 0 a). reflexivity. }
  apply eqm_0. apply E2. exact Hk.
Qed.

Lemma mono_row_spec q N s x : 5 <= q -> 4 * q <= W -> (0 < N)%nat -> (s < 2 * N)%nat ->
  length x = N -> (forall k, (k < N)%nat -> 0 <= nth k x 0 < q) ->
  length (mono_row q N s x) = N /\
  forall k, (k < N)%nat -> 0 <= nth k (mono_row q N s x) 0 <= q /\
    eqm q (nth k (mono_row q N s x) 0) (pmul N (pmono N s) (co x) k).
Proof.
  intros Hq H4 HN Hs Hl Hx. unfold mono_row. destruct (Nat.eqb_spec s 0) as [->|Hs0].
  - split; [exact Hl|]. intros k Hk. specialize (Hx k Hk). split; [lia|].
    rewrite pmono_mul by assumption. reflexivity.
  - set (f := fun c => wsub q c).
    set (tmpx := if Nat.ltb s N then x else map f x).
    assert (Lt : length tmpx = N) by (unfold tmpx; destruct (Nat.ltb_spec s N); rewrite ?map_length; exact Hl).
    set (s' := (s mod N)%nat). assert (Hs' : (s' < N)%nat) by (apply Nat.mod_upper_bound; lia).
    assert (Lf : length (map f (skipn (N - s') tmpx)) = s') by (rewrite map_length, skipn_length; lia).
    assert (Hf : forall c, 0 <= c <= q -> f c = q - c /\ 0 <= f c <= q).
    { intros c Hc. unfold f. rewrite wsub_small by lia. lia. }
    assert (Rt : forall k, (k < N)%nat -> 0 <= nth k tmpx 0 <= q /\
       eqm q (nth k tmpx 0) (Tn N (s - s') (co x) k)).
    { intros k Hk. specialize (Hx k Hk). unfold tmpx. destruct (Nat.ltb_spec s N) as [H|H].
      - assert (s' = s) by (apply Nat.mod_small; exact H). replace (s - s')%nat with O by lia.
        split; [lia|reflexivity].
      - assert (E : (s - s')%nat = N).
        { unfold s'. pose proof (Nat.div_mod s N ltac:(lia)). assert (s / N = 1)%nat by (symmetry; apply (Nat.div_unique s N 1 (s - N)); lia).
          lia. }
        rewrite E, Tn_N by assumption. rewrite nth_map_lt by lia. destruct (Hf (nth k x 0) ltac:(lia)) as [F1 F2].
        split; [exact F2|]. rewrite F1. unfold co. apply (eqm_intro _ _ _ 1). ring. }
    split; [rewrite app_length, Lf, firstn_length; lia|].
    intros k Hk. rewrite pmono_mul by assumption.
    assert (Hle : (s' <= s)%nat) by (apply Nat.mod_le; lia).
    replace (Tn N s (co x)) with (Tn N s' (Tn N (s - s') (co x))) by (rewrite <- Tn_add; f_equal; lia).
    rewrite Tn_formula by lia.
    destruct (Nat.leb_spec s' k) as [H|H].
    + rewrite app_nth2 by lia. rewrite Lf, nth_firstn by lia. apply Rt. lia.
    + rewrite app_nth1 by lia. rewrite nth_map_lt by (rewrite skipn_length; lia).
      rewrite nth_skipn. replace (N - s' + k)%nat with (N + k - s')%nat by lia.
      destruct (Rt (N + k - s')%nat ltac:(lia)) as [F1 F2]. destruct (Hf _ F1) as [G1 G2].
      split; [exact G2|]. rewrite G1, F2. apply (eqm_intro _ _ _ 1). ring.
Qed.

Lemma monomial_lemma r a z d : built_ring 4 r -> words r (length (rmods r) - 1) canon a -> 0 <= d ->
  exists b, MultByMonomial r a d z = Some b /\
  forall i k, (i < length (rmods r))%nat -> (k < rN r)%nat ->
    0 <= coeff b i k <= mq (rmod r i) /\
    eqm (mq (rmod r i)) (coeff b i k) (pmul (rN r) (pmono (rN r) (Z.to_nat d)) (co (nth i a [])) k).
Proof.
  intros Hr Ha Hd. unfold MultByMonomial.
  destruct (built_ring_wf 4 r ltac:(lia) Hr) as (L & Hw & _).
  assert (EN := wfr_N _ _ _ Hw).
  assert (HN : (0 < rN r)%nat) by (rewrite EN; apply pow2n_pos).
  rewrite Z.rem_mod_nonneg by lia.
  assert (M := Z.mod_pos_bound d (2 * Z.of_nat (rN r)) ltac:(lia)).
  destruct (Z.ltb_spec (d mod (2 * Z.of_nat (rN r))) 0); [lia|].
  eexists. split; [reflexivity|]. intros i k Hi Hk. unfold coeff. rewrite lvl_nth_lt by exact Hi.
  destruct (built_mod 4 r i ltac:(lia) Hr Hi) as (Q5 & Q4 & _).
  destruct (proj2 Ha i ltac:(lia)) as [Len Rng]. unfold canon, coeff in Rng.
  set (s := Z.to_nat (d mod (2 * Z.of_nat (rN r)))).
  destruct (mono_row_spec (mq (rmod r i)) (rN r) s (prow a i) Q5 Q4 HN ltac:(lia) Len Rng) as [_ G].
  destruct (G k Hk) as [G1 G2]. split; [exact G1|]. rewrite G2.
  rewrite !pmono_mul by assumption.
  assert (E : Z.to_nat d = (2 * rN r * (Z.to_nat d / (2 * rN r)) + s)%nat).
  { unfold s. rewrite Z2Nat.inj_mod by lia.
    replace (Z.to_nat (2 * Z.of_nat (rN r))) with (2 * rN r)%nat by lia.
    apply Nat.div_mod. lia. }
  rewrite E, Tn_add, Tn_2N by assumption. reflexivity.
Qed.

Lemma monomial_negative : forall r a z d, (0 < rN r)%nat -> d < 0 ->
  d mod (2 * Z.of_nat (rN r)) <> 0 -> MultByMonomial r a d z = None.
Proof.
  intros r a z d HN Hd Hm. unfold MultByMonomial.
  assert (R := Z.rem_opp_l d (2 * Z.of_nat (rN r)) ltac:(lia)).
  rewrite (Z.rem_mod_nonneg (- d)) in R by lia.
  pose proof (Z.mod_pos_bound (- d) (2 * Z.of_nat (rN r)) ltac:(lia)).
  assert (Z.rem d (2 * Z.of_nat (rN r)) <> 0).
  { intros E. apply Z.rem_divide in E; [|lia]. apply Z.mod_divide in E; [|lia]. contradiction. }
  destruct (Z.ltb_spec (Z.rem d (2 * Z.of_nat (rN r))) 0); [reflexivity|lia].
Qed.
