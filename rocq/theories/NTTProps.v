(** The statements of the transform properties, proved. *)
From Verif Require Import Word ModRed Arith ModRedProofs PolySpec PolyProofs Ring RingProofs NTT NTTProofs RingOps RNSSpec RowProofs OpsProofs.

Lemma words_row r level B p i : words r level B p -> (i <= level)%nat ->
  row_repr (rN r) (mq (rmod r i)) (B (mq (rmod r i))) (nth i p []) (co (nth i p [])).
Proof.
  intros (H1 & H2) Hi. destruct (H2 i Hi) as [Hl Hb]. split; [exact Hl|].
  intros k Hk. split; [apply Hb; exact Hk|reflexivity].
Qed.

Lemma C06_ntt_is_evaluation_lemma : forall r, built_ring 8 r ->
  exists (L : nat) (psi : nat -> Z),
    rN r = (2 ^ L)%nat /\
    (forall i, (i < length (rmods r))%nat -> eqm (mq (rmod r i)) (psi i ^ Z.of_nat (rN r)) (-1)) /\
    forall level p1 p2 B, (level < length (rmods r))%nat -> words r level B p1 ->
      (forall i, (i <= level)%nat -> B (mq (rmod r i)) + 4 * mq (rmod r i) <= W) ->
      forall i k, (i <= level)%nat -> (k < rN r)%nat ->
        coeff (NTTLvl r level p1 p2) i k =
          peval (rN r) (co (nth i p1 [])) (psi i ^ (2 * Z.of_nat (bitrev L k) + 1)) mod mq (rmod r i).
Proof.
  intros r Hr. destruct (built_ring_wf 8 r ltac:(lia) Hr) as (L & Hw & H8).
  exists L, (fun i => psi_of (rmod r i)).
  assert (EN := wfr_N _ _ _ Hw). assert (HL := wfr_logN _ _ _ Hw).
  split; [exact EN|]. split.
  - intros i Hi. rewrite EN, two_pow_nat. apply (wf_psi L). apply (wf_ring_mod _ _ _ _ Hw). exact Hi.
  - intros level p1 p2 B Hlev Hp HB i k Hi Hk.
    assert (Hwf := wf_ring_mod _ _ _ i Hw ltac:(lia)).
    assert (R := words_row _ _ _ _ i Hp Hi). rewrite EN in R.
    apply (ntt_row_repr L (rmod r i) ltac:(lia) Hwf) in R; [|apply HB; exact Hi|apply H8; lia].
    unfold coeff, NTTLvl, prow. rewrite lvl_nth_lt by lia. rewrite ?EN in *.
    rewrite (row_repr_nth _ (mq (rmod r i)) _ _ k ltac:(pose proof (wf_ge _ _ Hwf); lia) R Hk). reflexivity.
Qed.

Lemma C07_inv_ntt_lemma : forall r, built_ring 8 r -> forall level p1 p2 p3 B,
  (level < length (rmods r))%nat -> words r level B p1 ->
  (forall i, (i <= level)%nat -> B (mq (rmod r i)) + 4 * mq (rmod r i) <= W) ->
  forall i k, (i <= level)%nat -> (k < rN r)%nat ->
    coeff (InvNTTLvl r level (NTTLvl r level p1 p2) p3) i k = coeff p1 i k mod mq (rmod r i) /\
    (0 <= coeff (InvNTTLazyLvl r level (NTTLvl r level p1 p2) p3) i k < 2 * mq (rmod r i) /\
     eqm (mq (rmod r i)) (coeff (InvNTTLazyLvl r level (NTTLvl r level p1 p2) p3) i k) (coeff p1 i k)) /\
    eqm (mq (rmod r i)) (coeff (NTTLazyLvl r level p1 p2) i k) (coeff (NTTLvl r level p1 p2) i k).
Proof.
  intros r Hr level p1 p2 p3 B Hlev Hp HB i k Hi Hk.
  destruct (built_ring_wf 8 r ltac:(lia) Hr) as (L & Hw & H8).
  assert (EN := wfr_N _ _ _ Hw). assert (HL := wfr_logN _ _ _ Hw).
  assert (Hwf := wf_ring_mod _ _ _ i Hw ltac:(lia)).
  assert (G := wf_ge _ _ Hwf). specialize (H8 i ltac:(lia)). specialize (HB i Hi).
  assert (R := words_row _ _ _ _ i Hp Hi). rewrite EN in R.
  assert (R' : row_repr (2 ^ L) (mq (rmod r i)) (Z.max (4 * mq (rmod r i)) (B (mq (rmod r i)))) (nth i p1 []) (co (nth i p1 [])))
    by (apply (row_repr_weaken _ _ _ _ _ _ (Z.le_max_r _ _)); exact R).
  apply (nttlazy_row_repr L (rmod r i) ltac:(lia) Hwf) in R'; [|lia|lia].
  apply (ntt_row_repr L (rmod r i) ltac:(lia) Hwf) in R; [|lia|lia].
  assert (R2 : ntt_repr L (rmod r i) (2 * mq (rmod r i)) (ntt_row (2 ^ L) (rmod r i) (nth i p1 [])) (co (nth i p1 []))).
  { apply (row_repr_weaken _ _ (mq (rmod r i))); [lia|exact R]. }
  assert (I1 := invntt_row_repr L (rmod r i) ltac:(lia) Hwf _ _ ltac:(lia) R2).
  assert (I2 := invnttlazy_row_repr L (rmod r i) ltac:(lia) Hwf _ _ ltac:(lia) R2).
  unfold coeff, InvNTTLvl, InvNTTLazyLvl, NTTLvl, NTTLazyLvl, prow. rewrite !lvl_nth_lt by lia. rewrite EN in *.
  split; [|split].
  - apply (row_repr_nth _ (mq (rmod r i)) _ _ k ltac:(lia) I1 Hk).
  - destruct (proj2 I2 k Hk). split; assumption.
  - destruct (proj2 R k Hk) as [_ E1]. destruct (proj2 R' k Hk) as [_ E2]. rewrite E2. symmetry. exact E1.
Qed.

Lemma C07_ntt_inv_lemma : forall r, built_ring 8 r -> forall level p1 p2 p3,
  (level < length (rmods r))%nat -> words r level (fun q => 2 * q) p1 ->
  forall i k, (i <= level)%nat -> (k < rN r)%nat ->
    coeff (NTTLvl r level (InvNTTLvl r level p1 p2) p3) i k = coeff p1 i k mod mq (rmod r i) /\
    coeff (NTTLvl r level (InvNTTLazyLvl r level p1 p2) p3) i k = coeff p1 i k mod mq (rmod r i).
Proof.
  intros r Hr level p1 p2 p3 Hlev Hp i k Hi Hk.
  destruct (built_ring_wf 8 r ltac:(lia) Hr) as (L & Hw & H8).
  assert (EN := wfr_N _ _ _ Hw). assert (HL := wfr_logN _ _ _ Hw).
  assert (Hwf := wf_ring_mod _ _ _ i Hw ltac:(lia)).
  assert (G := wf_ge _ _ Hwf). specialize (H8 i ltac:(lia)).
  assert (R := words_row _ _ _ _ i Hp Hi). rewrite EN in R.
  assert (X := ntt_repr_exists L (rmod r i) ltac:(lia) Hwf (nth i p1 []) ltac:(lia)
     (row_repr_length _ _ _ _ _ R) (row_repr_below _ _ _ _ _ R)).
  set (x := co (invntt_row (2 ^ L) (rmod r i) (nth i p1 []))) in *.
  assert (I1 := invntt_row_repr L (rmod r i) ltac:(lia) Hwf _ _ ltac:(lia) X).
  assert (I2 := invnttlazy_row_repr L (rmod r i) ltac:(lia) Hwf _ _ ltac:(lia) X).
  assert (F1 := ntt_row_repr L (rmod r i) ltac:(lia) Hwf (mq (rmod r i)) _ _ ltac:(lia) H8 I1).
  assert (F2 := ntt_row_repr L (rmod r i) ltac:(lia) Hwf (2 * mq (rmod r i)) _ _ ltac:(lia) H8 I2).
  unfold coeff, InvNTTLvl, InvNTTLazyLvl, NTTLvl, NTTLazyLvl, prow. rewrite !lvl_nth_lt by lia. rewrite EN in *.
  rewrite (row_repr_nth _ (mq (rmod r i)) _ _ k ltac:(lia) F1 Hk), (row_repr_nth _ (mq (rmod r i)) _ _ k ltac:(lia) F2 Hk).
  destruct (proj2 X k Hk) as [_ E]. split; symmetry; exact E.
Qed.

Lemma C08_product_lemma : forall r, built_ring 8 r -> forall level a b t1 t2 t3 t4 t5,
  (level < length (rmods r))%nat -> words r level canon a -> words r level canon b ->
  forall i k, (i <= level)%nat -> (k < rN r)%nat ->
    let A := NTTLvl r level a t1 in
    let B := MFormLvl r level (NTTLvl r level b t2) t3 in
    coeff (InvNTTLvl r level (MulCoeffsMontgomeryLvl r level A B t4) t5) i k =
      pmul (rN r) (co (nth i a [])) (co (nth i b [])) k mod mq (rmod r i).
Proof.
  intros r Hr level a b t1 t2 t3 t4 t5 Hlev Ha Hb i k Hi Hk. cbv zeta.
  destruct (built_ring_wf 8 r ltac:(lia) Hr) as (L & Hw & H8).
  assert (EN := wfr_N _ _ _ Hw). assert (HL := wfr_logN _ _ _ Hw).
  assert (Hwf := wf_ring_mod _ _ _ i Hw ltac:(lia)).
  assert (G := wf_ge _ _ Hwf). specialize (H8 i ltac:(lia)).
  assert (Ra := words_row _ _ _ _ i Ha Hi). assert (Rb := words_row _ _ _ _ i Hb Hi). rewrite EN in Ra, Rb.
  unfold canon in Ra, Rb.
  apply (ntt_row_repr L (rmod r i) ltac:(lia) Hwf) in Ra; [|lia|lia].
  apply (ntt_row_repr L (rmod r i) ltac:(lia) Hwf) in Rb; [|lia|lia].
  set (q := mq (rmod r i)) in *.
  assert (Rm : row_repr (2 ^ L) q q
     (map (fun x => MForm x q (mbred (rmod r i))) (ntt_row (2 ^ L) (rmod r i) (nth i b [])))
     (fun j => W * values (rmod r i) L (co (nth i b [])) j)).
  { eapply row_map; [|exact Rb]. intros j x Hj Hx E. fold q in Hx, E |- *.
    rewrite (wf_bred _ _ Hwf). fold q. rewrite MForm_correct by (fold q; lia).
    split; [apply Z.mod_pos_bound; lia|]. rewrite eqm_mod, E. apply eqm_eq. ring. }
  assert (Rp : ntt_repr L (rmod r i) (2 * q)
     (map2 (fun x y => MRed x y q (mqinv (rmod r i))) (ntt_row (2 ^ L) (rmod r i) (nth i a []))
        (map (fun x => MForm x q (mbred (rmod r i))) (ntt_row (2 ^ L) (rmod r i) (nth i b []))))
     (pmul (2 ^ L) (co (nth i a [])) (co (nth i b [])))).
  { eapply row_map2; [|exact Ra|exact Rm]. intros j x y Hj Hx Hy Ex Ey. fold q in Hx, Ex |- *.
    assert (Hxy : x * y < q * W) by nia.
    split; [pose proof (MRed_range x y q (mqinv (rmod r i)) ltac:(lia) ltac:(lia) (wf_inv _ _ Hwf) ltac:(lia) ltac:(lia) Hxy); lia|].
    apply odd_cancel_W; [lia|apply (wf_odd _ _ Hwf)|].
    rewrite (MRed_eqm x y q (mqinv (rmod r i)) ltac:(lia) ltac:(lia) (wf_inv _ _ Hwf) ltac:(lia) ltac:(lia) Hxy).
    rewrite (values_mul L (rmod r i) Hwf). fold q. rewrite Ex, Ey. apply eqm_eq. ring. }
  assert (I := invntt_row_repr L (rmod r i) ltac:(lia) Hwf _ _ ltac:(fold q; lia) Rp).
  unfold coeff, InvNTTLvl, MulCoeffsMontgomeryLvl, op2, MFormLvl, op1, NTTLvl, prow. rewrite !lvl_nth_lt by lia. rewrite EN in *.
  apply (row_repr_nth _ (mq (rmod r i)) _ _ k ltac:(lia) I Hk).
Qed.

Lemma C09_lazy_ranges_lemma : forall r, built_ring 8 r -> forall level p1 p2,
  (level < length (rmods r))%nat ->
  (words r level (fun q => 4 * q) p1 ->
   words r level (fun q => 6 * q) (NTTLazyLvl r level p1 p2)) /\
  (words r level (fun q => 2 * q) p1 ->
   words r level (fun q => 2 * q) (InvNTTLazyLvl r level p1 p2) /\
   words r level (fun q => q) (InvNTTLvl r level p1 p2)).
Proof.
  intros r Hr level p1 p2 Hlev.
  destruct (built_ring_wf 8 r ltac:(lia) Hr) as (L & Hw & H8).
  assert (EN := wfr_N _ _ _ Hw). assert (HL := wfr_logN _ _ _ Hw).
  split.
  - intros Hp. split; [unfold NTTLazyLvl; rewrite lvl_length; lia|]. intros i Hi.
    assert (Hwf := wf_ring_mod _ _ _ i Hw ltac:(lia)).
    assert (G := wf_ge _ _ Hwf). specialize (H8 i ltac:(lia)).
    assert (R := words_row _ _ _ _ i Hp Hi). rewrite EN in R.
    apply (nttlazy_row_repr L (rmod r i) ltac:(lia) Hwf) in R; [|lia|lia].
    unfold coeff, NTTLazyLvl, prow. rewrite lvl_nth_lt by lia. rewrite EN.
    split; [apply R|]. intros k Hk. pose proof (proj1 (proj2 R k Hk)). lia.
  - intros Hp.
    assert (P : forall i, (i <= level)%nat ->
      row_repr (2 ^ L) (mq (rmod r i)) (mq (rmod r i)) (invntt_row (2 ^ L) (rmod r i) (nth i p1 [])) (co (invntt_row (2 ^ L) (rmod r i) (nth i p1 []))) /\
      row_repr (2 ^ L) (mq (rmod r i)) (2 * mq (rmod r i)) (invnttlazy_row (2 ^ L) (rmod r i) (nth i p1 [])) (co (invntt_row (2 ^ L) (rmod r i) (nth i p1 [])))).
    { intros i Hi. assert (Hwf := wf_ring_mod _ _ _ i Hw ltac:(lia)).
      assert (G := wf_ge _ _ Hwf). specialize (H8 i ltac:(lia)).
      assert (R := words_row _ _ _ _ i Hp Hi). rewrite EN in R.
      assert (X := ntt_repr_exists L (rmod r i) ltac:(lia) Hwf (nth i p1 []) ltac:(lia)
        (row_repr_length _ _ _ _ _ R) (row_repr_below _ _ _ _ _ R)).
      split; [apply invntt_row_repr|apply invnttlazy_row_repr]; try assumption; try lia. }
    split; (split; [unfold InvNTTLvl, InvNTTLazyLvl; rewrite lvl_length; lia|]); intros i Hi;
      destruct (P i Hi) as [P1 P2]; unfold coeff, InvNTTLvl, InvNTTLazyLvl, prow; rewrite lvl_nth_lt by lia; rewrite EN.
    + split; [apply P2|]. intros k Hk. apply (proj2 P2 k Hk).
    + split; [apply P1|]. intros k Hk. apply (proj2 P1 k Hk).
Qed.
