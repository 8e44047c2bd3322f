(** The conjugate-invariant rings: the statements of the properties, proved. *)
From Coq Require Import Znumtheory.
From Verif Require Import Word ModRed Arith ModRedProofs PolySpec PolyProofs Ring RingProofs NTT NTTProofs RingOps RNSSpec RowProofs OpsProofs
  Automorphism AutoProps NTTProps CI CISpec CIProofs.

Lemma custom_nth_root fuel N ms k r : NewRingWithCustomNTT fuel N ms k = inl r -> rNthRoot r = k.
Proof.
  unfold NewRingWithCustomNTT. intros E.
  destruct (_ || _); [discriminate|]. destruct (Nat.eqb _ _); [discriminate|].
  destruct (negb _); [discriminate|]. destruct (negb _); [discriminate|]. destruct (negb _); [discriminate|].
  destruct (sequence _); [|discriminate]. injection E as <-. reflexivity.
Qed.

Lemma built_ci_wf c r : 2 <= c -> built_ci c r ->
  exists L, wf_ring (S L) L r /\ rNthRoot r = 2 ^ Z.of_nat (S (S L)) /\
    forall i, (i < length (rmods r))%nat -> c * mq (rmod r i) <= W.
Proof.
  intros Hc (fuel & N & ms & E & HN & Hms).
  assert (H2 : forall q, In q ms -> 2 * q <= W).
  { intros q Hq. specialize (Hms q Hq). unfold W in *. nia. }
  destruct (NewRingWithCustomNTT_wf fuel N ms 2 r (or_intror eq_refl) HN H2 E) as (L & EN & Hw & Em).
  exists L. replace (L + 2 - 1)%nat with (S L) in Hw by lia. split; [exact Hw|]. split.
  - rewrite (custom_nth_root _ _ _ _ _ E), EN. rewrite !Nat2Z.inj_succ, !Z.pow_succ_r by lia. ring.
  - intros i Hi. apply Hms. rewrite <- Em. unfold moduli. apply in_map. apply nth_In. exact Hi.
Qed.

(** ** Transforms *)
Lemma ci_evaluation_lemma : forall r, built_ci 8 r ->
  exists (L : nat) (psi : nat -> Z),
    rN r = (2 ^ L)%nat /\
    (forall i, (i < length (rmods r))%nat -> eqm (mq (rmod r i)) (psi i ^ Z.of_nat (2 * rN r)) (-1)) /\
    forall level p1 p2 B, (level < length (rmods r))%nat -> words r level B p1 ->
      (forall i, (i <= level)%nat -> B (mq (rmod r i)) + 4 * mq (rmod r i) <= W) ->
      forall i k, (i <= level)%nat -> (k < rN r)%nat ->
        coeff (CIForwardLvl r level p1 p2) i k =
          peval (2 * rN r) (ci_poly (rN r) (co (nth i p1 []))) (psi i ^ (2 * Z.of_nat (bitrev (S L) k) + 1)) mod mq (rmod r i).
Proof.
  intros r Hr. destruct (built_ci_wf 8 r ltac:(lia) Hr) as (L & Hw & _ & H8).
  exists L, (fun i => psi_of (rmod r i)).
  assert (EN := wfr_N _ _ _ Hw). assert (HL := wfr_logN _ _ _ Hw).
  assert (E2 : (2 * rN r = 2 ^ S L)%nat) by (rewrite EN; cbn [Nat.pow]; lia).
  split; [exact EN|]. split.
  - intros i Hi. rewrite E2, two_pow_nat. apply (wf_psi (S L)). apply (wf_ring_mod _ _ _ _ Hw). exact Hi.
  - intros level p1 p2 B Hlev Hp HB i k Hi Hk.
    assert (Hwf := wf_ring_mod _ _ _ i Hw ltac:(lia)).
    assert (R := words_row _ _ _ _ i Hp Hi). rewrite EN in R.
    apply (ci_ntt_repr L (rmod r i) ltac:(lia) Hwf) in R; [|apply HB; exact Hi|apply H8; lia].
    rewrite E2. unfold coeff, CIForwardLvl, prow. rewrite lvl_nth_lt by lia. rewrite ?EN in *.
    rewrite (row_repr_nth _ (mq (rmod r i)) _ _ k ltac:(pose proof (wf_ge _ _ Hwf); lia) R Hk). reflexivity.
Qed.

Lemma ci_roundtrip_lemma : forall r, built_ci 8 r -> forall level p1 p2 p3 B,
  (level < length (rmods r))%nat -> words r level B p1 ->
  (forall i, (i <= level)%nat -> B (mq (rmod r i)) + 4 * mq (rmod r i) <= W) ->
  forall i k, (i <= level)%nat -> (k < rN r)%nat ->
    coeff (CIBackwardLvl r level (CIForwardLvl r level p1 p2) p3) i k = coeff p1 i k mod mq (rmod r i) /\
    (0 <= coeff (CIBackwardLazyLvl r level (CIForwardLvl r level p1 p2) p3) i k < 2 * mq (rmod r i) /\
     eqm (mq (rmod r i)) (coeff (CIBackwardLazyLvl r level (CIForwardLvl r level p1 p2) p3) i k) (coeff p1 i k)) /\
    eqm (mq (rmod r i)) (coeff (CIForwardLazyLvl r level p1 p2) i k) (coeff (CIForwardLvl r level p1 p2) i k).
Proof.
  intros r Hr level p1 p2 p3 B Hlev Hp HB i k Hi Hk.
  destruct (built_ci_wf 8 r ltac:(lia) Hr) as (L & Hw & _ & H8).
  assert (EN := wfr_N _ _ _ Hw). assert (HL := wfr_logN _ _ _ Hw).
  assert (Hwf := wf_ring_mod _ _ _ i Hw ltac:(lia)).
  assert (G := wf_ge _ _ Hwf). specialize (H8 i ltac:(lia)). specialize (HB i Hi).
  assert (R := words_row _ _ _ _ i Hp Hi). rewrite EN in R.
  assert (R' : row_repr (2 ^ L) (mq (rmod r i)) (Z.max (4 * mq (rmod r i)) (B (mq (rmod r i)))) (nth i p1 []) (co (nth i p1 [])))
    by (apply (row_repr_weaken _ _ _ _ _ _ (Z.le_max_r _ _)); exact R).
  apply (ci_lazy_repr L (rmod r i) ltac:(lia) Hwf) in R'; [|lia|lia].
  apply (ci_ntt_repr L (rmod r i) ltac:(lia) Hwf) in R; [|lia|lia].
  pose proof R as R2. apply (row_repr_weaken _ _ (mq (rmod r i)) (2 * mq (rmod r i))) in R2; [|lia].
  destruct (ci_inv_repr L (rmod r i) ltac:(lia) Hwf _ _ ltac:(lia) R2) as [I1 I2].
  unfold coeff, CIBackwardLvl, CIBackwardLazyLvl, CIForwardLvl, CIForwardLazyLvl, prow. rewrite !lvl_nth_lt by lia. rewrite EN in *.
  split; [|split].
  - apply (row_repr_nth _ (mq (rmod r i)) _ _ k ltac:(lia) I1 Hk).
  - destruct (proj2 I2 k Hk). split; assumption.
  - destruct (proj2 R k Hk) as [_ E1]. destruct (proj2 R' k Hk) as [_ E2]. rewrite E2. symmetry. exact E1.
Qed.

Lemma ci_roundtrip2_lemma : forall r, built_ci 8 r -> forall level p1 p2 p3,
  (level < length (rmods r))%nat -> words r level (fun q => 2 * q) p1 ->
  forall i k, (i <= level)%nat -> (k < rN r)%nat ->
    coeff (CIForwardLvl r level (CIBackwardLvl r level p1 p2) p3) i k = coeff p1 i k mod mq (rmod r i) /\
    coeff (CIForwardLvl r level (CIBackwardLazyLvl r level p1 p2) p3) i k = coeff p1 i k mod mq (rmod r i).
Proof.
  intros r Hr level p1 p2 p3 Hlev Hp i k Hi Hk.
  destruct (built_ci_wf 8 r ltac:(lia) Hr) as (L & Hw & _ & H8).
  assert (EN := wfr_N _ _ _ Hw). assert (HL := wfr_logN _ _ _ Hw).
  assert (Hwf := wf_ring_mod _ _ _ i Hw ltac:(lia)).
  assert (G := wf_ge _ _ Hwf). specialize (H8 i ltac:(lia)).
  assert (R := words_row _ _ _ _ i Hp Hi). rewrite EN in R.
  assert (X := ci_repr_exists L (rmod r i) ltac:(lia) Hwf (nth i p1 []) ltac:(lia)
     (row_repr_length _ _ _ _ _ R) (row_repr_below _ _ _ _ _ R)).
  set (x := co _) in X.
  destruct (ci_inv_repr L (rmod r i) ltac:(lia) Hwf _ _ ltac:(lia) X) as [I1 I2].
  assert (F1 := ci_ntt_repr L (rmod r i) ltac:(lia) Hwf (mq (rmod r i)) _ _ ltac:(lia) H8 I1).
  assert (F2 := ci_ntt_repr L (rmod r i) ltac:(lia) Hwf (2 * mq (rmod r i)) _ _ ltac:(lia) H8 I2).
  unfold coeff, CIBackwardLvl, CIBackwardLazyLvl, CIForwardLvl, CIForwardLazyLvl, prow. rewrite !lvl_nth_lt by lia. rewrite EN in *.
  rewrite (row_repr_nth _ (mq (rmod r i)) _ _ k ltac:(lia) F1 Hk), (row_repr_nth _ (mq (rmod r i)) _ _ k ltac:(lia) F2 Hk).
  destruct (proj2 X k Hk) as [_ E]. split; symmetry; exact E.
Qed.

(** ** Conjugation *)
(** X^-1 = X^(2M-1) in Z[X]/(X^M+1). *)
Lemma conj_at L u k : (k < 2 ^ L)%nat ->
  pauto (2 ^ L) (2 * 2 ^ L - 1) u k = if Nat.eqb k 0 then u O else - u (2 ^ L - k)%nat.
Proof.
  intros Hk. set (M := (2 ^ L)%nat) in *. assert (P : (0 < M)%nat) by apply pow2n_pos.
  assert (Ho : Nat.odd (2 * M - 1) = true).
  { apply Nat.odd_spec. exists (M - 1)%nat. lia. }
  destruct (Nat.eqb_spec k 0) as [->|Hk0].
  - assert (E := pauto_at L (2 * M - 1) u 0 Ho P). fold M in E. rewrite Nat.mul_0_r, Nat.mod_0_l, Nat.div_0_l in E by lia. exact E.
  - assert (E := pauto_at L (2 * M - 1) u (M - k)%nat Ho ltac:(fold M; lia)). fold M in E.
    assert (D : ((2 * M - 1) * (M - k) = (2 * (M - k - 1) + 1) * M + k)%nat) by nia.
    rewrite D in E. rewrite Nat.add_comm, Nat.mod_add, Nat.mod_small in E by lia.
    rewrite Nat.div_add, Nat.div_small in E by lia. cbn [Nat.add] in E.
    replace (Nat.even (2 * (M - k - 1) + 1)) with false in E; [exact E|].
    symmetry. rewrite Nat.add_comm, Nat.even_add_mul_2. reflexivity.
Qed.

Definition conj_inv (L : nat) (u : poly) : Prop := peq (2 ^ L) 0 (pauto (2 ^ L) (2 * 2 ^ L - 1) u) u.

Lemma ci_poly_conj L X : conj_inv (S L) (ci_poly (2 ^ L) X).
Proof.
  intros k Hk. apply eqm_0. rewrite conj_at by exact Hk. set (N := (2 ^ L)%nat). assert (P : (0 < N)%nat) by apply pow2n_pos.
  replace (2 ^ S L)%nat with (2 * N)%nat in * by (unfold N; cbn [Nat.pow]; lia). unfold ci_poly.
  destruct (Nat.eqb_spec k 0) as [->|Hk0]; [reflexivity|].
  destruct (Nat.ltb_spec (2 * N - k) N), (Nat.ltb_spec k N); try lia.
  - destruct (Nat.eqb_spec k N); [lia|]. reflexivity.
  - destruct (Nat.eqb_spec (2 * N - k) N); [lia|]. replace (2 * N - (2 * N - k))%nat with k by lia. lia.
  - destruct (Nat.eqb_spec (2 * N - k) N); [|lia]. destruct (Nat.eqb_spec k N); [|lia]. reflexivity.
Qed.

Lemma conj_ci_poly L u k : conj_inv (S L) u -> (k < 2 ^ S L)%nat -> ci_poly (2 ^ L) u k = u k.
Proof.
  intros Hu Hk. assert (E := Hu k Hk). apply (proj1 (eqm_0 _ _)) in E. rewrite conj_at in E by exact Hk.
  set (N := (2 ^ L)%nat) in *. assert (P : (0 < N)%nat) by apply pow2n_pos.
  replace (2 ^ S L)%nat with (2 * N)%nat in * by (unfold N; cbn [Nat.pow]; lia). unfold ci_poly.
  destruct (Nat.ltb_spec k N); [reflexivity|]. destruct (Nat.eqb_spec k 0); [lia|].
  destruct (Nat.eqb_spec k N) as [Ek|]; [|exact E]. subst k. replace (2 * N - N)%nat with N in E by lia. lia.
Qed.

Lemma conj_odd L : Nat.odd (2 * 2 ^ L - 1) = true.
Proof. pose proof (pow2n_pos L). apply Nat.odd_spec. exists (2 ^ L - 1)%nat. lia. Qed.

Lemma conj_mul L u v : conj_inv L u -> conj_inv L v -> conj_inv L (pmul (2 ^ L) u v).
Proof.
  intros Hu Hv. unfold conj_inv. rewrite pauto_mul; [|apply pow2n_pos|apply conj_odd]. unfold conj_inv in Hu, Hv. rewrite Hu, Hv. reflexivity.
Qed.

Lemma conj_auto L g u : Nat.odd g = true -> conj_inv L u -> conj_inv L (pauto (2 ^ L) g u).
Proof.
  intros Hg Hu. unfold conj_inv in *. rewrite pauto_comp; [|apply pow2n_pos|apply conj_odd].
  rewrite Nat.mul_comm, <- pauto_comp; [|apply pow2n_pos|exact Hg]. rewrite Hu. reflexivity.
Qed.

Lemma ci_closed_lemma L X Y k : (k < 2 ^ S L)%nat ->
  ci_poly (2 ^ L) (pmul (2 ^ S L) (ci_poly (2 ^ L) X) (ci_poly (2 ^ L) Y)) k = pmul (2 ^ S L) (ci_poly (2 ^ L) X) (ci_poly (2 ^ L) Y) k.
Proof. intros Hk. apply conj_ci_poly; [|exact Hk]. apply conj_mul; apply ci_poly_conj. Qed.

Lemma ci_product_lemma : forall r, built_ci 8 r -> forall level a b t1 t2 t3 t4 t5,
  (level < length (rmods r))%nat -> words r level canon a -> words r level canon b ->
  forall i k, (i <= level)%nat -> (k < 2 * rN r)%nat ->
    let A := CIForwardLvl r level a t1 in
    let B := MFormLvl r level (CIForwardLvl r level b t2) t3 in
    let C := CIBackwardLvl r level (MulCoeffsMontgomeryLvl r level A B t4) t5 in
    words r level canon C /\
    eqm (mq (rmod r i)) (ci_poly (rN r) (co (nth i C [])) k)
      (pmul (2 * rN r) (ci_poly (rN r) (co (nth i a []))) (ci_poly (rN r) (co (nth i b []))) k).
Proof.
  intros r Hr level a b t1 t2 t3 t4 t5 Hlev Ha Hb.
  destruct (built_ci_wf 8 r ltac:(lia) Hr) as (L & Hw & _ & H8).
  assert (EN := wfr_N _ _ _ Hw). assert (HL := wfr_logN _ _ _ Hw).
  assert (E2 : (2 * rN r = 2 ^ S L)%nat) by (rewrite EN; cbn [Nat.pow]; lia).
  cbv zeta.
  assert (K : forall i, (i <= level)%nat -> row_repr (2 ^ L) (mq (rmod r i)) (mq (rmod r i))
     (nth i (CIBackwardLvl r level (MulCoeffsMontgomeryLvl r level (CIForwardLvl r level a t1)
               (MFormLvl r level (CIForwardLvl r level b t2) t3) t4) t5) [])
     (pmul (2 ^ S L) (ci_poly (2 ^ L) (co (nth i a []))) (ci_poly (2 ^ L) (co (nth i b []))))).
  { intros i Hi.
    assert (Hwf := wf_ring_mod _ _ _ i Hw ltac:(lia)).
    assert (G := wf_ge _ _ Hwf). specialize (H8 i ltac:(lia)).
    assert (Ra := words_row _ _ _ _ i Ha Hi). assert (Rb := words_row _ _ _ _ i Hb Hi). rewrite EN in Ra, Rb.
    unfold canon in Ra, Rb.
    apply (ci_ntt_repr L (rmod r i) ltac:(lia) Hwf) in Ra; [|lia|lia].
    apply (ci_ntt_repr L (rmod r i) ltac:(lia) Hwf) in Rb; [|lia|lia].
    set (q := mq (rmod r i)) in *.
    match type of Ra with ci_repr _ _ _ ?x _ => set (rowa := x) in * end.
    match type of Rb with ci_repr _ _ _ ?x _ => set (rowb := x) in * end.
    assert (Rm : row_repr (2 ^ L) q q
       (map (fun x => MForm x q (mbred (rmod r i))) rowb)
       (fun j => W * values (rmod r i) (S L) (ci_poly (2 ^ L) (co (nth i b []))) j)).
    { eapply row_map; [|exact Rb]. intros j x Hj Hx E. fold q in Hx, E |- *.
      rewrite (wf_bred _ _ Hwf). fold q. rewrite MForm_correct by (fold q; lia).
      split; [apply Z.mod_pos_bound; lia|]. rewrite eqm_mod, E. apply eqm_eq. ring. }
    assert (Rp : ci_repr L (rmod r i) (2 * q)
       (map2 (fun x y => MRed x y q (mqinv (rmod r i))) rowa (map (fun x => MForm x q (mbred (rmod r i))) rowb))
       (pmul (2 ^ S L) (ci_poly (2 ^ L) (co (nth i a []))) (ci_poly (2 ^ L) (co (nth i b []))))).
    { eapply row_map2; [|exact Ra|exact Rm]. intros j x y Hj Hx Hy Ex Ey. fold q in Hx, Ex |- *.
      assert (Hxy : x * y < q * W) by nia.
      split; [pose proof (MRed_range x y q (mqinv (rmod r i)) ltac:(lia) ltac:(lia) (wf_inv _ _ Hwf) ltac:(lia) ltac:(lia) Hxy); lia|].
      apply odd_cancel_W; [lia|apply (wf_odd _ _ Hwf)|].
      rewrite (MRed_eqm x y q (mqinv (rmod r i)) ltac:(lia) ltac:(lia) (wf_inv _ _ Hwf) ltac:(lia) ltac:(lia) Hxy).
      transitivity (values (rmod r i) (S L) (pmul (2 ^ S L) (ci_poly (2 ^ L) (co (nth i a []))) (ci_poly (2 ^ L) (co (nth i b [])))) j * W).
      - rewrite (values_mul (S L) (rmod r i) Hwf). fold q. rewrite Ex, Ey. apply eqm_eq. ring.
      - apply eqm_mul; [|reflexivity]. unfold values. apply peval_peq; [|reflexivity]. intros k Hk. apply eqm_eq. symmetry.
        apply ci_closed_lemma. exact Hk. }
    destruct (ci_inv_repr L (rmod r i) ltac:(lia) Hwf _ _ ltac:(fold q; lia) Rp) as [I _].
    unfold CIBackwardLvl, MulCoeffsMontgomeryLvl, op2, MFormLvl, op1, CIForwardLvl, prow. rewrite !lvl_nth_lt by lia.
    rewrite EN. exact I. }
  intros i k Hi Hk. split.
  - split; [unfold CIBackwardLvl; rewrite lvl_length; lia|]. intros j Hj. destruct (K j Hj) as [K1 K2].
    rewrite EN. split; [exact K1|]. intros k' Hk'. apply (K2 k' Hk').
  - assert (Hwf := wf_ring_mod _ _ _ i Hw ltac:(lia)). specialize (K i Hi).
    rewrite E2, EN. rewrite <- (ci_closed_lemma L _ _ k) by lia.
    rewrite EN in Hk. refine (ci_poly_peq L (rmod r i) ltac:(lia) _ _ _ k Hk). intros k' Hk'. apply K. exact Hk'.
Qed.

Lemma ci_ranges_lemma : forall r, built_ci 8 r -> forall level p1 p2,
  (level < length (rmods r))%nat ->
  (words r level (fun q => 4 * q) p1 ->
   words r level (fun q => 8 * q) (CIForwardLazyLvl r level p1 p2)) /\
  (words r level (fun q => 2 * q) p1 ->
   words r level (fun q => 2 * q) (CIBackwardLazyLvl r level p1 p2) /\
   words r level (fun q => q) (CIBackwardLvl r level p1 p2)).
Proof.
  intros r Hr level p1 p2 Hlev.
  destruct (built_ci_wf 8 r ltac:(lia) Hr) as (L & Hw & _ & H8).
  assert (EN := wfr_N _ _ _ Hw). assert (HL := wfr_logN _ _ _ Hw).
  split.
  - intros Hp. split; [unfold CIForwardLazyLvl; rewrite lvl_length; lia|]. intros i Hi.
    assert (Hwf := wf_ring_mod _ _ _ i Hw ltac:(lia)).
    assert (G := wf_ge _ _ Hwf). specialize (H8 i ltac:(lia)).
    assert (R := words_row _ _ _ _ i Hp Hi). rewrite EN in R.
    apply (ci_lazy_repr L (rmod r i) ltac:(lia) Hwf) in R; [|lia|lia].
    unfold coeff, CIForwardLazyLvl, prow. rewrite lvl_nth_lt by lia. rewrite EN.
    split; [apply R|]. intros k Hk. pose proof (proj1 (proj2 R k Hk)). lia.
  - intros Hp.
    assert (P : forall i, (i <= level)%nat -> exists x,
      row_repr (2 ^ L) (mq (rmod r i)) (mq (rmod r i)) (nth i (CIBackwardLvl r level p1 p2) []) x /\
      row_repr (2 ^ L) (mq (rmod r i)) (2 * mq (rmod r i)) (nth i (CIBackwardLazyLvl r level p1 p2) []) x).
    { intros i Hi. assert (Hwf := wf_ring_mod _ _ _ i Hw ltac:(lia)).
      assert (G := wf_ge _ _ Hwf). specialize (H8 i ltac:(lia)).
      assert (R := words_row _ _ _ _ i Hp Hi). rewrite EN in R.
      assert (X := ci_repr_exists L (rmod r i) ltac:(lia) Hwf (nth i p1 []) ltac:(lia)
        (row_repr_length _ _ _ _ _ R) (row_repr_below _ _ _ _ _ R)).
      eexists. unfold CIBackwardLvl, CIBackwardLazyLvl, prow. rewrite !lvl_nth_lt by lia. rewrite EN.
      apply (ci_inv_repr L (rmod r i) ltac:(lia) Hwf _ _ ltac:(lia) X). }
    split; (split; [unfold CIBackwardLvl, CIBackwardLazyLvl; rewrite lvl_length; lia|]); intros i Hi;
      destruct (P i Hi) as (x & P1 & P2); unfold coeff; rewrite EN.
    + split; [apply P2|]. intros k Hk. apply (proj2 P2 k Hk).
    + split; [apply P1|]. intros k Hk. apply (proj2 P1 k Hk).
Qed.
