(** Proofs about CkksMore.v. *)
From Coq Require Import Reals Lra.
From Flocq Require Import Core IEEE754.BinarySingleNaN.
From Verif Require Import Word ModRed Arith Fermat ModRedProofs PolySpec PolyProofs Ring RingProofs NTT NTTProofs RingOps RNSSpec RowProofs OpsProofs OpsProps NTTProps Repr BasisExt CRT BasisProofs BasisProps Automorphism AutoProps Scaling Gadget GadgetSpec GadgetProofs Frlwe FrlweSetup FrlweProps FrlweSwitch RlweSpec Rlwe RlweBase RlweKeys RlweSwitch RlweEnc RlweTop RlweGen Float64 FloatProofs ScalingMore ScalingSpec Ckks CkksSpec CkksBase CkksConst CkksOps CkksFloat CkksAdd CkksMul CkksRescale CkksRot CkksTop CkksMore CkksMoreSpec.
Open Scope Z_scope.

(** ** The scalars of the two halves *)
Definition scal_ok (L : nat) (m : modp) (c : Z * Z) (a b : Z) : Prop :=
  0 <= fst c < mq m /\ 0 <= snd c < mq m /\ eqm (mq m) (fst c) (W * (a + b * root4 L m)) /\ eqm (mq m) (snd c) (W * (a - b * root4 L m)).

Lemma interface_ok x q : 1 < q -> 2 * q <= W -> gint_word x -> 0 <= interfaceMod x q <= Z.max q (2 ^ 63) /\ eqm q (interfaceMod x q) (gint_value x).
Proof.
  intros Hq HW Hx. destruct x as [x|x|x]; cbn [interfaceMod gint_value gint_word] in *.
  - pose proof (Z.mod_pos_bound x q ltac:(lia)) as R. split; [generalize dependent (x mod q); intros; lia|]. apply eqm_mod.
  - destruct (Z.ltb_spec 0 x); [split; [lia|reflexivity]|].
    destruct (Z.ltb_spec x 0).
    + pose proof (Z.rem_bound_pos_neg x q ltac:(lia) ltac:(lia)) as R0. pose proof (Z.quot_rem' x q) as E. generalize dependent (Z.rem x q). generalize (Z.quot x q). intros t r R E0.
      rewrite w64_small by lia. split; [lia|]. apply (eqm_intro _ _ _ (1 - t)). lia.
    + split; [lia|]. replace x with 0 by lia. reflexivity.
  - destruct (Z.eqb_spec x 0) as [->|].
    + split; [lia|reflexivity].
    + pose proof (Z.mod_pos_bound x q ltac:(lia)) as R. split; [generalize dependent (x mod q); intros; lia|]. apply eqm_mod.
Qed.

Section Halves.
  Variables (L : nat) (m : modp).
  Hypothesis HL : (2 <= L)%nat.
  Hypothesis Hwf : wf_modp L m.
  Let q := mq m.
  Let N := (2 ^ L)%nat.

  Lemma mform_word x v : 0 <= x < W -> eqm q x v -> 0 <= MForm x q (mbred m) < q /\ eqm q (MForm x q (mbred m)) (W * v).
  Proof.
    intros Hx Ex. pose proof (wf_ge L m Hwf) as Q5. pose proof (wf_W L m Hwf) as Q2. fold q in Q5, Q2.
    rewrite (wf_bred L m Hwf). fold q. rewrite MForm_correct by lia. split; [apply Z.mod_pos_bound; lia|].
    rewrite eqm_mod. rewrite Z.mul_comm. apply eqm_mul; [reflexivity|exact Ex].
  Qed.

  Lemma gauss_ok re im : 4 * q <= W -> gint_word re -> gint_word im -> scal_ok L m (gauss_scalars re im m) (gint_value re) (gint_value im).
  Proof.
    intros H4 Hre Him. pose proof (wf_ge L m Hwf) as Q5. fold q in Q5.
    destruct (interface_ok re q ltac:(lia) ltac:(lia) Hre) as (A1 & A2).
    destruct (interface_ok im q ltac:(lia) ltac:(lia) Him) as (B1 & B2).
    destruct (psi1 L m HL Hwf) as [P1 P2]. fold q in P1, P2.
    unfold gauss_scalars. fold q. set (a := interfaceMod re q) in *. set (b := interfaceMod im q) in *.
    assert (EW : W = 2 * 2 ^ 63) by reflexivity. assert (Ha : 0 <= a < W - q) by (clearbody a; lia). assert (Hb : 0 <= b < W) by (clearbody b; lia). clear A1 B1 EW.
    set (y := if b =? 0 then b else MRed b (nth 1 (mpsi m) 0) q (mqinv m)).
    assert (Hy : 0 <= y < q /\ eqm q y (gint_value im * root4 L m)).
    { unfold y. destruct (Z.eqb_spec b 0) as [Eb|Nb].
      - rewrite Eb. split; [lia|]. rewrite <- B2, Eb. apply eqm_eq. ring.
      - apply (mred_word q (mqinv m)) with (B1 := W) (B2 := q) (v1 := gint_value im) (v2 := W * root4 L m); try assumption; try lia.
        + apply (wf_odd L m Hwf).
        + apply (wf_inv L m Hwf).
        + apply eqm_eq. ring. }
    destruct Hy as [Y1 Y2]. clearbody y. cbn [fst snd].
    set (c := if b =? 0 then a else CRed (wadd a y) q).
    assert (CR : forall z v, 0 <= z < W -> eqm q z v -> 0 <= CRed z q < W /\ eqm q (CRed z q) v).
    { intros z v Hz Ez. unfold CRed, csub. destruct (Z.leb_spec q z).
      - unfold wsub. rewrite w64_small by lia. split; [lia|]. transitivity z; [apply (eqm_intro _ _ _ (-1)); ring|exact Ez].
      - split; [lia|exact Ez]. }
    assert (Hc : 0 <= c < W /\ eqm q c (gint_value re + gint_value im * root4 L m)).
    { unfold c. destruct (Z.eqb_spec b 0) as [Eb|Nb].
      - split; [lia|]. rewrite A2. rewrite <- B2, Eb. apply eqm_eq. ring.
      - apply CR; unfold wadd; rewrite w64_small by lia; [lia|]. apply eqm_add; assumption. }
    destruct Hc as [C1 C2]. clearbody c.
    assert (Ed : wadd a (wsub q y) = a + (q - y)) by (unfold wadd, wsub; rewrite (w64_small (q - y)) by lia; apply w64_small; lia).
    destruct (CR (wadd a (wsub q y)) (gint_value re - gint_value im * root4 L m)) as [D1 D2].
    { rewrite Ed. lia. }
    { rewrite Ed. transitivity (a + - y); [apply (eqm_intro _ _ _ 1); ring|]. replace (gint_value re - gint_value im * root4 L m) with (gint_value re + - (gint_value im * root4 L m)) by ring.
      apply eqm_add; [exact A2|apply eqm_opp; exact Y2]. }
    destruct (mform_word c _ C1 C2) as [X1 X2]. destruct (mform_word _ _ D1 D2) as [X3 X4].
    unfold scal_ok. fold q. cbn [fst snd]. split; [exact X1|]. split; [exact X3|]. split; [exact X2|exact X4].
  Qed.

  Lemma nth_mad c row out i : (i < N)%nat -> length row = N ->
    nth i (mad_halves N m c row out) 0 = CRed (wadd (nth i out 0) (nth i (mul_halves N m c row) 0)) q.
  Proof.
    intros Hi Hr. unfold mad_halves.
    match goal with |- context [map ?f (seq 0 N)] => rewrite (nth_map_seq f N i 0 Hi) end. cbv beta.
    unfold N. rewrite (nth_halves L m HL c row i) by assumption. reflexivity.
  Qed.

  Lemma mad_halves_repr c a b B Bo row out X Y : B <= W -> q <= Bo -> Bo + q <= W -> scal_ok L m c a b ->
    ntt_repr L m B row X -> ntt_repr L m Bo out Y -> ntt_repr L m Bo (mad_halves N m c row out) (padd Y (pmul N (pgauss N a b) X)).
  Proof.
    intros HB HBo HW (S1 & S2 & S3 & S4) HX HY. pose proof (halves_repr L m HL Hwf c a b B row X HB S1 S2 S3 S4 HX) as HM.
    split; [unfold mad_halves; rewrite map_length, seq_length; reflexivity|]. intros i Hi. fold N in Hi. fold q. rewrite nth_mad by (first [exact Hi|apply HX]).
    destruct HM as [_ HM]. destruct HY as [_ HY]. destruct (HM i Hi) as [M1 M2]. destruct (HY i Hi) as [Y1 Y2]. fold N in M1, M2. fold q in M1, M2, Y1, Y2.
    set (x := nth i out 0) in *. set (y := nth i (mul_halves N m c row) 0) in *. clearbody x y.
    pose proof (wf_ge L m Hwf) as Q5. fold q in Q5.
    unfold wadd. rewrite w64_small by lia. destruct (cred_word (x + y) q Bo) as [R1 R2]; try lia. split; [exact R1|].
    rewrite R2. rewrite values_add. apply eqm_add; assumption.
  Qed.
End Halves.

Lemma f64_mul_comm x y : f64_mul x y = f64_mul y x.
Proof.
  apply B2SF_inj. unfold f64_mul. destruct x as [sx|sx| |sx mx ex Hx], y as [sy|sy| |sy my ey Hy]; cbn; try reflexivity; try (rewrite (xorb_comm sx sy); reflexivity).
  rewrite !B2SF_SF2B. rewrite (Pos.mul_comm mx my), (Z.add_comm ex ey), (xorb_comm sx sy). reflexivity.
Qed.

Section Zero.
  Variables (n : nat) (q : Z).
  Add Ring polyring : (poly_ring n q) (setoid (peq_equiv n q) (poly_ring_ext n q)).
  Lemma pmul_pzero a : peq n q (pmul n a pzero) pzero.
  Proof. ring. Qed.
End Zero.

Section Ops.
  Variables (rQ : Ring).
  Hypothesis (BQ : built_ring 9 rQ).
  Variables (L : nat).
  Hypothesis (EL : rN rQ = (2 ^ L)%nat).
  Let n := rN rQ.
  Let B2 : built_ring 2 rQ := one_2 rQ BQ.
  Let q i := mq (rmod rQ i).

  Definition scals_ok (level : nat) (scalars : modp -> Z * Z) (a b : Z) : Prop :=
    forall i, (i <= level)%nat -> scal_ok L (rmod rQ i) (scalars (rmod rQ i)) a b.

  Lemma gauss_scals level re im : (level < length (rmods rQ))%nat -> gint_word re -> gint_word im -> scals_ok level (gauss_scalars re im) (gint_value re) (gint_value im).
  Proof.
    intros Hl Hre Him i Hi. destruct (one_mod rQ BQ i ltac:(lia)). apply gauss_ok; try assumption; [apply (big_L rQ BQ L EL)|apply (built_wf rQ L B2 EL i ltac:(lia))|lia].
  Qed.
  Lemma float_scals level re im scale : (level < length (rmods rQ))%nat ->
    scals_ok level (fun m => let '(x, y) := float_words re im scale m in const_words m x y) (scaled re scale) (scaled im scale).
  Proof.
    intros Hl i Hi. destruct (one_mod rQ BQ i ltac:(lia)). destruct (float_word rQ BQ L EL level re im scale Hl i Hi) as [W1 W2].
    destruct (float_words re im scale (rmod rQ i)) as [x y]. cbn [fst snd] in W1, W2.
    apply (const_words_ok L (rmod rQ i) (big_L rQ BQ L EL) (built_wf rQ L B2 EL i ltac:(lia)) x y _ _); [lia|exact W1|exact W2].
  Qed.

  Lemma mul_poly_repr level scalars p out a b B X : (forall i, (i <= level)%nat -> B (q i) <= W) -> scals_ok level scalars a b ->
    rns_ntt rQ L level B p X -> rns_ntt rQ L level canon (mul_poly rQ level scalars p out) (pmul n (pgauss n a b) X).
  Proof.
    intros HB Hs (A1 & A2 & A3). split; [exact A1|]. split; [unfold mul_poly; rewrite lvl_length; lia|].
    intros i Hi. unfold mul_poly. rewrite lvl_nth_lt by lia. destruct (Hs i Hi) as (S1 & S2 & S3 & S4).
    unfold n. rewrite EL. unfold canon. apply (halves_repr L (rmod rQ i) (big_L rQ BQ L EL) (built_wf rQ L B2 EL i ltac:(lia)) _ a b (B (q i))); try assumption; [apply HB; exact Hi|apply A3; exact Hi].
  Qed.
  Lemma mad_poly_repr level scalars p out a b B Bo X Y : (forall i, (i <= level)%nat -> B (q i) <= W) -> fits rQ Bo -> scals_ok level scalars a b ->
    rns_ntt rQ L level B p X -> rns_ntt rQ L level Bo out Y -> rns_ntt rQ L level Bo (mad_poly rQ level scalars p out) (padd Y (pmul n (pgauss n a b) X)).
  Proof.
    intros HB HBo Hs (A1 & A2 & A3) (O1 & O2 & O3). split; [exact A1|]. split; [unfold mad_poly; rewrite lvl_length; lia|].
    intros i Hi. unfold mad_poly. rewrite lvl_nth_lt by lia. destruct (HBo i ltac:(lia)) as [F1 F2].
    unfold n. rewrite EL. apply (mad_halves_repr L (rmod rQ i) (big_L rQ BQ L EL) (built_wf rQ L B2 EL i ltac:(lia)) _ a b (B (q i))); try assumption; [apply HB; exact Hi|apply Hs; exact Hi|apply A3; exact Hi|apply O3; exact Hi].
  Qed.

  (** A product by a Gaussian integer. *)
  Lemma gauss_correct level level' B c re im out sk s M : secret rQ L sk s -> ct_ok rQ level B c -> fits rQ B -> decrypts rQ L sk c M ->
    shaped (ctDegree c) level' out -> (level' <= level)%nat -> gint_word re -> gint_word im ->
    let c' := MultByGaussianInteger rQ c re im out in
    ct_ok rQ level' canon c' /\ ctDegree c' = ctDegree c /\ ctScale c' = ctScale c /\ decrypts rQ L sk c' (pmul n (pgauss n (gint_value re) (gint_value im)) M).
  Proof.
    intros Hs Hc HB HD HS Hl Hre Him c'. destruct (ct_ok_repr rQ BQ L EL level B c Hc) as [C HC].
    pose proof (ct_repr_level rQ L EL _ _ _ _ HC) as E1. pose proof (shaped_level _ _ _ HS) as E2.
    assert (H1 := proj1 HC). assert (H2 := proj1 (proj2 HC)).
    assert (E3 : length (ctV out) = length (ctV c)) by (rewrite (proj1 HS); apply ctDegree_S; apply H2).
    assert (HM : ct_repr rQ L level' canon c' (fun j => pmul n (pgauss n (gint_value re) (gint_value im)) (C j))).
    { unfold c', MultByGaussianInteger. rewrite E1, E2, Nat.min_r by lia. apply (rewrite_repr rQ L EL _ (fun X => pmul n (pgauss n (gint_value re) (gint_value im)) X) level level' B); try assumption; [apply HS|].
      intros p X o Hp. split; [|apply lvl_length]. apply (mul_poly_repr level' _ _ _ _ _ B); [|apply gauss_scals; try assumption; lia|exact Hp]. intros i Hi. apply (fits_W rQ BQ L EL); [exact HB|lia]. }
    assert (LL : length (ctV c') = length (ctV c)) by (unfold c', MultByGaussianInteger; cbn [ctV]; rewrite (rewrite_length rQ L EL); lia).
    split; [apply (ct_repr_ok rQ L EL) in HM; exact HM|]. split; [unfold ctDegree; rewrite LL; reflexivity|]. split; [reflexivity|].
    apply (image_decrypts rQ BQ L EL level level' B canon c C c' _ sk s M _ Hs HC HB HM (fits_canon rQ BQ L EL) Hl); [|exact HD].
    intros i Hi E. rewrite LL. unfold n. rewrite dval_mul. apply pmul_peq; [reflexivity|exact E].
  Qed.

  (** A product added to the receiver. *)
  Lemma mad_repr level level' B Bo c C out D scalars a b sc t : t = true -> ct_repr rQ L level B c C -> fits rQ B -> ct_repr rQ L level' Bo out D -> fits rQ Bo ->
    (level' <= level)%nat -> (length (ctV c) <= length (ctV out))%nat -> scals_ok level' scalars a b ->
    ct_repr rQ L level' Bo (mkCt (rewrite_comps (mad_poly rQ level' scalars) (ctV c) (ctV out)) sc t)
      (fun j => padd (D j) (pmul n (pgauss n a b) (ext C (length (ctV c)) j))).
  Proof.
    intros -> (H1 & H2 & H3 & H4) HB (O1 & O2 & O3 & O4) HBo Hl Hlen Hsc.
    assert (LL : length (rewrite_comps (mad_poly rQ level' scalars) (ctV c) (ctV out)) = length (ctV out)) by (rewrite (rewrite_length rQ L EL); lia).
    split; [exact O1|]. cbn [ctV ctNTT]. rewrite LL. split; [exact O2|]. split; [reflexivity|].
    intros j Hj. destruct (O4 j Hj) as [P1 P2]. unfold ext. destruct (Nat.ltb_spec j (length (ctV c))) as [Hjc|Hjc].
    - rewrite comp_rewrite by exact Hjc. destruct (H4 j Hjc) as [P3 P4].
      split; [unfold mad_poly; rewrite lvl_length; change (nth j (ctV out) []) with (comp out j); rewrite P1; lia|].
      apply (mad_poly_repr level' scalars _ _ a b B); [intros i Hi; apply (fits_W rQ BQ L EL); [exact HB|lia]|exact HBo|exact Hsc|apply (ntt_level rQ L EL level); assumption|exact P2].
    - assert (E : comp (mkCt (rewrite_comps (mad_poly rQ level' scalars) (ctV c) (ctV out)) sc true) j = comp out j).
      { unfold comp, rewrite_comps. cbn [ctV]. rewrite app_nth2 by (rewrite map_length, seq_length; lia). rewrite map_length, seq_length, nth_skipn. f_equal. lia. }
      rewrite E. split; [exact P1|]. revert P2. apply (ntt_peq rQ L EL). intros i Hi k Hk.
      assert (Z : eqm (mq (rmod rQ i)) (pmul n (pgauss n a b) pzero k) 0).
      { assert (Hp : peq n (mq (rmod rQ i)) (pmul n (pgauss n a b) pzero) pzero) by (apply pmul_pzero). apply (Hp k Hk). }
      unfold padd at 1. rewrite Z. apply eqm_eq. ring.
  Qed.
  Lemma mad_decrypts level level' B Bo c out scalars a b sc sk s M Mo : secret rQ L sk s -> ct_ok rQ level B c -> fits rQ B -> ct_ok rQ level' Bo out -> fits rQ Bo ->
    decrypts rQ L sk c M -> decrypts rQ L sk out Mo -> (level' <= level)%nat -> (ctDegree c <= ctDegree out)%nat -> scals_ok level' scalars a b ->
    let c' := mkCt (rewrite_comps (mad_poly rQ level' scalars) (ctV c) (ctV out)) sc (ctNTT out) in
    ct_ok rQ level' Bo c' /\ ctDegree c' = ctDegree out /\ decrypts rQ L sk c' (padd Mo (pmul n (pgauss n a b) M)).
  Proof.
    intros Hs Hc HB Ho HBo HD HDo Hl Hdeg Hsc c'. destruct (ct_ok_repr rQ BQ L EL level B c Hc) as [C HC]. destruct (ct_ok_repr rQ BQ L EL level' Bo out Ho) as [D HO].
    assert (N0 := proj1 (proj2 HC)). assert (N1 := proj1 (proj2 HO)). pose proof (ctDegree_S c (proj1 N0)) as E0. pose proof (ctDegree_S out (proj1 N1)) as E1.
    assert (T : ctNTT out = true) by apply HO.
    assert (Hlen : (length (ctV c) <= length (ctV out))%nat) by lia.
    pose proof (mad_repr level level' B Bo c C out D scalars a b sc (ctNTT out) T HC HB HO HBo Hl Hlen Hsc) as HM. fold c' in HM.
    assert (LL : length (ctV c') = length (ctV out)) by (unfold c'; cbn [ctV]; rewrite (rewrite_length rQ L EL); lia).
    split; [apply (ct_repr_ok rQ L EL) in HM; exact HM|]. split; [unfold ctDegree; rewrite LL; reflexivity|].
    apply (image2_decrypts rQ BQ L EL level level' level' B Bo Bo c C out D c' _ sk s M Mo _ Hs HC HB HO HBo HM HBo Hl (le_n _)); [|exact HD|exact HDo].
    intros i Hi X0 X1. rewrite LL. unfold n. rewrite dval_add. apply padd_peq; [exact X1|]. rewrite dval_mul. apply pmul_peq; [reflexivity|].
    unfold ext. rewrite dval_extend by exact Hlen. exact X0.
  Qed.

  Lemma gauss_add_correct level level' B Bo c re im out sk s M Mo : secret rQ L sk s -> ct_ok rQ level B c -> fits rQ B -> ct_ok rQ level' Bo out -> fits rQ Bo ->
    decrypts rQ L sk c M -> decrypts rQ L sk out Mo -> (level' <= level)%nat -> (ctDegree c <= ctDegree out)%nat -> gint_word re -> gint_word im ->
    let c' := MultByGaussianIntegerAndAdd rQ c re im out in
    ct_ok rQ level' Bo c' /\ ctDegree c' = ctDegree out /\ ctScale c' = ctScale out /\ decrypts rQ L sk c' (padd Mo (pmul n (pgauss n (gint_value re) (gint_value im)) M)).
  Proof.
    intros Hs Hc HB Ho HBo HD HDo Hl Hdeg Hre Him c'.
    assert (E1 := ct_ok_level rQ L EL level B c Hc). assert (E2 := ct_ok_level rQ L EL level' Bo out Ho).
    destruct (mad_decrypts level level' B Bo c out (gauss_scalars re im) (gint_value re) (gint_value im) (ctScale out) sk s M Mo) as (H1 & H2 & H3); try assumption.
    { apply gauss_scals; try assumption. apply Ho. }
    unfold c', MultByGaussianIntegerAndAdd. rewrite E1, E2, Nat.min_r by exact Hl. split; [exact H1|]. split; [exact H2|]. split; [reflexivity|exact H3].
  Qed.

  (** ** MultByConstAndAdd *)
  Lemma drop_ok level level' B c sk s M : secret rQ L sk s -> ct_ok rQ level B c -> fits rQ B -> decrypts rQ L sk c M -> (level' <= level)%nat ->
    let c' := DropLevel c (level - level') in
    ct_ok rQ level' B c' /\ ctDegree c' = ctDegree c /\ ctScale c' = ctScale c /\ decrypts rQ L sk c' M.
  Proof.
    intros Hs Hc HB HD Hl c'. destruct (ct_ok_repr rQ BQ L EL level B c Hc) as [C HC]. pose proof (ct_repr_level rQ L EL _ _ _ _ HC) as E1.
    assert (LL : length (ctV c') = length (ctV c)) by (unfold c', DropLevel; cbn [ctV]; apply map_length).
    assert (HM : ct_repr rQ L level' B c' C).
    { destruct HC as (H1 & H2 & H3 & H4). split; [lia|]. rewrite LL. split; [exact H2|]. split; [exact H3|]. intros j Hj. destruct (H4 j Hj) as [P1 P2].
      assert (Ec : comp c' j = firstn (S level') (comp c j)).
      { unfold c', comp, DropLevel. cbn [ctV]. rewrite (nth_map_any _ _ _ []) by exact Hj. rewrite E1. f_equal. lia. }
      rewrite Ec. rewrite firstn_length, P1. split; [lia|]. destruct P2 as (A1 & A2 & A3). split; [lia|]. rewrite firstn_length. split; [lia|].
      intros i Hi. rewrite nth_firstn by lia. apply A3. lia. }
    split; [apply (ct_repr_ok rQ L EL) in HM; exact HM|]. split; [unfold ctDegree; rewrite LL; reflexivity|]. split; [reflexivity|].
    apply (image_decrypts rQ BQ L EL level level' B B c C c' C sk s M M Hs HC HB HM HB Hl); [|exact HD]. intros i Hi E. rewrite LL. exact E.
  Qed.
  Lemma drop_to_ok level level' B c sk s M : secret rQ L sk s -> ct_ok rQ level B c -> fits rQ B -> decrypts rQ L sk c M -> (level' <= level)%nat ->
    let c' := drop_to level' c in
    ct_ok rQ level' B c' /\ ctDegree c' = ctDegree c /\ ctScale c' = ctScale c /\ decrypts rQ L sk c' M.
  Proof.
    intros Hs Hc HB HD Hl c'. unfold c', drop_to. rewrite (ct_ok_level rQ L EL level B c Hc). destruct (Nat.ltb_spec level' level).
    - apply (drop_ok level level' B c sk s M); assumption.
    - replace level' with level by lia. split; [exact Hc|]. split; [reflexivity|]. split; [reflexivity|exact HD].
  Qed.

  Lemma decrypts_with c sk M sc : decrypts rQ L sk c M -> decrypts rQ L sk (with_scale c sc) M.
  Proof. intros H. exact H. Qed.
  Lemma ct_ok_with level B c sc : ct_ok rQ level B c -> ct_ok rQ level B (with_scale c sc).
  Proof. intros H. exact H. Qed.

  Lemma div_pos x y : is_finite x = true -> is_finite y = true -> (0 < B2R x)%R -> (0 < B2R y)%R -> is_finite (f64_div x y) = true -> (0 <= B2R (f64_div x y))%R.
  Proof.
    intros Fx Fy Px Py Fd. unfold f64_div in *.
    assert (Ny : B2R y <> 0%R) by lra.
    pose proof (Bdiv_correct prec64 emax64 prec64_gt_0 prec64_lt_emax mode_NE x y Ny) as H. cbv zeta in H.
    destruct (Rlt_bool _ _) eqn:E in H.
    - destruct H as [-> _]. assert (Q : (0 <= B2R x / B2R y)%R) by (apply Rlt_le, Rdiv_lt_0_compat; assumption).
      apply round_ge_generic; [apply fexp_correct; exact prec64_gt_0|apply valid_rnd_round_mode|apply generic_format_0|exact Q].
    - exfalso. rewrite <- is_finite_SF_B2SF in Fd. rewrite H in Fd. cbn in Fd. discriminate Fd.
  Qed.
End Ops.
