(** Addition and subtraction. *)
From Verif Require Import Word ModRed Arith Fermat ModRedProofs PolySpec PolyProofs Ring RingProofs NTT NTTProofs RingOps RNSSpec RowProofs OpsProofs OpsProps NTTProps Repr BasisExt CRT BasisProofs BasisProps Automorphism AutoProps Scaling Gadget GadgetSpec GadgetProofs Frlwe FrlweSetup FrlweProps FrlweSwitch RlweSpec Rlwe RlweBase RlweKeys RlweSwitch RlweEnc RlweTop Float64 Ckks CkksSpec CkksBase CkksConst CkksOps CkksFloat.

Lemma shaped_cut d lo m N c : shaped d lo c -> (m <= d)%nat -> shaped m lo (Resize N m c).
Proof.
  intros (S1 & S2 & S3) Hm. unfold shaped, Resize, ctDegree. rewrite S1. cbn [ctV ctNTT].
  destruct (Nat.ltb_spec m (S d - 1)).
  - split; [rewrite firstn_length; lia|]. split; [exact S2|]. intros j Hj. unfold comp. cbn [ctV]. rewrite nth_firstn by lia. apply S3. lia.
  - replace (m - (S d - 1))%nat with 0%nat by lia. cbn [repeat]. rewrite app_nil_r. split; [lia|]. split; [exact S2|]. intros j Hj. apply S3. lia.
Qed.
Lemma shaped_drop d lo level c : shaped d lo c -> (level <= lo)%nat -> shaped d level (DropLevel c (lo - level)).
Proof.
  intros HS Hl. assert (El : ctLevel c = lo) by (destruct HS as (_ & _ & H); unfold ctLevel; rewrite H by lia; lia). destruct HS as (S1 & S2 & S3). unfold DropLevel. rewrite El.
  split; [cbn [ctV]; rewrite map_length; exact S1|]. split; [exact S2|]. intros j Hj. assert (Hj' : (j < length (ctV c))%nat) by lia. unfold comp. cbn [ctV].
  rewrite (nth_map_any _ _ _ []) by exact Hj'. rewrite firstn_length. change (nth j (ctV c) []) with (comp c j). rewrite S3 by exact Hj. lia.
Qed.
Lemma shaped_drop_to d lo level c : shaped d lo c -> (level <= lo)%nat -> shaped d level (drop_to level c).
Proof.
  intros HS Hl. assert (El : ctLevel c = lo) by (destruct HS as (_ & _ & H); unfold ctLevel; rewrite H by lia; lia). unfold drop_to. rewrite El.
  destruct (Nat.ltb_spec level lo); [apply shaped_drop; assumption|]. replace level with lo by lia. exact HS.
Qed.

Lemma pools_pass c0 c1 pool : (0 < length (ctV c0))%nat -> (0 < length (ctV c1))%nat -> (1 <= ctDegree c0 + ctDegree c1)%nat ->
  (ctDegree c0 <= ctDegree pool)%nat -> (ctDegree c1 <= ctDegree pool)%nat -> pools_fit c0 c1 pool = true.
Proof.
  intros N0 N1 Hd P0 P1. unfold pools_fit, pool_fits.
  assert (Q0 : Nat.leb (length (ctV c0)) (length (ctV pool)) = true) by (apply Nat.leb_le; unfold ctDegree in *; lia).
  assert (Q1 : Nat.leb (length (ctV c1)) (length (ctV pool)) = true) by (apply Nat.leb_le; unfold ctDegree in *; lia).
  rewrite Q0, Q1. destruct (scale_ratio _ _), (scale_ratio _ _); reflexivity.
Qed.
Lemma checks_pass c0 c1 out (pool : Ct) d : length (ctV out) = S d -> ctNTT c0 = true -> ctNTT c1 = true -> (1 <= ctDegree c0 + ctDegree c1)%nat ->
  (ctDegree c0 <= d)%nat -> (ctDegree c1 <= d)%nat -> checkBinary c0 c1 out (Nat.max (ctDegree c0) (ctDegree c1)) = true.
Proof.
  intros HS T0 T1 Hd D0 D1. unfold checkBinary. replace (ctDegree out) with d by (unfold ctDegree; rewrite HS; lia). rewrite T0, T1.
  assert (Q0 : Nat.eqb (ctDegree c0 + ctDegree c1) 0 = false) by (apply Nat.eqb_neq; lia).
  assert (Q1 : Nat.leb (Nat.max (ctDegree c0) (ctDegree c1)) d = true) by (apply Nat.leb_le; lia). rewrite Q0, Q1. reflexivity.
Qed.

Section Add.
  Variables (rQ : Ring).
  Hypothesis (BQ : built_ring 9 rQ).
  Variables (L : nat).
  Hypothesis (EL : rN rQ = (2 ^ L)%nat).
  Let n := rN rQ.
  Let B2 : built_ring 2 rQ := one_2 rQ BQ.
  Let q i := mq (rmod rQ i).

  Lemma gauss_scale m k X : peq n m (pmul n (pgauss n k 0) X) (pscale k X).
  Proof.
    assert (E : peq n m (pgauss n k 0) (pscale k pone)).
    { intros i Hi. unfold pgauss, pscale, pone. apply eqm_eq. destruct (Nat.eqb i 0); [ring|]. destruct (Nat.eqb i (n / 2)); ring. }
    transitivity (pmul n (pscale k pone) X); [apply pmul_peq; [exact E|reflexivity]|].
    apply pscale_one.
  Qed.

  Lemma matched_repr level0 level B c C other pool : ct_repr rQ L level0 B c C -> fits rQ B -> (level <= level0)%nat -> (level <= ctLevel pool)%nat ->
    1 <= match_factor other (ctScale c) < 2 ^ 52 ->
    forall j, (j < length (ctV c))%nat -> rns_ntt rQ L level B (nth j (matched rQ c other pool) []) (pscale (match_factor other (ctScale c)) (C j)).
  Proof.
    intros HC HB Hl Hp Hk j Hj. pose proof (ct_repr_level rQ L EL _ _ _ _ HC) as E1. destruct HC as (H1 & H2 & H3 & H4). destruct (H4 j Hj) as [_ Rj].
    assert (MF : match_factor other (ctScale c) = match scale_ratio other (ctScale c) with Some f => f64_trunc f | None => 1 end).
    { unfold match_factor, scale_ratio. destruct (_ && _); reflexivity. }
    unfold matched. rewrite MF in *. destruct (scale_ratio other (ctScale c)) as [f|] eqn:ES.
    - pose proof (factor_int _ _ _ ES (proj1 Hk)) as FI. set (k := f64_trunc f) in *. clearbody k.
      unfold MultByConst. rewrite E1. set (lv := Nat.min level0 (ctLevel pool)).
      assert (EC : getConstAndScale rQ lv (CFloat f) = (f, f64_zero, f64_of_Z 1)).
      { unfold getConstAndScale. rewrite (needs_scale_int f k FI); [reflexivity|]. change (2 ^ 53) with (2 * 2 ^ 52). lia. }
      rewrite EC. cbn [ctV]. rewrite comp_rewrite' by exact Hj.
      apply (ntt_weaken rQ L EL level canon); [intros i Hi; apply (HB i); lia|].
      apply (ntt_peq rQ L EL level canon _ (pmul n (pgauss n k 0) (C j))); [intros i Hi; apply gauss_scale|].
      apply (ntt_level rQ L EL lv); [unfold lv; lia|].
      apply (const_poly rQ BQ L EL lv _ _ _ _ _ B); [|intros i Hi|].
      + intros i Hi. apply (fits_W rQ BQ L EL B HB). unfold lv in Hi. lia.
      + pose proof (float_word rQ BQ L EL lv f f64_zero (f64_of_Z 1) ltac:(unfold lv; lia) i Hi) as FW.
        rewrite (scaled_int f k FI ltac:(lia)) in FW. exact FW.
      + apply (ntt_level rQ L EL level0); [unfold lv; lia|exact Rj].
    - apply (ntt_peq rQ L EL level B _ (C j)); [intros i Hi k Hk'; unfold pscale; apply eqm_eq; ring|]. apply (ntt_level rQ L EL level0); assumption.
  Qed.

  Lemma dval_scale m s C k cnt : peq n m (dval rQ s (fun j => pscale k (C j)) cnt) (pscale k (dval rQ s C cnt)).
  Proof.
    transitivity (dval rQ s (fun j => pmul n (pgauss n k 0) (C j)) cnt); [apply dval_peq; intros j Hj; symmetry; apply gauss_scale|].
    unfold n. rewrite dval_mul. fold n. apply gauss_scale.
  Qed.

  (** Both operands, matched and combined. *)
  Section Eval.
    Variables (level0 level1 lo d : nat) (B0 B1 B : Z -> Z) (c0 c1 out pool : Ct) (C0 C1 : nat -> poly).
    Variables (evaluate : nat -> rows -> rows -> rows -> rows) (F : poly -> poly -> poly).
    Hypothesis (HC0 : ct_repr rQ L level0 B0 c0 C0) (HC1 : ct_repr rQ L level1 B1 c1 C1) (HB0 : fits rQ B0) (HB1 : fits rQ B1).
    Hypothesis (HS : shaped d lo out) (Hd0 : (ctDegree c0 <= d)%nat) (Hd1 : (ctDegree c1 <= d)%nat).
    Let level := Nat.min (Nat.min level0 level1) lo.
    Hypothesis (Hp : (level <= ctLevel pool)%nat).
    Let k0 := match_factor (ctScale c1) (ctScale c0).
    Let k1 := match_factor (ctScale c0) (ctScale c1).
    Hypothesis (Hk0 : 1 <= k0 < 2 ^ 52) (Hk1 : 1 <= k1 < 2 ^ 52).
    Hypothesis (HF : forall p0 p1 o X Y, rns_ntt rQ L level B0 p0 X -> rns_ntt rQ L level B1 p1 Y ->
      rns_ntt rQ L level B (evaluate level p0 p1 o) (F X Y) /\ length (evaluate level p0 p1 o) = Nat.max (S level) (length o)).

    Definition combined : nat -> poly := fun j =>
      if Nat.leb j (Nat.min (ctDegree c0) (ctDegree c1)) then F (pscale k0 (C0 j)) (pscale k1 (C1 j))
      else if Nat.ltb (ctDegree c1) (ctDegree c0) then pscale k0 (C0 j) else pscale k1 (C1 j).

    Definition comb_bound : nat -> Z -> Z := fun j =>
      if Nat.leb j (Nat.min (ctDegree c0) (ctDegree c1)) then B else if Nat.ltb (ctDegree c1) (ctDegree c0) then B0 else B1.

    Lemma eval_comps : let res := evaluateInPlace rQ evaluate c0 c1 out pool in
      length (ctV res) = S (Nat.max (ctDegree c0) (ctDegree c1)) /\ ctNTT res = true /\
      forall j, (j < length (ctV res))%nat -> length (comp res j) = S level /\ rns_ntt rQ L level (comb_bound j) (comp res j) (combined j).
    Proof.
      pose proof (ct_repr_level rQ L EL _ _ _ _ HC0) as E0. pose proof (ct_repr_level rQ L EL _ _ _ _ HC1) as E1.
      assert (Elo : ctLevel out = lo) by (apply (shaped_level d lo out HS)).
      assert (N0 := proj1 (proj2 HC0)). assert (N1 := proj1 (proj2 HC1)). assert (LL : (level0 < length (rmods rQ))%nat) by apply HC0.
      pose proof (ctDegree_S c0 (proj1 N0)) as D0. pose proof (ctDegree_S c1 (proj1 N1)) as D1.
      set (mx := Nat.max (ctDegree c0) (ctDegree c1)) in *.
      assert (M0 : forall j, (j < length (ctV c0))%nat -> rns_ntt rQ L level B0 (nth j (matched rQ c0 (ctScale c1) pool) []) (pscale k0 (C0 j))).
      { apply (matched_repr level0); try assumption. unfold level. lia. }
      assert (M1 : forall j, (j < length (ctV c1))%nat -> rns_ntt rQ L level B1 (nth j (matched rQ c1 (ctScale c0) pool) []) (pscale k1 (C1 j))).
      { apply (matched_repr level1); try assumption. unfold level. lia. }
      unfold evaluateInPlace. rewrite E0, E1, Elo. fold level. fold mx.
      set (out1 := Resize (rN rQ) mx out). assert (S1 : shaped mx lo out1) by (apply (shaped_cut d); [exact HS|unfold mx; lia]).
      assert (El1 : ctLevel out1 = lo) by (apply (shaped_level mx lo out1 S1)). rewrite El1.
      set (out2 := if Nat.ltb level lo then DropLevel out1 (lo - Nat.min level0 level1) else out1).
      assert (S2 : shaped mx level out2).
      { unfold out2. destruct (Nat.ltb_spec level lo).
        - replace (Nat.min level0 level1) with level by (unfold level in *; lia). apply shaped_drop; [exact S1|lia].
        - replace level with lo by (unfold level in *; lia). exact S1. }
      clearbody out2. clear out1 S1 El1. set (mn := Nat.min (ctDegree c0) (ctDegree c1)).
      match goal with |- context [map ?f (seq 0 (S mx))] => set (g := f) end.
      cbv zeta. cbn [ctV ctNTT]. rewrite map_length, seq_length. split; [reflexivity|]. split; [apply HS|].
      intros j Hj. unfold comp. cbn [ctV]. rewrite (nth_map_seq g (S mx) j [] Hj). unfold g, combined, comb_bound. fold mn.
      assert (Lj : length (comp out2 j) = S level) by (apply S2; lia).
      destruct (Nat.leb_spec j mn) as [Hjm|Hjm].
      - destruct (HF (nth j (matched rQ c0 (ctScale c1) pool) []) (nth j (matched rQ c1 (ctScale c0) pool) []) (comp out2 j) _ _ (M0 j ltac:(unfold mn in Hjm; lia)) (M1 j ltac:(unfold mn in Hjm; lia))) as [R1 R2].
        split; [rewrite R2, Lj; lia|exact R1].
      - split; [unfold CopyValuesLvl; rewrite lvl_length, Lj; lia|].
        destruct (Nat.ltb_spec (ctDegree c1) (ctDegree c0)) as [Hlt|Hge].
        + apply (ntt_copy rQ L EL). apply M0. unfold mx, mn in *. lia.
        + apply (ntt_copy rQ L EL). apply M1. unfold mx, mn in *. lia.
    Qed.

    Lemma eval_repr B' : (forall i, (i <= level)%nat -> B (q i) <= B' (q i) /\ B0 (q i) <= B' (q i) /\ B1 (q i) <= B' (q i)) ->
      ct_repr rQ L level B' (evaluateInPlace rQ evaluate c0 c1 out pool) combined /\
      length (ctV (evaluateInPlace rQ evaluate c0 c1 out pool)) = S (Nat.max (ctDegree c0) (ctDegree c1)).
    Proof.
      intros HBB. destruct eval_comps as (X1 & X2 & X3). split; [|exact X1].
      assert (N0 := proj1 (proj2 HC0)). assert (N1 := proj1 (proj2 HC1)). assert (LL : (level0 < length (rmods rQ))%nat) by apply HC0.
      split; [unfold level; lia|]. split; [rewrite X1; unfold ctDegree; lia|]. split; [exact X2|].
      intros j Hj. destruct (X3 j Hj) as [Y1 Y2]. split; [exact Y1|]. revert Y2. apply (ntt_weaken rQ L EL). intros i Hi. unfold comb_bound.
      destruct (HBB i Hi) as (Z1 & Z2 & Z3). fold (q i). destruct (Nat.leb _ _); [exact Z1|]. destruct (Nat.ltb _ _); assumption.
    Qed.
  End Eval.

  Definition ext (C : nat -> poly) (m : nat) : nat -> poly := fun j => if Nat.ltb j m then C j else pzero.

  Lemma add_correct level0 level1 lo d B0 B1 c0 c1 out pool sk s M0 M1 : secret rQ L sk s ->
    ct_ok rQ level0 B0 c0 -> ct_ok rQ level1 B1 c1 -> fits rQ B0 -> fits rQ B1 -> fits rQ (fun q => B0 q + B1 q - q) ->
    decrypts rQ L sk c0 M0 -> decrypts rQ L sk c1 M1 ->
    (1 <= ctDegree c0 + ctDegree c1)%nat -> shaped d lo out -> (ctDegree c0 <= d)%nat -> (ctDegree c1 <= d)%nat ->
    (ctDegree c0 <= ctDegree pool)%nat -> (ctDegree c1 <= ctDegree pool)%nat ->
    let level := Nat.min (Nat.min level0 level1) lo in (level <= ctLevel pool)%nat ->
    let k0 := match_factor (ctScale c1) (ctScale c0) in let k1 := match_factor (ctScale c0) (ctScale c1) in
    1 <= k0 < 2 ^ 52 -> 1 <= k1 < 2 ^ 52 ->
    exists c, Add rQ c0 c1 out pool = Some c /\ ct_ok rQ level (fun q => B0 q + B1 q - q) c /\
      ctDegree c = Nat.max (ctDegree c0) (ctDegree c1) /\ ctScale c = MaxFloat64 (ctScale c0) (ctScale c1) /\
      decrypts rQ L sk c (padd (pscale k0 M0) (pscale k1 M1)).
  Proof.
    intros Hs K0 K1 F0 F1 FS D0 D1 Hdeg HS Hd0 Hd1 P0 P1 level Hpl k0 k1 Hk0 Hk1.
    destruct (ct_ok_repr rQ BQ L EL level0 B0 c0 K0) as [C0 HC0]. destruct (ct_ok_repr rQ BQ L EL level1 B1 c1 K1) as [C1 HC1].
    assert (N0 := proj1 (proj2 HC0)). assert (N1 := proj1 (proj2 HC1)).
    pose proof (ctDegree_S c0 (proj1 N0)) as E0. pose proof (ctDegree_S c1 (proj1 N1)) as E1.
    destruct (eval_repr level0 level1 lo d B0 B1 (fun q => B0 q + B1 q - q) c0 c1 out pool C0 C1 (AddLvl rQ) padd HC0 HC1 F0 F1 HS Hd0 Hd1 Hpl Hk0 Hk1) with (B' := fun q => B0 q + B1 q - q) as [HR HL].
    { intros p0 p1 o X Y HX HY. split; [|apply lvl_length]. assert (Hl := proj1 HX). revert HX HY. apply (n_add rQ L B2 EL). intros i Hi. destruct (FS i ltac:(lia)). lia. }
    { intros i Hi. assert (Hl : (i < length (rmods rQ))%nat) by (destruct HC0 as [H _]; lia). destruct (F0 i Hl), (F1 i Hl). unfold q. lia. }
    fold level in HR. set (res := evaluateInPlace rQ (AddLvl rQ) c0 c1 out pool) in *.
    exists res. split.
    { unfold Add. rewrite (checks_pass c0 c1 out pool d (proj1 HS) (proj1 (proj2 (proj2 HC0))) (proj1 (proj2 (proj2 HC1))) Hdeg Hd0 Hd1), (pools_pass c0 c1 pool (proj1 N0) (proj1 N1) Hdeg P0 P1). reflexivity. }
    split; [apply (ct_repr_ok rQ L EL) in HR; exact HR|]. split; [unfold ctDegree at 1; rewrite HL; lia|]. split; [reflexivity|].
    apply (image2_decrypts rQ BQ L EL level0 level1 level B0 B1 _ c0 C0 c1 C1 res _ sk s M0 M1 _ Hs HC0 F0 HC1 F1 HR FS); [unfold level; lia|unfold level; lia| |exact D0|exact D1].
    intros i Hi X0 X1. rewrite HL. set (mx := Nat.max (ctDegree c0) (ctDegree c1)).
    fold n in X0, X1. fold (q i) in X0, X1. fold n. fold (q i).
    transitivity (dval rQ s (fun j => padd (pscale k0 (ext C0 (length (ctV c0)) j)) (pscale k1 (ext C1 (length (ctV c1)) j))) (S mx)).
    { apply dval_peq. intros j Hj. unfold combined, ext. fold k0 k1. intros k Hk.
      destruct (Nat.leb_spec j (Nat.min (ctDegree c0) (ctDegree c1))).
      - rewrite (proj2 (Nat.ltb_lt j (length (ctV c0)))) by lia. rewrite (proj2 (Nat.ltb_lt j (length (ctV c1)))) by lia. reflexivity.
      - destruct (Nat.ltb_spec (ctDegree c1) (ctDegree c0)).
        + rewrite (proj2 (Nat.ltb_lt j (length (ctV c0)))) by (unfold mx in *; lia). rewrite (proj2 (Nat.ltb_ge j (length (ctV c1)))) by lia.
          apply eqm_eq. unfold padd, pscale, pzero. ring.
        + rewrite (proj2 (Nat.ltb_ge j (length (ctV c0)))) by lia. rewrite (proj2 (Nat.ltb_lt j (length (ctV c1)))) by (unfold mx in *; lia).
          apply eqm_eq. unfold padd, pscale, pzero. ring. }
    unfold n. rewrite dval_add. apply padd_peq.
    - fold n. rewrite dval_scale. apply pscale_peq. unfold ext, n. rewrite dval_extend by (unfold mx; lia). exact X0.
    - fold n. rewrite dval_scale. apply pscale_peq. unfold ext, n. rewrite dval_extend by (unfold mx; lia). exact X1.
  Qed.

  Lemma sub_correct level0 level1 lo d B0 B c0 c1 out pool sk s M0 M1 : secret rQ L sk s ->
    ct_ok rQ level0 B0 c0 -> ct_ok rQ level1 closed c1 -> fits rQ B0 -> fits rQ B ->
    (forall i, (i < length (rmods rQ))%nat -> B0 (q i) <= B (q i) /\ ((ctDegree c0 < ctDegree c1)%nat -> closed (q i) <= B (q i))) ->
    decrypts rQ L sk c0 M0 -> decrypts rQ L sk c1 M1 ->
    (1 <= ctDegree c0 + ctDegree c1)%nat -> shaped d lo out -> (ctDegree c0 <= d)%nat -> (ctDegree c1 <= d)%nat ->
    (ctDegree c0 <= ctDegree pool)%nat -> (ctDegree c1 <= ctDegree pool)%nat ->
    let level := Nat.min (Nat.min level0 level1) lo in (level <= ctLevel pool)%nat ->
    let k0 := match_factor (ctScale c1) (ctScale c0) in let k1 := match_factor (ctScale c0) (ctScale c1) in
    1 <= k0 < 2 ^ 52 -> 1 <= k1 < 2 ^ 52 ->
    exists c, Sub rQ c0 c1 out pool = Some c /\ ct_ok rQ level B c /\
      ctDegree c = Nat.max (ctDegree c0) (ctDegree c1) /\ ctScale c = MaxFloat64 (ctScale c0) (ctScale c1) /\
      decrypts rQ L sk c (psub (pscale k0 M0) (pscale k1 M1)).
  Proof.
    intros Hs K0 K1 F0 FB HBB D0 D1 Hdeg HS Hd0 Hd1 P0 P1 level Hpl k0 k1 Hk0 Hk1.
    pose proof (fits_closed rQ BQ L EL) as F1.
    destruct (ct_ok_repr rQ BQ L EL level0 B0 c0 K0) as [C0 HC0]. destruct (ct_ok_repr rQ BQ L EL level1 closed c1 K1) as [C1 HC1].
    assert (N0 := proj1 (proj2 HC0)). assert (N1 := proj1 (proj2 HC1)). assert (LL : (level0 < length (rmods rQ))%nat) by apply HC0.
    pose proof (ctDegree_S c0 (proj1 N0)) as E0. pose proof (ctDegree_S c1 (proj1 N1)) as E1.
    destruct (eval_comps level0 level1 lo d B0 closed B0 c0 c1 out pool C0 C1 (SubLvl rQ) psub HC0 HC1 F0 F1 HS Hd0 Hd1 Hpl Hk0 Hk1) as (HL & HT & HR).
    { intros p0 p1 o X Y HX HY. split; [|apply lvl_length]. revert HX HY. apply (ntt_sub rQ BQ L EL); exact F0. }
    fold level in HR. set (res := evaluateInPlace rQ (SubLvl rQ) c0 c1 out pool) in *.
    assert (Elr : ctLevel res = level) by (unfold ctLevel; rewrite (proj1 (HR 0%nat ltac:(rewrite HL; lia))); lia).
    assert (E0l := ct_repr_level rQ L EL _ _ _ _ HC0). assert (E1l := ct_repr_level rQ L EL _ _ _ _ HC1).
    set (res' := mkCt (map (fun i => if Nat.ltb (ctDegree c0) i then NegLvl rQ level (comp res i) (comp res i) else comp res i) (seq 0 (length (ctV res)))) (ctScale res) (ctNTT res)).
    assert (ES : Sub rQ c0 c1 out pool = Some res').
    { unfold Sub. rewrite (checks_pass c0 c1 out pool d (proj1 HS) (proj1 (proj2 (proj2 HC0))) (proj1 (proj2 (proj2 HC1))) Hdeg Hd0 Hd1), (pools_pass c0 c1 pool (proj1 N0) (proj1 N1) Hdeg P0 P1).
      cbn [andb]. fold res. rewrite Elr, E0l, E1l. replace (Nat.min (Nat.min level0 level1) level) with level by (unfold level; lia). reflexivity. }
    clearbody res.
    set (mx := Nat.max (ctDegree c0) (ctDegree c1)) in *.
    set (C := fun j => psub (pscale k0 (ext C0 (length (ctV c0)) j)) (pscale k1 (ext C1 (length (ctV c1)) j))).
    assert (HR' : ct_repr rQ L level B res' C).
    { split; [unfold level; lia|]. unfold res'. cbn [ctV ctNTT]. rewrite map_length, seq_length, HL. split; [unfold mx, ctDegree; lia|]. split; [exact HT|].
      intros j Hj. destruct (HR j ltac:(rewrite HL; exact Hj)) as [R1 R2]. match goal with |- context [map ?f (seq 0 (S mx))] => set (g := f) end.
      unfold comp. cbn [ctV]. rewrite (nth_map_seq g (S mx) j [] Hj). unfold g. clear g.
      unfold comb_bound, combined in R2. fold k0 k1 in R2. unfold C, ext.
      destruct (Nat.ltb_spec (ctDegree c0) j) as [Hj0|Hj0].
      - assert (L1 : Nat.leb j (Nat.min (ctDegree c0) (ctDegree c1)) = false) by (apply Nat.leb_gt; lia).
        assert (L2 : Nat.ltb (ctDegree c1) (ctDegree c0) = false) by (apply Nat.ltb_ge; unfold mx in *; lia). rewrite L1, L2 in R2.
        rewrite (proj2 (Nat.ltb_ge j (length (ctV c0)))) by lia. rewrite (proj2 (Nat.ltb_lt j (length (ctV c1)))) by (unfold mx in *; lia).
        split; [unfold NegLvl, op1; rewrite lvl_length; lia|].
        apply (ntt_weaken rQ L EL level closed); [intros i Hi; apply HBB; unfold level, mx in *; lia|].
        apply (ntt_peq rQ L EL level closed _ (popp (pscale k1 (C1 j)))); [intros i Hi k Hk; apply eqm_eq; unfold psub, popp, pscale, pzero; ring|].
        apply (ntt_neg rQ BQ L EL). exact R2.
      - rewrite (proj2 (Nat.ltb_lt j (length (ctV c0)))) by lia. split; [exact R1|].
        apply (ntt_weaken rQ L EL level B0); [intros i Hi; apply HBB; unfold level in Hi; lia|].
        destruct (Nat.leb_spec j (Nat.min (ctDegree c0) (ctDegree c1))) as [Hjm|Hjm].
        + rewrite (proj2 (Nat.ltb_lt j (length (ctV c1)))) by lia. exact R2.
        + assert (L2 : Nat.ltb (ctDegree c1) (ctDegree c0) = true) by (apply Nat.ltb_lt; lia). rewrite L2 in R2.
          rewrite (proj2 (Nat.ltb_ge j (length (ctV c1)))) by lia.
          apply (ntt_peq rQ L EL level B0 _ (pscale k0 (C0 j))); [intros i Hi k Hk; apply eqm_eq; unfold psub, popp, pscale, pzero; ring|exact R2]. }
    exists res'. split; [exact ES|].
    split; [apply (ct_repr_ok rQ L EL) in HR'; exact HR'|]. split; [unfold ctDegree at 1, res'; cbn [ctV]; rewrite map_length, seq_length, HL; lia|].
    split; [unfold res'; cbn [ctScale]; clear - ES; unfold Sub in ES; destruct (_ && _) in ES; [|discriminate ES]; injection ES as _ ES _; rewrite <- ES; reflexivity|].
    apply (image2_decrypts rQ BQ L EL level0 level1 level B0 closed B c0 C0 c1 C1 res' C sk s M0 M1 _ Hs HC0 F0 HC1 F1 HR' FB); [unfold level; lia|unfold level; lia| |exact D0|exact D1].
    intros i Hi X0 X1. unfold res'. cbn [ctV]. rewrite map_length, seq_length, HL. unfold C.
    fold n in X0, X1. fold (q i) in X0, X1. fold n. fold (q i).
    transitivity (dval rQ s (fun j => padd (pscale k0 (ext C0 (length (ctV c0)) j)) (popp (pscale k1 (ext C1 (length (ctV c1)) j)))) (S mx)).
    { apply dval_peq. intros j Hj k Hk. apply eqm_eq. unfold psub, padd, popp. ring. }
    transitivity (padd (pscale k0 M0) (popp (pscale k1 M1))); [|intros k Hk; apply eqm_eq; unfold psub, padd, popp; ring].
    unfold n. rewrite dval_add. apply padd_peq.
    - fold n. rewrite dval_scale. apply pscale_peq. unfold ext, n. rewrite dval_extend by (unfold mx; lia). exact X0.
    - rewrite dval_opp. fold n. intros k Hk. unfold popp. apply eqm_opp. revert k Hk. fold (peq n (q i) (dval rQ s (fun j => pscale k1 (ext C1 (length (ctV c1)) j)) (S mx)) (pscale k1 M1)).
      rewrite dval_scale. apply pscale_peq. unfold ext, n. rewrite dval_extend by (unfold mx; lia). exact X1.
  Qed.
End Add.
