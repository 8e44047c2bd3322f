(** Rescaling. *)
From Verif Require Import Word ModRed Arith Fermat ModRedProofs PolySpec PolyProofs Ring RingProofs NTT NTTProofs RingOps RNSSpec RowProofs OpsProofs OpsProps NTTProps Repr BasisExt CRT BasisProofs BasisProps Automorphism AutoProps ScalingSpec Scaling ScalingProps ScalingMore Gadget GadgetSpec GadgetProofs Frlwe FrlweSetup FrlweProps FrlweSwitch RlweSpec Rlwe RlweBase RlweKeys RlweSwitch RlweEnc RlweTop Float64 Ckks CkksSpec CkksBase CkksConst CkksOps.

Transparent prodZ.
Lemma product_prodZ l : product l = prodZ l.
Proof. reflexivity. Qed.
Opaque prodZ.

(** ** The loop *)
Lemma rescale_scale_snoc r level nb scale : rescaled_scale r level (S nb) scale = f64_div (rescaled_scale r level nb scale) (f64_of_Z (mq (rmod r (level - nb)))).
Proof. unfold rescaled_scale. rewrite last_moduli_snoc, fold_left_app. reflexivity. Qed.

Lemma rescale_loop_spec r level minScale fuel : forall nb scale scale', (S level < fuel + nb)%nat -> (nb <= S level)%nat ->
  scale = rescaled_scale r level nb scale' ->
  match rescale_loop fuel r level nb scale minScale with
  | Some (n', sc) => (nb <= n' <= level)%nat /\ sc = rescaled_scale r level n' scale' /\
      (forall i, (nb <= i < n')%nat -> f64_le (f64_div minScale (f64_of_Z 2)) (rescaled_scale r level (S i) scale') = true) /\
      f64_le (f64_div minScale (f64_of_Z 2)) (rescaled_scale r level (S n') scale') = false
  | None => forall i, (nb <= i <= level)%nat -> f64_le (f64_div minScale (f64_of_Z 2)) (rescaled_scale r level (S i) scale') = true
  end.
Proof.
  induction fuel as [|f IH]; intros nb scale scale' Hf Hn E; [lia|]. cbn [rescale_loop].
  destruct (Nat.ltb_spec level nb) as [Hb|Hb]; [intros i Hi; lia|].
  assert (ES : f64_div scale (f64_of_Z (mq (rmod r (level - nb)))) = rescaled_scale r level (S nb) scale') by (rewrite rescale_scale_snoc, E; reflexivity).
  rewrite ES. destruct (f64_le _ (rescaled_scale r level (S nb) scale')) eqn:EC.
  - specialize (IH (S nb) _ scale' ltac:(lia) ltac:(lia) eq_refl).
    destruct (rescale_loop f r level (S nb) _ minScale) as [[n' sc]|].
    + destruct IH as (I1 & I2 & I3 & I4). split; [lia|]. split; [exact I2|]. split; [|exact I4].
      intros i Hi. destruct (Nat.eq_dec i nb) as [-> | Hne]; [exact EC|apply I3; lia].
    + intros i Hi. destruct (Nat.eq_dec i nb) as [-> | Hne]; [exact EC|apply IH; lia].
  - split; [lia|]. split; [exact E|]. split; [intros i Hi; lia|exact EC].
Qed.

(** ** Exact equalities as congruences modulo 0 *)
Lemma eqm_0 a b : eqm 0 a b <-> a = b.
Proof. unfold eqm. rewrite !Zmod_0_r. reflexivity. Qed.

Lemma dval_exact r s A A' R D m :
  (forall j, (j < m)%nat -> forall k, (k < rN r)%nat -> A j k = D * A' j k + R j k) ->
  forall k, (k < rN r)%nat -> dval r s A m k = D * dval r s A' m k + dval r s R m k.
Proof.
  intros H k Hk. apply eqm_0.
  assert (E : peq (rN r) 0 (dval r s A m) (padd (pscale D (dval r s A' m)) (dval r s R m))).
  { transitivity (dval r s (fun j => padd (pscale D (A' j)) (R j)) m).
    - apply dval_peq. intros j Hj k' Hk'. apply eqm_0. rewrite (H j Hj k' Hk'). reflexivity.
    - etransitivity; [apply dval_add|]. apply padd_peq; [|reflexivity]. clear H. induction m as [|m IH].
      + intros k' Hk'. apply eqm_0. unfold dval, psum, pscale. cbn [bigsum]. ring.
      + rewrite !dval_S, IH. rewrite pscale_pmul_l. intros k' Hk'. apply eqm_0. unfold padd, pscale. ring. }
  exact (E k Hk).
Qed.

Lemma lprod_split r level nb : (level < length (rmods r))%nat -> (nb <= level)%nat ->
  lprod r level = prodZ (last_moduli r level nb) * lprod r (level - nb).
Proof.
  intros Hl. induction nb as [|nb IH]; intros Hn.
  - unfold last_moduli. cbn [seq map]. rewrite prodZ_nil, Nat.sub_0_r. ring.
  - rewrite IH by lia. rewrite last_moduli_snoc, prodZ_app, prodZ_cons, prodZ_nil.
    assert (E : lprod r (level - nb) = mq (rmod r (level - nb)) * lprod r (level - S nb)).
    { rewrite !lprod_prodZ. replace (level - S nb)%nat with (level - nb - 1)%nat by lia. set (l := (level - nb)%nat) in *.
      replace (S (l - 1)) with l by lia. assert (Hl' : (l < length (moduli r))%nat) by (unfold moduli; rewrite map_length; lia).
      replace (firstn (S l) (moduli r)) with (firstn l (moduli r) ++ [mq (rmod r l)]).
      - rewrite prodZ_app, prodZ_cons, prodZ_nil. ring.
      - assert (En : mq (rmod r l) = nth l (moduli r) 0) by (unfold moduli, rmod; symmetry; apply nth_map_any; unfold moduli in Hl'; rewrite map_length in Hl'; exact Hl').
        rewrite En. clearbody l. clear - Hl'. revert l Hl'. induction (moduli r) as [|x m IHm]; intros l Hl; [cbn in Hl; lia|].
        destruct l as [|l]; [reflexivity|]. cbn [firstn app nth]. f_equal. apply IHm. cbn in Hl. lia. }
    rewrite E. ring.
Qed.

Section Resc.
  Variables (rQ : Ring).
  Hypothesis (BQ : built_ring 9 rQ).
  Variables (L : nat).
  Hypothesis (EL : rN rQ = (2 ^ L)%nat).
  Let n := rN rQ.

  Lemma rescale_repr level lo nb B c C out sc : ct_repr rQ L level B c C -> (forall i, (i <= level)%nat -> B (mq (rmod rQ i)) <= 2 * mq (rmod rQ i)) ->
    (0 < nb <= level)%nat -> shaped (ctDegree c) lo out -> (level - nb <= lo)%nat ->
    ct_repr rQ L (level - nb) canon
      (mkCt (map (fun i => firstn (level + 1 - nb) (DivRoundByLastModulusManyNTTLvl rQ level nb (comp c i) (comp out i))) (seq 0 (length (ctV out)))) sc (ctNTT out))
      (fun j k => rounds (last_moduli rQ level nb) (C j k)).
  Proof.
    intros (H1 & H2 & H3 & H4) HB Hn (S1 & S2 & S3) Hlo. pose proof (ctDegree_S c (proj1 H2)) as ED.
    split; [lia|]. cbn [ctV ctNTT]. assert (E3 : length (ctV out) = length (ctV c)) by lia. rewrite E3, map_length, seq_length. split; [exact H2|]. split; [exact S2|].
    intros j Hj. match goal with |- context [map ?f (seq 0 (length (ctV c)))] => set (g := f) end. unfold comp. cbn [ctV]. assert (Eg : nth j (map g (seq 0 (length (ctV c)))) [] = g j) by (apply (nth_map_seq g); exact Hj). refine (eq_ind_r (fun x => length x = S (level - nb) /\ rns_ntt rQ L (level - nb) canon x _) _ Eg). clear Eg. unfold g.
    fold (comp c j). fold (comp out j). destruct (H4 j Hj) as [L1 R1].
    pose proof (divround_many_ntt rQ (built_less 9 8 rQ ltac:(lia) BQ) L EL nb level (comp c j) (comp out j) (C j) Hn) as HD.
    cbv zeta in HD. destruct HD as [D1 D2]; [apply (ntt_weaken rQ L EL level B); [exact HB|exact R1]|].
    set (p := DivRoundByLastModulusManyNTTLvl _ _ _ _ _) in *. clearbody p. replace (level + 1 - nb)%nat with (S (level - nb)) by lia.
    destruct D1 as (A1 & A2 & A3). split; [rewrite firstn_length; lia|]. split; [exact A1|]. split; [rewrite firstn_length; lia|].
    intros i Hi. rewrite NTTProofs.nth_firstn by lia. apply A3. exact Hi.
  Qed.

  Lemma rescale_correct level lo B c minScale out same sk s M : ct_ok rQ level B c -> (forall i, (i <= level)%nat -> B (mq (rmod rQ i)) <= 2 * mq (rmod rQ i)) -> fits rQ B ->
    secret rQ L sk s -> decrypts rQ L sk c M -> shaped (ctDegree c) lo out -> (level <= lo)%nat -> (0 < level)%nat ->
    f64_le minScale f64_zero = false -> f64_eq (ctScale c) f64_zero = false ->
    (forall i, (i <= level)%nat -> f64_le (f64_div minScale (f64_of_Z 2)) (rescaled_scale rQ level (S i) (ctScale c)) = true) /\ Rescale rQ same c minScale out = Panic \/
    exists nb c', rescale_count rQ level minScale (ctScale c) nb /\ Rescale rQ same c minScale out = Done c' /\
      ((0 < nb)%nat -> ct_ok rQ (level - nb) canon c' /\ length (ctV c') = length (ctV c) /\ ctScale c' = rescaled_scale rQ level nb (ctScale c) /\
         exists M' R, decrypts rQ L sk c' M' /\ let D := product (last_moduli rQ level nb) in
           (forall k, (k < n)%nat -> D * M' k + psum (length (ctV c)) (fun j => pmul n (R j) (ppow n s j)) k = M k) /\
           (forall j k, (k < n)%nat -> Z.abs (R j k) < D /\ (nb = 1%nat -> 2 * Z.abs (R j k) < D))) /\
      (nb = 0%nat -> c' = if same then out else CopyCt c out).
  Proof.
    intros Hc HB2 HB Hs HD HS Hlo Hpos C1 C2. pose proof (ct_ok_level rQ L EL _ _ _ Hc) as Elv.
    destruct (ct_ok_repr rQ BQ L EL level B c Hc) as [C HC]. unfold Rescale. rewrite C1, C2, Elv.
    destruct (Nat.eqb_spec level 0) as [E0|_]; [lia|].
    assert (Edeg : Nat.eqb (ctDegree out) (ctDegree c) = true) by (apply Nat.eqb_eq; unfold ctDegree at 1; rewrite (proj1 HS); lia). rewrite Edeg. cbn [negb].
    pose proof (rescale_loop_spec rQ level minScale (S (S level)) 0 (ctScale c) (ctScale c) ltac:(lia) ltac:(lia) eq_refl) as HL.
    destruct (rescale_loop _ rQ level 0 (ctScale c) minScale) as [[nb sc]|] eqn:EL2; [|left; split; [intros i Hi; apply HL; lia|reflexivity]].
    right. exists nb. destruct HL as (I1 & I2 & I3 & I4).
    assert (HRC : rescale_count rQ level minScale (ctScale c) nb) by (split; [lia|]; split; [intros i Hi; apply I3; lia|exact I4]).
    destruct (Nat.eqb_spec nb 0) as [-> | Hnb].
    { eexists. split; [exact HRC|]. split; [reflexivity|]. split; [intros; lia|intros _; reflexivity]. }
    eexists. split; [exact HRC|]. split; [reflexivity|]. split; [intros Hnb'|intros; lia].
    pose proof (rescale_repr level lo nb B c C out sc HC HB2 ltac:(lia) HS ltac:(lia)) as HR.
    set (c' := mkCt _ sc (ctNTT out)) in *.
    assert (Elen : length (ctV c') = length (ctV c)) by (unfold c'; cbn [ctV]; rewrite map_length, seq_length, (proj1 HS); apply ctDegree_S; apply HC).
    split; [exact (ct_repr_ok rQ L EL _ _ _ _ HR)|]. split; [exact Elen|]. split; [exact I2|].
    assert (Hl := proj1 HC).
    pose proof (proj1 (decrypts_iff rQ BQ L EL level B c C sk s M HC HB Hs) HD) as HV.
    set (D := prodZ (last_moduli rQ level nb)).
    assert (ED : product (last_moduli rQ level nb) = D) by apply product_prodZ.
    assert (HDp : 0 < D) by (apply prodZ_pos; intros q Hq; apply (last_pos 9 rQ level nb ltac:(lia) BQ Hl q Hq)).
    set (C' := fun j k => rounds (last_moduli rQ level nb) (C j k)) in *.
    set (R := fun j k => C j k - D * C' j k).
    assert (HX := dval_exact rQ s C C' R D (length (ctV c)) ltac:(intros j Hj k Hk; unfold R; ring)).
    (* the multiple of the whole modulus *)
    assert (HQ : forall k, (k < n)%nat -> (lprod rQ level | M k - dval rQ s C (length (ctV c)) k)).
    { intros k Hk. apply eqm_divide; [pose proof (lprod_pos L rQ (proj1 (built_L rQ L (one_2 rQ BQ) EL)) level); lia|]. apply (lprod_eqm L rQ (proj1 (built_L rQ L (one_2 rQ BQ) EL)) level _ _ Hl).
      intros i Hi. symmetry. apply (HV i Hi k Hk). }
    set (K := fun k => (M k - dval rQ s C (length (ctV c)) k) / lprod rQ level).
    assert (HK : forall k, (k < n)%nat -> M k = dval rQ s C (length (ctV c)) k + lprod rQ level * K k).
    { intros k Hk. destruct (HQ k Hk) as [z Hz]. unfold K. pose proof (lprod_pos L rQ (proj1 (built_L rQ L (one_2 rQ BQ) EL)) level) as HP. rewrite Hz, Z.div_mul by lia. lia. }
    clearbody K.
    exists (fun k => dval rQ s C' (length (ctV c)) k + lprod rQ (level - nb) * K k), R. split; [|cbv zeta; rewrite ED; split].
    - apply (decrypts_iff rQ BQ L EL (level - nb) canon c' C' sk s _ HR (fits_canon rQ BQ L EL) Hs). intros i Hi k Hk. rewrite Elen.
      symmetry. rewrite <- (Z.add_0_r (dval rQ s C' (length (ctV c)) k)) at 2. apply eqm_add; [reflexivity|]. 
      assert (Ediv : (mq (rmod rQ i) | lprod rQ (level - nb))).
      { rewrite lprod_prodZ. apply prodZ_divide. apply in_firstn_moduli; lia. }
      destruct Ediv as [z Hz]. rewrite Hz. apply (eqm_intro _ _ _ (z * K k)). ring.
    - intros k Hk. change (psum _ _ k) with (dval rQ s R (length (ctV c)) k). rewrite (HK k Hk), (HX k Hk). rewrite (lprod_split rQ level nb Hl ltac:(lia)). fold D. ring.
    - intros j k Hk. unfold R, C', D. split; [|intros ->; unfold last_moduli; cbn [seq map]; rewrite Nat.sub_0_r, prodZ_cons, prodZ_nil; unfold rounds; cbn [fold_left]].
      2: { destruct (last_pos 9 rQ level 1 ltac:(lia) BQ Hl (mq (rmod rQ level))) as [Z1 Z2]; [unfold last_moduli; cbn [seq map]; rewrite Nat.sub_0_r; left; reflexivity|].
           rewrite Z.mul_1_r. exact (nearest_spec (mq (rmod rQ level)) (C j k) Z1 Z2). }
      apply rounds_spec; [apply (last_pos 9 rQ level nb ltac:(lia) BQ Hl)|].
      destruct nb as [|nb]; [lia|]. rewrite last_moduli_S. discriminate.
  Qed.
End Resc.
