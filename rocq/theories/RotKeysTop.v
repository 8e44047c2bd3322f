(** The keys of a set, and rotations with them. *)
From Coq Require Import Znumtheory Permutation.
From Verif Require Import Word ModRed Arith Fermat ModRedProofs PolySpec PolyProofs Ring RingProofs NTT NTTProofs RingOps RNSSpec RowProofs OpsProofs OpsProps NTTProps Repr BasisExt CRT BasisProofs BasisProps Automorphism AutoProps Scaling Gadget GadgetSpec GadgetProofs Frlwe FrlweSetup FrlweProps FrlweSwitch RlweSpec Rlwe RlweBase RlweKeys RlweSwitch RlweEnc RlweTop Float64 Ckks CkksSpec CkksBase CkksConst CkksOps CkksAdd CkksMul CkksRelin CkksRot CkksTop RotKeys RotKeysSpec RotKeysProofs RotKeysLists.
Open Scope Z_scope.

Section Top.
  Variables (rQ rP : Ring) (L : nat).
  Hypothesis (HP : ring_pair rQ rP) (EL : rN rQ = (2 ^ L)%nat).
  Let n := rN rQ.
  Let BQ : built_ring 9 rQ := k_Q rQ rP HP.
  Let B2 : built_ring 2 rQ := one_2 rQ BQ.
  Let lQ := maxLevel rQ.
  Let lP := maxLevel rP.
  Notation gal := (GaloisElementForColumnRotationBy rQ).
  Notation row := (GaloisElementForRowRotation rQ).

  Section Set_.
    Variables (sk : rows) (sec : poly) (Be : Z) (d : nat -> draw).
    Hypothesis Hsk : sampled rQ rP lQ lP sk sec.

    Lemma set_key l g key : draws_ok rQ rP Be (length l) d -> 0 <= g < W -> Z.odd g = true ->
      GetRotationKey (GenRotationKeys rQ rP l (genSecretKey rQ rP sk) d) g = Some key -> rotation_key rQ rP L lQ lP g key sec Be.
    Proof.
      intros Hd Hg Og H. apply set_get in H. destruct H as (j & Hj & ->). destruct (Hd j Hj) as (E & HE & HB).
      destruct (inverse_odd 2 rQ (Z.le_refl 2) B2 g Hg Og) as (R & O & I). unfold made. set (h := InverseGaloisElement rQ g) in *. clearbody h.
      exists h. split; [lia|]. split; [exact O|]. split; [exact I|]. exists E. split; [|exact HB].
      pose proof (generated_rot_key rQ rP HP L EL sk sec h (drE (d j)) E (drQ (d j)) (drP (d j)) (drPool (d j)) (drPoolQ (d j)) ltac:(lia) O Hsk HE) as H.
      destruct (genrotKey _ _ _ _ _ _ _ _ _) as [k0 k1]. exact H.
    Qed.
  End Set_.

  Lemma W_big : 2 * Z.of_nat (rN rQ) <= W.
  Proof.
    destruct (gal_setup 2 rQ (Z.le_refl 2) B2) as (m & _ & Hm & _ & ->). assert (2 ^ Z.of_nat (m + 2) <= 2 ^ 61) by (apply Z.pow_le_mono_r; lia).
    assert (2 ^ 61 <= W) by (vm_compute; discriminate). lia.
  Qed.
  Lemma gal_word k : 0 <= gal k < W /\ Z.odd (gal k) = true.
  Proof. destruct (gal_range 2 rQ (Z.le_refl 2) B2 k) as [R O]. pose proof W_big. split; [lia|exact O]. Qed.
  Lemma row_word : 0 <= row < W /\ Z.odd row = true.
  Proof.
    destruct (row_rotation 2 rQ (Z.le_refl 2) B2) as [-> _]. pose proof W_big. pose proof (rot_pos rQ B2).
    split; [lia|]. rewrite Z.odd_sub, Z.odd_mul. reflexivity.
  Qed.

  Lemma gen_all_word ks conj g : In g (map gal ks ++ (if conj : bool then [row] else [])) -> 0 <= g < W /\ Z.odd g = true.
  Proof.
    rewrite in_app_iff, in_map_iff. intros [(k & <- & _)|H]; [apply gal_word|]. destruct conj; [|destruct H]. destruct H as [<- |[]]. apply row_word.
  Qed.

  (** The keys of [GenRotationKeysForRotations]. *)
  Lemma rotations_has ks conj sk d k :
    (exists key, GetRotationKey (GenRotationKeysForRotations rQ rP ks conj sk d) (gal k) = Some key) <->
    exists k', In k' ks /\ k mod (Z.of_nat n / 2) = k' mod (Z.of_nat n / 2).
  Proof.
    unfold GenRotationKeysForRotations. rewrite set_keys, in_app_iff, in_map_iff. split.
    - intros [(k' & E & Hk)|H].
      + exists k'. split; [exact Hk|]. symmetry. apply (gal_eq_iff 2 rQ (Z.le_refl 2) B2). exact E.
      + exfalso. destruct conj; [|destruct H]. destruct H as [H|[]]. destruct (row_rotation 2 rQ (Z.le_refl 2) B2) as (_ & _ & N). apply (N k). exact H.
    - intros (k' & Hk & E). left. exists k'. split; [|exact Hk]. apply (gal_eq_iff 2 rQ (Z.le_refl 2) B2). symmetry. exact E.
  Qed.
  Lemma rotations_has_row ks conj sk d :
    (exists key, GetRotationKey (GenRotationKeysForRotations rQ rP ks conj sk d) row = Some key) <-> conj = true.
  Proof.
    unfold GenRotationKeysForRotations. rewrite set_keys, in_app_iff, in_map_iff. split.
    - intros [(k' & E & Hk)|H].
      + exfalso. destruct (row_rotation 2 rQ (Z.le_refl 2) B2) as (_ & _ & N). apply (N k'). symmetry. exact E.
      + destruct conj; [reflexivity|destruct H].
    - intros ->. right. left. reflexivity.
  Qed.

  Lemma new_shaped level scale : shaped 1 level (NewCiphertext (rN rQ) 1 level scale).
  Proof.
    split; [reflexivity|]. split; [reflexivity|]. intros j Hj. unfold comp, NewCiphertext. cbn [ctV repeat].
    destruct j as [|[|j]]; [| |lia]; cbn [nth]; unfold zero_rows; apply repeat_length.
  Qed.

  (** A rotation to a new ciphertext with a set that has the key. *)
  Lemma rotate_new level B rtks key k c s skr sec M DQ Be Bs :
    secret rQ L skr sec -> key_levels rQ rP lQ lP ->
    ct_ok rQ level B c -> fits rQ B -> words rQ level (fun q => 2 * q) (comp c 1) -> decrypts rQ L skr c M -> ctDegree c = 1%nat ->
    k <> 0 -> rtks (gal k) = Some key -> rotation_key rQ rP L lQ lP (gal k) key sec Be ->
    blocks_below rQ level lP DQ -> 0 <= Be -> 0 <= Bs -> pbound n Bs sec ->
    exists c' E, RotateNew rQ rP lP rtks c k s = Some c' /\ ct_ok rQ level B c' /\ ctDegree c' = 1%nat /\
      ctScale c' = ctScale c /\ switch_noise rQ rP level lP DQ Be Bs E /\ decrypts rQ L skr c' (padd (rot rQ k M) E).
  Proof.
    intros Hs HK K0 F0 Hw D0 G0 Hk Hr Hkey HDQ HBe HBs Hb.
    assert (LV : ctLevel c = level) by (destruct K0 as (_ & N0 & _ & H); unfold ctLevel; rewrite (proj1 (H 0%nat ltac:(lia))); lia).
    unfold RotateNew. rewrite G0, LV. assert (Hl : (level <= lQ)%nat) by (destruct K0 as (H & _); unfold lQ, maxLevel; lia).
    exact (rotate_correct rQ rP L HP EL lQ lP level level B rtks key k c (NewCiphertext (rN rQ) 1 level (ctScale c)) s skr sec M DQ Be Bs Hs HK K0 F0 Hw D0 G0 (new_shaped level (ctScale c)) (le_n _) Hl Hk Hr Hkey HDQ HBe HBs Hb).
  Qed.

  Lemma conjugate_new level B rtks key c s skr sec M DQ Be Bs :
    secret rQ L skr sec -> key_levels rQ rP lQ lP ->
    ct_ok rQ level B c -> fits rQ B -> words rQ level (fun q => 2 * q) (comp c 1) -> decrypts rQ L skr c M -> ctDegree c = 1%nat ->
    rtks row = Some key -> rotation_key rQ rP L lQ lP row key sec Be ->
    blocks_below rQ level lP DQ -> 0 <= Be -> 0 <= Bs -> pbound n Bs sec ->
    exists c' E, ConjugateNew rQ rP lP rtks c s = Some c' /\ ct_ok rQ level B c' /\ ctDegree c' = 1%nat /\
      ctScale c' = ctScale c /\ switch_noise rQ rP level lP DQ Be Bs E /\ decrypts rQ L skr c' (padd (pauto n (2 * n - 1) M) E).
  Proof.
    intros Hs HK K0 F0 Hw D0 G0 Hr Hkey HDQ HBe HBs Hb.
    assert (LV : ctLevel c = level) by (destruct K0 as (_ & N0 & _ & H); unfold ctLevel; rewrite (proj1 (H 0%nat ltac:(lia))); lia).
    unfold ConjugateNew. rewrite G0, LV. assert (Hl : (level <= lQ)%nat) by (destruct K0 as (H & _); unfold lQ, maxLevel; lia).
    destruct (row_rotation 2 rQ (Z.le_refl 2) B2) as [ER _]. rewrite ER in Hr, Hkey.
    replace (2 * n - 1)%nat with (Z.to_nat (2 * Z.of_nat n - 1)) by lia.
    exact (conjugate_correct rQ rP L HP EL lQ lP level level B rtks key c (NewCiphertext (rN rQ) 1 level (ctScale c)) s skr sec M DQ Be Bs Hs HK K0 F0 Hw D0 G0 (new_shaped level (ctScale c)) (le_n _) Hl Hr Hkey HDQ HBe HBs Hb).
  Qed.

  Lemma rotate_missing (rtks : Z -> option swkey) levelP k c s : k <> 0 -> rtks (gal k) = None -> RotateNew rQ rP levelP rtks c k s = None.
  Proof. intros Hk H. unfold RotateNew, Rotate. destruct (_ || _)%bool; [reflexivity|]. apply Z.eqb_neq in Hk. rewrite Hk, H. reflexivity. Qed.
  Lemma conjugate_missing (rtks : Z -> option swkey) levelP c s : rtks row = None -> ConjugateNew rQ rP levelP rtks c s = None.
  Proof. intros H. unfold ConjugateNew, Conjugate. destruct (_ || _)%bool; [reflexivity|]. rewrite H. reflexivity. Qed.

  (** ** The sum of all the rotations *)
  Lemma pow2_mod_half m i : rN rQ = (2 ^ (m + 1))%nat -> (i < m)%nat -> (2 ^ Z.of_nat i) mod (Z.of_nat (rN rQ) / 2) = 2 ^ Z.of_nat i.
  Proof. intros HN Hi. rewrite (AutoProps.half_N rQ m HN). apply Z.mod_small. split; [apply Z.pow_nonneg; lia|]. apply Z.pow_lt_mono_r; lia. Qed.

  Lemma inner_has sk d k : (1 <= L)%nat ->
    (exists key, GetRotationKey (GenRotationKeysForInnerSum rQ rP L sk d) (gal k) = Some key) <->
    exists i, (i < L - 1)%nat /\ k mod (Z.of_nat n / 2) = 2 ^ Z.of_nat i.
  Proof.
    intros HL. unfold GenRotationKeysForInnerSum, GaloisElementsForRowInnerSum. rewrite set_keys, in_app_iff, in_map_iff.
    assert (HN : rN rQ = (2 ^ ((L - 1) + 1))%nat) by (rewrite EL; f_equal; lia). split.
    - intros [(i & E & Hi)|[H|[]]].
      + apply in_seq in Hi. exists i. split; [lia|]. apply (gal_eq_iff 2 rQ (Z.le_refl 2) B2) in E. unfold n. rewrite <- E. apply (pow2_mod_half (L - 1) i HN). lia.
      + exfalso. destruct (row_rotation 2 rQ (Z.le_refl 2) B2) as (_ & _ & N). apply (N k). exact H.
    - intros (i & Hi & E). left. exists i. split; [|apply in_seq; lia]. apply (gal_eq_iff 2 rQ (Z.le_refl 2) B2). fold n. rewrite E. apply (pow2_mod_half (L - 1) i HN Hi).
  Qed.
  Lemma inner_has_row sk d : exists key, GetRotationKey (GenRotationKeysForInnerSum rQ rP L sk d) row = Some key.
  Proof. apply set_keys. unfold GaloisElementsForRowInnerSum. apply in_app_iff. right. left. reflexivity. Qed.
  Lemma inner_word g : In g (GaloisElementsForRowInnerSum rQ L) -> 0 <= g < W /\ Z.odd g = true.
  Proof.
    unfold GaloisElementsForRowInnerSum. rewrite in_app_iff, in_map_iff. intros [(k & <- & _)|[<- |[]]]; [apply gal_word|apply row_word].
  Qed.

  Lemma product_P : 0 <= product (prefix rP lP).
  Proof.
    assert (POS : forall l, (forall q, In q l -> In q (moduli rP)) -> 0 <= product l).
    { induction l as [|q l IH]; intros Hl; [discriminate|]. cbn [product fold_right]. apply Z.mul_nonneg_nonneg.
      - assert (Pq : prime q) by (apply (sw_prime rP); [exact (k_P rQ rP HP)|apply Hl; left; reflexivity]). apply prime_ge_2 in Pq. lia.
      - apply IH. intros x Hx. apply Hl. right. exact Hx. }
    apply POS. intros q Hq. unfold prefix in Hq. apply firstn_in in Hq. exact Hq.
  Qed.
  Lemma noise_one level DQ Be Bs E : switch_noise rQ rP level lP DQ Be Bs E -> switch_noises rQ rP level lP 1 DQ Be Bs E.
  Proof. intros H k Hk. rewrite Z.mul_1_l. apply H. exact Hk. Qed.
  Lemma noise_add level a b DQ Be Bs E F : switch_noises rQ rP level lP a DQ Be Bs E -> switch_noises rQ rP level lP b DQ Be Bs F ->
    switch_noises rQ rP level lP (a + b) DQ Be Bs (padd E F).
  Proof.
    intros HE HF k Hk. specialize (HE k Hk). specialize (HF k Hk). cbv zeta in *. unfold padd. 
    assert (P : 0 <= product (prefix rP lP)) by (apply product_P).
    revert HE HF. generalize ((2 ^ 42 + 1) * (Z.of_nat (ceil_div (level + 1) (lP + 1)) * (Z.of_nat (rN rQ) * (DQ * Be)) + product (prefix rP lP) * (1 + Z.of_nat (rN rQ) * Bs))).
    revert P. generalize (product (prefix rP lP)). generalize (E k) (F k). clear. intros x y p Hp w Hx Hy.
    assert (T : p * Z.abs (x + y) <= p * Z.abs x + p * Z.abs y) by (rewrite <- Z.mul_add_distr_l; apply Z.mul_le_mono_nonneg_l; [exact Hp|apply Z.abs_triangle]).
    rewrite Z.mul_add_distr_r. lia.
  Qed.
  Lemma noise_rot level a k DQ Be Bs E : switch_noises rQ rP level lP a DQ Be Bs E -> switch_noises rQ rP level lP a DQ Be Bs (rot rQ k E).
  Proof.
    intros HE j Hj. unfold rot. destruct (gal_range 2 rQ (Z.le_refl 2) B2 k) as [Rk _]. destruct (gal_range 2 rQ (Z.le_refl 2) B2 (- k)) as [Rh _].
    pose proof (gal_add 2 rQ (Z.le_refl 2) B2 (- k) k) as I. replace (- k + k) with 0 in I by lia. rewrite (gal_0 2 rQ (Z.le_refl 2) B2) in I.
    assert (OgN := gal_nat_odd rQ B2 k). rewrite EL in *. 
    destruct (pauto_coeff L (Z.to_nat (gal (- k))) (Z.to_nat (gal k))) with (X := E) (k := j) as (i & Hi & Eq).
    - exact OgN.
    - apply Nat2Z.inj. rewrite !Nat2Z.inj_mod, Nat2Z.inj_mul, !Z2Nat.id by lia.
      assert (P : 0 < Z.of_nat (2 ^ L)) by (pose proof (Nat.pow_nonzero 2 L); lia). revert I P. generalize (Z.of_nat (2 ^ L)) (gal k) (gal (- k)). clear. intros N g h I P.
      rewrite (Z.mul_comm g h). transitivity (((h * g) mod (2 * N)) mod N); [|rewrite I; reflexivity]. apply Zmod_div_mod; [lia|lia|]. exists 2. ring.
    - exact Hj.
    - rewrite Eq. unfold switch_noises in HE. rewrite EL in HE. exact (HE i Hi).
  Qed.

  Lemma add_new level c0 c1 pool skr sec M0 M1 :
    secret rQ L skr sec -> ct_ok rQ level canon c0 -> ct_ok rQ level canon c1 -> decrypts rQ L skr c0 M0 -> decrypts rQ L skr c1 M1 ->
    ctDegree c0 = 1%nat -> ctDegree c1 = 1%nat -> ctScale c1 = ctScale c0 -> shaped 2 lQ pool ->
    exists c, AddNew rQ c0 c1 pool = Some c /\ ct_ok rQ level canon c /\ ctDegree c = 1%nat /\ ctScale c = ctScale c0 /\ decrypts rQ L skr c (padd M0 M1).
  Proof.
    intros Hs K0 K1 D0 D1 G0 G1 ES Hpool.
    assert (LV : forall c, ct_ok rQ level canon c -> ctLevel c = level).
    { intros c (_ & N0 & _ & H). unfold ctLevel. rewrite (proj1 (H 0%nat ltac:(lia))). lia. }
    assert (Hl : (level <= lQ)%nat) by (destruct K0 as (H & _); unfold lQ, maxLevel; lia).
    pose proof (fits_canon rQ BQ L EL) as FC.
    assert (F2 : fits rQ (fun q => canon q + canon q - q)).
    { intros i Hi. specialize (FC i Hi). unfold canon in *. lia. }
    assert (EP : ctDegree pool = 2%nat) by (unfold ctDegree; rewrite (proj1 Hpool); reflexivity).
    unfold AddNew, newCiphertextBinary. rewrite G0, G1, (LV c0 K0), (LV c1 K1), ES, !Nat.min_id, Nat.max_id.
    destruct (CkksAdd.add_correct rQ BQ L EL level level level 1 canon canon c0 c1 (NewCiphertext (rN rQ) 1 level (MaxFloat64 (ctScale c0) (ctScale c0))) pool skr sec M0 M1 Hs K0 K1 FC FC F2 D0 D1)
      as (c & E & Hc & Hd & Hsc & D); try (rewrite ?G0, ?G1, ?EP; lia).
    - apply new_shaped.
    - rewrite (shaped_level _ _ _ Hpool), !Nat.min_id. exact Hl.
    - rewrite ES, match_same. split; [lia|reflexivity].
    - rewrite ES, match_same. split; [lia|reflexivity].
    - rewrite !Nat.min_id in Hc. rewrite ES, match_same in D.
      exists c. split; [exact E|]. split.
      { destruct Hc as (A1 & A2 & A3 & A4). split; [exact A1|]. split; [exact A2|]. split; [exact A3|]. intros j Hj. destruct (A4 j Hj) as [A5 [A6 A7]]. split; [exact A5|].
        split; [exact A6|]. intros i Hi. destruct (A7 i Hi) as [A8 A9]. split; [exact A8|]. intros k Hk. specialize (A9 k Hk). cbv beta in *. unfold canon in *. lia. }
      split; [rewrite Hd, G0, G1; reflexivity|]. split; [rewrite Hsc, ES; unfold MaxFloat64; destruct (f64_le _ _); reflexivity|].
      destruct (ct_ok_repr rQ BQ L EL level _ c Hc) as [C HC]. apply (ct_repr_peq rQ BQ L EL level _ c C skr sec _ _ HC F2 Hs D). intros i Hi k Hk.
      unfold padd, pscale. apply eqm_eq. ring.
  Qed.

  Lemma fold_correct level rtks s pool skr sec M DQ Be Bs :
    secret rQ L skr sec -> key_levels rQ rP lQ lP -> blocks_below rQ level lP DQ -> 0 <= Be -> 0 <= Bs -> pbound n Bs sec ->
    (forall i, shaped 2 lQ (pool i)) ->
    forall cnt i c E, 
    (forall j, (i <= j < i + cnt)%nat -> exists key, rtks (gal (2 ^ Z.of_nat j)) = Some key /\ rotation_key rQ rP L lQ lP (gal (2 ^ Z.of_nat j)) key sec Be) ->
    ct_ok rQ level canon c -> ctDegree c = 1%nat -> switch_noises rQ rP level lP (2 ^ Z.of_nat i - 1) DQ Be Bs E ->
    decrypts rQ L skr c (padd (sum_rotations rQ 1 (2 ^ i) M) E) ->
    exists c' E', fold_rotations rQ rP rtks cnt i c s pool = Some c' /\ ct_ok rQ level canon c' /\ ctDegree c' = 1%nat /\ ctScale c' = ctScale c /\
      switch_noises rQ rP level lP (2 ^ Z.of_nat (i + cnt) - 1) DQ Be Bs E' /\ decrypts rQ L skr c' (padd (sum_rotations rQ 1 (2 ^ (i + cnt)) M) E').
  Proof.
    intros Hs HK HDQ HBe HBs Hb Hpool. induction cnt as [|cnt IH]; intros i c E Hkeys Hc Hd HE D.
    - exists c, E. rewrite Nat.add_0_r. cbn [fold_rotations]. split; [reflexivity|]. split; [exact Hc|]. split; [exact Hd|]. split; [reflexivity|]. split; [exact HE|exact D].
    - cbn [fold_rotations]. destruct (Hkeys i ltac:(lia)) as (key & Hr & Hkey).
      assert (P : 0 < 2 ^ Z.of_nat i) by (apply Z.pow_pos_nonneg; lia).
      pose proof (fits_canon rQ BQ L EL) as FC.
      assert (Hw : words rQ level (fun q => 2 * q) (comp c 1)).
      { destruct Hc as (A1 & A2 & A3 & A4). destruct (A4 1%nat ltac:(unfold ctDegree in Hd; lia)) as [A5 [A6 A7]].
        split; [exact A6|]. intros j Hj. destruct (A7 j Hj) as [A8 A9]. split; [exact A8|]. intros k Hk. specialize (A9 k Hk). unfold canon in A9. lia. }
      destruct (rotate_new level canon rtks key (2 ^ Z.of_nat i) c (s i) skr sec (padd (sum_rotations rQ 1 (2 ^ i) M) E) DQ Be Bs Hs HK Hc FC Hw D Hd ltac:(lia) Hr Hkey HDQ HBe HBs Hb)
        as (r & F & Er & Kr & Gr & Sr & NF & Dr).
      fold lP. rewrite Er. destruct (add_new level c r (pool i) skr sec _ _ Hs Hc Kr D Dr Hd Gr Sr (Hpool i)) as (c1 & Ec & Kc & Gc & Sc & Dc). rewrite Ec.
      set (E1 := padd E (padd (rot rQ (2 ^ Z.of_nat i) E) F)).
      destruct (IH (S i) c1 E1) as (c' & E' & H1 & H2 & H3 & H4 & H5 & H6).
      + intros j Hj. apply Hkeys. lia.
      + exact Kc.
      + exact Gc.
      + unfold E1. replace (2 ^ Z.of_nat (S i) - 1) with ((2 ^ Z.of_nat i - 1) + ((2 ^ Z.of_nat i - 1) + 1)) by (rewrite (Nat2Z.inj_succ i), Z.pow_succ_r by lia; lia).
        apply noise_add; [exact HE|]. apply noise_add; [apply noise_rot; exact HE|apply noise_one; exact NF].
      + destruct (ct_ok_repr rQ BQ L EL level _ c1 Kc) as [C HC]. apply (ct_repr_peq rQ BQ L EL level _ c1 C skr sec _ _ HC FC Hs Dc). intros a Ha.
        fold n. transitivity (padd (padd (sum_rotations rQ 1 (2 ^ i) M) (rot rQ (2 ^ Z.of_nat i * 1) (sum_rotations rQ 1 (2 ^ i) M))) E1).
        * unfold E1. rewrite Z.mul_1_r. etransitivity; [apply padd_peq; [reflexivity|]; apply padd_peq; [apply rot_add|reflexivity]|].
          intros k Hk. apply eqm_eq. unfold padd. ring.
        * apply padd_peq; [|reflexivity]. apply (double_range rQ B2). reflexivity.
      + exists c', E'. replace (i + S cnt)%nat with (S i + cnt)%nat by lia. split; [exact H1|]. split; [exact H2|]. split; [exact H3|]. split; [rewrite H4; exact Sc|]. split; [exact H5|exact H6].
  Qed.
End Top.

(** ** The statements *)
Lemma set_keys_top : forall rQ rP, ring_pair rQ rP -> forall L, rN rQ = (2 ^ L)%nat ->
  forall galEls sk s d Be, Forall (fun g => 0 <= g < W /\ Z.odd g = true) galEls -> sampled rQ rP (maxLevel rQ) (maxLevel rP) sk s -> draws_ok rQ rP Be (length galEls) d ->
  let set := GenRotationKeys rQ rP galEls (genSecretKey rQ rP sk) d in
  (forall g, GetRotationKey set g = None <-> ~ In g galEls) /\
  (forall g key, GetRotationKey set g = Some key -> rotation_key rQ rP L (maxLevel rQ) (maxLevel rP) g key s Be) /\
  length set = length (nodup Z.eq_dec galEls).
Proof.
  intros rQ rP HP L EL galEls sk s d Be HF Hs Hd set. split; [|split].
  - intros g. split.
    + intros H I. apply (set_keys rQ rP (genSecretKey rQ rP sk) d) in I. destruct I as [key I]. fold set in I. rewrite H in I. discriminate.
    + intros H. destruct (GetRotationKey set g) as [key|] eqn:E; [|reflexivity]. exfalso. apply H. apply (set_keys rQ rP (genSecretKey rQ rP sk) d). exists key. exact E.
  - intros g key H. assert (I : In g galEls) by (apply (set_keys rQ rP (genSecretKey rQ rP sk) d); exists key; exact H).
    rewrite Forall_forall in HF. destruct (HF g I) as [H1 H2]. exact (set_key rQ rP L HP EL sk s Be d Hs galEls g key Hd H1 H2 H).
  - apply set_size.
Qed.

Lemma rotate_top : forall rQ rP, ring_pair rQ rP -> forall L, rN rQ = (2 ^ L)%nat ->
  forall ks (conj : bool) sk s d Be Bs level B c M k scratch DQ,
  let lP := maxLevel rP in let count := (length ks + if conj then 1 else 0)%nat in
  sampled rQ rP (maxLevel rQ) lP sk s -> draws_ok rQ rP Be count d -> (lP < 18)%nat ->
  ct_ok rQ level B c -> fits rQ B -> words rQ level (fun q => 2 * q) (comp c 1) -> decrypts rQ L (fst (genSecretKey rQ rP sk)) c M -> ctDegree c = 1%nat -> k <> 0 ->
  blocks_below rQ level lP DQ -> 0 <= Be -> 0 <= Bs -> pbound (rN rQ) Bs s ->
  let set := GetRotationKey (GenRotationKeysForRotations rQ rP ks conj (genSecretKey rQ rP sk) d) in let half := Z.of_nat (rN rQ) / 2 in
  ((exists k', In k' ks /\ k mod half = k' mod half) ->
    exists c' E, RotateNew rQ rP lP set c k scratch = Some c' /\ ct_ok rQ level B c' /\ ctDegree c' = 1%nat /\ ctScale c' = ctScale c /\
      switch_noise rQ rP level lP DQ Be Bs E /\ decrypts rQ L (fst (genSecretKey rQ rP sk)) c' (padd (rot rQ k M) E)) /\
  (~ (exists k', In k' ks /\ k mod half = k' mod half) -> RotateNew rQ rP lP set c k scratch = None).
Proof.
  intros rQ rP HP L EL ks conj sk s d Be Bs level B c M k scratch DQ lP count Hs Hd H18 K0 F0 Hw D0 G0 Hk HDQ HBe HBs Hb set half. split; intros H.
  - apply (rotations_has rQ rP HP ks conj (genSecretKey rQ rP sk) d k) in H. destruct H as [key H].
    assert (Hsec : secret rQ L (fst (genSecretKey rQ rP sk)) s) by (apply (secret_key rQ rP L HP EL sk s); exact Hs).
    destruct (gal_word rQ rP L HP EL k) as [W1 W2].
    assert (Hd' : draws_ok rQ rP Be (length (map (GaloisElementForColumnRotationBy rQ) ks ++ (if conj then [GaloisElementForRowRotation rQ] else []))) d).
    { rewrite app_length, map_length. replace (length (if conj then [GaloisElementForRowRotation rQ] else [])) with (if conj then 1 else 0)%nat by (destruct conj; reflexivity). exact Hd. }
    pose proof (set_key rQ rP L HP EL sk s Be d Hs _ _ key Hd' W1 W2 H) as Hkey.
    apply (rotate_new rQ rP L HP EL level B set key k c scratch (fst (genSecretKey rQ rP sk)) s M DQ Be Bs); try assumption.
    split; [apply (max_ne rQ (k_Q rQ rP HP))|]. split; [apply (max_ne rP (k_P rQ rP HP))|exact H18].
  - apply rotate_missing; [exact Hk|]. unfold set. destruct (GetRotationKey _ _) as [key|] eqn:E; [|reflexivity]. exfalso. apply H.
    apply (rotations_has rQ rP HP ks conj (genSecretKey rQ rP sk) d k). exists key. exact E.
Qed.

Lemma conjugate_top : forall rQ rP, ring_pair rQ rP -> forall L, rN rQ = (2 ^ L)%nat ->
  forall ks (conj : bool) sk s d Be Bs level B c M scratch DQ,
  let lP := maxLevel rP in let count := (length ks + if conj then 1 else 0)%nat in
  sampled rQ rP (maxLevel rQ) lP sk s -> draws_ok rQ rP Be count d -> (lP < 18)%nat ->
  ct_ok rQ level B c -> fits rQ B -> words rQ level (fun q => 2 * q) (comp c 1) -> decrypts rQ L (fst (genSecretKey rQ rP sk)) c M -> ctDegree c = 1%nat ->
  blocks_below rQ level lP DQ -> 0 <= Be -> 0 <= Bs -> pbound (rN rQ) Bs s ->
  let set := GetRotationKey (GenRotationKeysForRotations rQ rP ks conj (genSecretKey rQ rP sk) d) in
  if conj then
    exists c' E, ConjugateNew rQ rP lP set c scratch = Some c' /\ ct_ok rQ level B c' /\ ctDegree c' = 1%nat /\ ctScale c' = ctScale c /\
      switch_noise rQ rP level lP DQ Be Bs E /\ decrypts rQ L (fst (genSecretKey rQ rP sk)) c' (padd (pauto (rN rQ) (2 * rN rQ - 1) M) E)
  else ConjugateNew rQ rP lP set c scratch = None.
Proof.
  intros rQ rP HP L EL ks conj sk s d Be Bs level B c M scratch DQ lP count Hs Hd H18 K0 F0 Hw D0 G0 HDQ HBe HBs Hb set. destruct conj.
  - destruct (proj2 (rotations_has_row rQ rP HP ks true (genSecretKey rQ rP sk) d) eq_refl) as [key H].
    assert (Hsec : secret rQ L (fst (genSecretKey rQ rP sk)) s) by (apply (secret_key rQ rP L HP EL sk s); exact Hs).
    destruct (row_word rQ rP L HP EL) as [W1 W2].
    assert (Hd' : draws_ok rQ rP Be (length (map (GaloisElementForColumnRotationBy rQ) ks ++ [GaloisElementForRowRotation rQ])) d).
    { rewrite app_length, map_length. exact Hd. }
    pose proof (set_key rQ rP L HP EL sk s Be d Hs _ _ key Hd' W1 W2 H) as Hkey.
    apply (conjugate_new rQ rP L HP EL level B set key c scratch (fst (genSecretKey rQ rP sk)) s M DQ Be Bs); try assumption.
    split; [apply (max_ne rQ (k_Q rQ rP HP))|]. split; [apply (max_ne rP (k_P rQ rP HP))|exact H18].
  - apply conjugate_missing. unfold set. destruct (GetRotationKey _ _) as [key|] eqn:E; [|reflexivity]. exfalso.
    assert (F : false = true) by (apply (rotations_has_row rQ rP HP ks false (genSecretKey rQ rP sk) d); exists key; exact E). discriminate.
Qed.

Lemma inner_keys_top : forall rQ rP, ring_pair rQ rP -> forall L, rN rQ = (2 ^ L)%nat -> (1 <= L)%nat -> forall sk d,
  let set := GetRotationKey (GenRotationKeysForInnerSum rQ rP L sk d) in
  (forall k, set (GaloisElementForColumnRotationBy rQ k) <> None <-> exists i, (i < L - 1)%nat /\ k mod (Z.of_nat (rN rQ) / 2) = 2 ^ Z.of_nat i) /\
  set (GaloisElementForRowRotation rQ) <> None.
Proof.
  intros rQ rP HP L EL HL sk d set. split.
  - intros k. rewrite <- (inner_has rQ rP L HP EL sk d k HL). unfold set. destruct (GetRotationKey _ _) as [key|].
    + split; [intros _; exists key; reflexivity|discriminate].
    + split; [intros H; exfalso; apply H; reflexivity|]. intros [key H]. discriminate.
  - destruct (inner_has_row rQ rP L sk d) as [key H]. unfold set. rewrite H. discriminate.
Qed.

Lemma inner_sum_top : forall rQ rP, ring_pair rQ rP -> forall L, rN rQ = (2 ^ L)%nat -> (1 <= L)%nat ->
  forall sk s d Be Bs level c M scratch pool DQ,
  let lP := maxLevel rP in
  sampled rQ rP (maxLevel rQ) lP sk s -> draws_ok rQ rP Be L d -> (lP < 18)%nat ->
  ct_ok rQ level canon c -> decrypts rQ L (fst (genSecretKey rQ rP sk)) c M -> ctDegree c = 1%nat ->
  blocks_below rQ level lP DQ -> 0 <= Be -> 0 <= Bs -> pbound (rN rQ) Bs s -> (forall i, shaped 2 (maxLevel rQ) (pool i)) ->
  let set := GetRotationKey (GenRotationKeysForInnerSum rQ rP L (genSecretKey rQ rP sk) d) in let half := (rN rQ / 2)%nat in
  exists c' E, fold_rotations rQ rP set (L - 1) 0 c scratch pool = Some c' /\ ct_ok rQ level canon c' /\ ctDegree c' = 1%nat /\ ctScale c' = ctScale c /\
    switch_noises rQ rP level lP (Z.of_nat half - 1) DQ Be Bs E /\ decrypts rQ L (fst (genSecretKey rQ rP sk)) c' (padd (sum_rotations rQ 1 half M) E).
Proof.
  intros rQ rP HP L EL HL sk s d Be Bs level c M scratch pool DQ lP Hs Hd H18 K0 D0 G0 HDQ HBe HBs Hb Hpool set half.
  assert (Hsec : secret rQ L (fst (genSecretKey rQ rP sk)) s) by (apply (secret_key rQ rP L HP EL sk s); exact Hs).
  assert (EH : half = (2 ^ (L - 1))%nat).
  { unfold half. rewrite EL. replace L with (S (L - 1)) at 1 by lia. rewrite Nat.pow_succ_r', Nat.mul_comm. apply Nat.div_mul. lia. }
  assert (HLen : length (GaloisElementsForRowInnerSum rQ L) = L) by (unfold GaloisElementsForRowInnerSum; rewrite app_length, map_length, seq_length; cbn [length]; lia).
  rewrite EH. replace (Z.of_nat (2 ^ (L - 1))) with (2 ^ Z.of_nat (0 + (L - 1))) by (rewrite Nat2Z.inj_pow; reflexivity).
  replace (2 ^ (L - 1))%nat with (2 ^ (0 + (L - 1)))%nat by reflexivity.
  apply (fold_correct rQ rP L HP EL level set scratch pool (fst (genSecretKey rQ rP sk)) s M DQ Be Bs) with (E := pzero); try assumption.
  - split; [apply (max_ne rQ (k_Q rQ rP HP))|]. split; [apply (max_ne rP (k_P rQ rP HP))|exact H18].
  - intros j Hj. assert (HN : rN rQ = (2 ^ ((L - 1) + 1))%nat) by (rewrite EL; f_equal; lia).
    destruct (proj2 (inner_has rQ rP L HP EL (genSecretKey rQ rP sk) d (2 ^ Z.of_nat j) HL)) as [key H].
    { exists j. split; [lia|]. apply (pow2_mod_half rQ rP L EL (L - 1) j HN). lia. }
    exists key. split; [exact H|]. destruct (gal_word rQ rP L HP EL (2 ^ Z.of_nat j)) as [W1 W2].
    apply (set_key rQ rP L HP EL sk s Be d Hs (GaloisElementsForRowInnerSum rQ L) _ key); try assumption. rewrite HLen. exact Hd.
  - intros k Hk. unfold pzero. cbn. rewrite Z.mul_0_r. lia.
  - pose proof (fits_canon rQ (k_Q rQ rP HP) L EL) as FC.
    destruct (ct_ok_repr rQ (k_Q rQ rP HP) L EL level _ c K0) as [C HC]. apply (ct_repr_peq rQ (k_Q rQ rP HP) L EL level _ c C _ s _ _ HC FC Hsec D0). intros i Hi.
    transitivity (padd (sum_rotations rQ 1 1 M) pzero); [|reflexivity].
    etransitivity; [apply (start_range rQ (one_2 rQ (k_Q rQ rP HP)) _ 1 M)|]. change (range rQ 1 0 1 M) with (sum_rotations rQ 1 1 M). intros k Hk. apply eqm_eq. unfold padd, pzero. ring.
Qed.

Lemma inner_list_top : forall rQ rP, ring_pair rQ rP -> forall batch n conj sk d t, 0 <= t < n ->
  (let set := GetRotationKey (GenRotationKeysForRotations rQ rP (RotationsForInnerSum batch n) conj sk d) in
   t = 0 \/ set (GaloisElementForColumnRotationBy rQ (t * batch)) <> None) /\
  (let set := GetRotationKey (GenRotationKeysForRotations rQ rP (RotationsForReplicate batch n) conj sk d) in
   t = 0 \/ set (GaloisElementForColumnRotationBy rQ (- t * batch)) <> None).
Proof.
  intros rQ rP HP batch n conj sk d t Ht. assert (B2 : built_ring 2 rQ) by (apply one_2, (k_Q rQ rP HP)).
  assert (G : forall b k, eqm (2 ^ 64) k (t * b) -> t = 0 \/ GetRotationKey (GenRotationKeysForRotations rQ rP (RotationsForInnerSum b n) conj sk d) (GaloisElementForColumnRotationBy rQ k) <> None).
  { intros b k E. destruct (Z.eq_dec t 0) as [Z0|NZ]; [left; exact Z0|right].
    destruct (proj2 (rotations_has rQ rP HP (RotationsForInnerSum b n) conj sk d (RingUtil.wint (t * b)))) as [key H].
    - exists (RingUtil.wint (t * b)). split; [|reflexivity]. unfold RotationsForInnerSum. apply in_map_iff. exists (Z.to_nat t). split; [rewrite Z2Nat.id by lia; reflexivity|]. apply in_seq. lia.
    - rewrite (gal_wrap rQ B2 k (RingUtil.wint (t * b))); [rewrite H; discriminate|]. etransitivity; [exact E|]. symmetry. apply wint_mod. }
  split; cbv zeta.
  - apply G. reflexivity.
  - unfold RotationsForReplicate. apply G. etransitivity; [|apply eqm_mul; [reflexivity|symmetry; apply wint_mod]]. apply eqm_eq. ring.
Qed.

Lemma log_top : forall rQ rP, ring_pair rQ rP -> forall fuel order batch n M,
  (62 < fuel)%nat -> (forall l, Permutation l (order l)) -> 1 <= n <= 2 ^ 62 ->
  exists rots, RotationsForInnerSumLog fuel order batch n = Some rots /\ NoDup rots /\ Z.of_nat (length rots) <= 2 * Z.log2_up n /\
    computes rQ rots M (Z.to_nat (2 * Z.log2_up n)) (sum_rotations rQ batch (Z.to_nat n) M).
Proof. intros rQ rP HP fuel order batch n M. apply log_computes. apply one_2, (k_Q rQ rP HP). Qed.

Lemma replicate_log_top : forall rQ rP, ring_pair rQ rP -> forall fuel order batch n M,
  (62 < fuel)%nat -> (forall l, Permutation l (order l)) -> 1 <= n <= 2 ^ 62 ->
  exists rots, RotationsForReplicateLog fuel order batch n = Some rots /\ NoDup rots /\ Z.of_nat (length rots) <= 2 * Z.log2_up n /\
    computes rQ rots M (Z.to_nat (2 * Z.log2_up n)) (sum_rotations rQ (- batch) (Z.to_nat n) M).
Proof.
  intros rQ rP HP fuel order batch n M Hf Ho Hn. assert (B2 : built_ring 2 rQ) by (apply one_2, (k_Q rQ rP HP)).
  destruct (log_computes rQ B2 fuel order (RingUtil.wint (- batch)) n M Hf Ho Hn) as (rots & H1 & H2 & H3 & (c & l & Y & H4 & H5 & H6 & H7)).
  exists rots. split; [exact H1|]. split; [exact H2|]. split; [exact H3|]. exists c, l, Y. split; [exact H4|]. split; [exact H5|]. split; [exact H6|].
  intros q. etransitivity; [apply H7|]. apply peq_exact. intros k Hk. unfold sum_rotations, psum. apply bigsum_ext. intros i Hi.
  rewrite (rot_wrap rQ B2 _ (Z.of_nat i * - batch) M); [reflexivity|]. apply eqm_mul; [reflexivity|apply wint_mod].
Qed.

Lemma trace_top : forall rQ rP, ring_pair rQ rP -> forall a b M, (a <= b)%nat ->
  computes rQ (RotationsForTrace a b) M (b - a) (sum_rotations rQ (2 ^ Z.of_nat a) (2 ^ (b - a)) M).
Proof. intros rQ rP HP a b M. apply trace_computes. apply one_2, (k_Q rQ rP HP). Qed.

Lemma single_top : forall rQ rP, ring_pair rQ rP -> forall k sk,
  GenSwitchingKeyForRotationBy rQ rP k sk = GenSwitchingKeyForGalois rQ rP (GaloisElementForColumnRotationBy rQ k) sk /\
  GenSwitchingKeyForRowRotation rQ rP sk = GenSwitchingKeyForGalois rQ rP (GaloisElementForRowRotation rQ) sk.
Proof.
  intros rQ rP HP k sk. assert (B2 : built_ring 2 rQ) by (apply one_2, (k_Q rQ rP HP)).
  unfold GenSwitchingKeyForRotationBy, GenSwitchingKeyForRowRotation, GenSwitchingKeyForGalois. split; f_equal; symmetry.
  - apply (inverse_gal 2 rQ (Z.le_refl 2) B2).
  - destruct (gal_setup 2 rQ (Z.le_refl 2) B2) as (m0 & HN & _). destruct (row_word rQ rP (m0 + 1)%nat HP HN) as [W1 W2]. destruct (inverse_odd 2 rQ (Z.le_refl 2) B2 _ W1 W2) as (R & O & I).
    destruct (row_rotation 2 rQ (Z.le_refl 2) B2) as (E1 & E2 & _). rewrite E1 in *. set (m := 2 * Z.of_nat (rN rQ)) in *. set (x := InverseGaloisElement rQ (m - 1)) in *.
    clearbody x. clear - R I E2.
    assert (E : (x * ((m - 1) * (m - 1))) mod m = (m - 1) mod m).
    { replace (x * ((m - 1) * (m - 1))) with ((m - 1) * x * (m - 1)) by ring. rewrite <- Z.mul_mod_idemp_l, I, Z.mul_1_l by lia. reflexivity. }
    rewrite <- Z.mul_mod_idemp_r, E2, Z.mul_1_r in E by lia. rewrite !Z.mod_small in E by lia. exact E.
Qed.
