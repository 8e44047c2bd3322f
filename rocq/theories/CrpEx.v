(** Encryption from a shared polynomial for the ring and the generators of SessionEx.v. *)
From Flocq Require Import IEEE754.Binary IEEE754.Bits IEEE754.BinarySingleNaN.
From Verif Require Import Word Arith PolySpec PolyProofs Ring RingProofs NTT RingOps RNSSpec RowProofs OpsProofs OpsProps BasisExt Automorphism Gadget Frlwe FrlweSetup GadgetSpec Repr FrlweProps RlweSpec Rlwe RlweKeys RlweTop Float64 Codec Sampler SamplerSpec Gauss GaussSpec Ckks CkksSpec CkksBase MsgEx Draw DrawSpec DrawProofs SessionProofs SessionEx KeyKinds KeyKindsSpec KeyKindsProofs KeyKindsEx Crp CrpProofs.
From Verif Require BasisEx.
Local Open Scope Z_scope.

(** Two parties with keys of their own encrypt from the same polynomial. *)
Definition two_parties (src : source) (rQ : Ring) (k k' : kind) (pt pt' : rows) (scale : float64) (crp pool : rows) (st : samplers) : res ((rows * rows) * (Ct * Ct)) :=
  let* '(sk, st) := DrawKindQ src rQ k st in
  let* '(sk', st) := DrawKindQ src rQ k' st in
  let* '(c, st) := EncryptFromCRPNew src rQ (SkKey sk) pt false scale crp pool st in
  let* '(c', st) := EncryptFromCRPNew src rQ (SkKey sk') pt' false scale crp pool st in
  Ret ((sk, sk'), (c, c')).
Lemma two_parties_case src rQ L hw nb hw' nb' pt pt' scale crp pool st M M' level : built_ring 9 rQ -> rN rQ = (2 ^ L)%nat ->
  source_ok src -> errors_fit_Q rQ (srBound src) -> samplers_ok st -> length pt = S level -> length pt' = S level -> rns_repr rQ level canon pt M -> rns_repr rQ level canon pt' M' ->
  words rQ level canon crp -> has_rows (rN rQ) level pool -> drawn (two_parties src rQ (HammingWeight hw nb) (HammingWeight hw' nb') pt pt' scale crp pool st) = true ->
  exists sk sk' s s' c c' E, two_parties src rQ (HammingWeight hw nb) (HammingWeight hw' nb') pt pt' scale crp pool st = Ret ((sk, sk'), (c, c')) /\
    secret rQ L sk s /\ ternary (rN rQ) hw s /\ secret rQ L sk' s' /\ ternary (rN rQ) hw' s' /\ comp c 1 = comp c' 1 /\ (forall k, Z.abs (E k) <= srBound src + srBound src) /\
    forall out out' p pl, (level < length p)%nat -> length out' = S level ->
    rns_repr rQ level canon (Decrypt rQ (AddLvl rQ (maxLevel rQ) sk sk' out) [AddLvl rQ level (comp c 0) (comp c' 0) out'; comp c 1] true p false pl) (padd (padd M M') E).
Proof.
  intros BQ EL HS HF HO Lp Lp' HM HM' HW Hp D. unfold two_parties in *.
  pose proof (secret_Q rQ BQ L EL src (HammingWeight hw nb) st HO (fun E => ltac:(discriminate E))) as H1.
  destruct (DrawKindQ src rQ (HammingWeight hw nb) st) as [[sk st1]| |]; [|discriminate..]. cbn [bind] in D |- *. destruct H1 as (O1 & _ & _ & s & S1 & S2).
  pose proof (secret_Q rQ BQ L EL src (HammingWeight hw' nb') st1 O1 (fun E => ltac:(discriminate E))) as H2.
  destruct (DrawKindQ src rQ (HammingWeight hw' nb') st1) as [[sk' st2]| |]; [|discriminate..]. cbn [bind] in D |- *. destruct H2 as (O2 & _ & _ & s' & S1' & S2').
  pose proof (from_crp_new rQ BQ L EL src sk s pt false scale crp pool st2 M level Lp HS HF O2 S1 HM HW Hp) as H3.
  destruct (EncryptFromCRPNew src rQ (SkKey sk) pt false scale crp pool st2) as [[c st3]| |] eqn:E3; [|discriminate..]. cbn [bind] in D |- *. destruct H3 as (O3 & _).
  destruct (EncryptFromCRPNew src rQ (SkKey sk') pt' false scale crp pool st3) as [[c' st4]| |] eqn:E4; [|discriminate..].
  destruct (same_crp rQ BQ L EL src src sk sk' s s' pt pt' false false scale scale crp pool pool st2 st3 M M' level c c' st3 st4 Lp Lp' HS HS HF HF O2 O3 S1 S1' HM HM' HW Hp Hp E3 E4)
    as (C & (E & F1 & F2) & _).
  exists sk, sk', s, s', c, c', E. split; [reflexivity|]. split; [exact S1|]. split; [exact S2|]. split; [exact S1'|]. split; [exact S2'|]. split; [exact C|]. split; [exact F1|].
  intros out out' p pl Hlp Ho. apply (F2 _ out' p false pl); [apply secret_sum; assumption|exact Hlp|exact Ho].
Qed.

Definition x_pt2 : rows := firstn 2 x_pt.
Definition x_crp : rows := firstn 2 (BasisEx.res_rows xQ 1 (fun k => Z.of_nat k * Z.of_nat k * 31337 + 5)).
Definition x_hw5 : kind := HammingWeight 5 (fun j => Z.of_nat j mod 7).
Lemma x_parties_drawn : drawn (two_parties xsrc xQ x_hw x_hw5 x_pt2 x_pt2 (f64_of_Z 1) x_crp (zero_poly xQ) (newSamplers 10)) = true.
Proof. vm_compute. reflexivity. Qed.
Lemma x_repr2 : rns_repr xQ 1 canon x_pt2 x_msg.
Proof. apply (RlweEnc.firstn_dom xQ 5 1 false). exact x_repr. Qed.
Lemma x_pt2_rows : length x_pt2 = 2%nat.
Proof. vm_compute. reflexivity. Qed.
Lemma x_crp_words : words xQ 1 canon x_crp.
Proof.
  assert (R : rns_repr xQ 1 canon x_crp (fun k => Z.of_nat k * Z.of_nat k * 31337 + 5)).
  { apply (RlweEnc.firstn_dom xQ 5 1 false). apply (BasisEx.res_rows_repr 2); [lia|apply (one_2 xQ), (k_Q xQ xP x_pair)|change (length (rmods xQ)) with 3%nat; lia]. }
  destruct R as (_ & R1 & R2). split; [exact R1|]. intros i Hi. destruct (R2 i Hi) as (R3 & R4). split; [exact R3|]. intros k Hk. apply (R4 k Hk).
Qed.
Lemma x_parties : exists sk sk' s s' c c' E, two_parties xsrc xQ x_hw x_hw5 x_pt2 x_pt2 (f64_of_Z 1) x_crp (zero_poly xQ) (newSamplers 10) = Ret ((sk, sk'), (c, c')) /\
  secret xQ 5 sk s /\ ternary 32 7 s /\ secret xQ 5 sk' s' /\ ternary 32 5 s' /\ comp c 1 = comp c' 1 /\ (forall k, Z.abs (E k) <= 19 + 19) /\
  forall out out' p pl, (1 < length p)%nat -> length out' = 2%nat ->
  rns_repr xQ 1 canon (Decrypt xQ (AddLvl xQ (maxLevel xQ) sk sk' out) [AddLvl xQ 1 (comp c 0) (comp c' 0) out'; comp c 1] true p false pl) (padd (padd x_msg x_msg) E).
Proof.
  pose proof (two_parties_case xsrc xQ 5 7 (fun j => Z.of_nat j mod 11) 5 (fun j => Z.of_nat j mod 7) x_pt2 x_pt2 (f64_of_Z 1) x_crp (zero_poly xQ) (newSamplers 10) x_msg x_msg 1
    (k_Q xQ xP x_pair) eq_refl xsrc_ok x_fit_Q (new_samplers_ok 10) x_pt2_rows x_pt2_rows x_repr2 x_repr2 x_crp_words x_zero x_parties_drawn) as H.
  rewrite xsrc_bound in H. exact H.
Qed.

(** A polynomial with one row for a plaintext with two. *)
Definition leak (src : source) (rQ : Ring) (k : kind) (pt : rows) (scale : float64) (crp pool : rows) (st : samplers) : res Ct :=
  let* '(sk, st) := DrawKindQ src rQ k st in
  let* '(c, st) := EncryptFromCRPNew src rQ (SkKey sk) pt false scale crp pool st in Ret c.
Lemma leak_case src rQ L hw nb pt scale crp pool st M level : built_ring 9 rQ -> rN rQ = (2 ^ L)%nat ->
  source_ok src -> errors_fit_Q rQ (srBound src) -> samplers_ok st -> length pt = S level -> rns_repr rQ level canon pt M ->
  (0 < length crp <= level)%nat -> words rQ (length crp - 1) canon crp -> has_rows (rN rQ) level pool -> drawn (leak src rQ (HammingWeight hw nb) pt scale crp pool st) = true ->
  exists c E, leak src rQ (HammingWeight hw nb) pt scale crp pool st = Ret c /\ (forall k, Z.abs (E k) <= srBound src) /\ forall i, (length crp <= i <= level)%nat ->
    nth i (comp c 1) [] = repeat 0 (rN rQ) /\ ntt_repr L (rmod rQ i) (mq (rmod rQ i)) (nth i (comp c 0) []) (padd M E).
Proof.
  intros BQ EL HS HF HO Lp HM HC HW Hp D. unfold leak in *.
  pose proof (secret_Q rQ BQ L EL src (HammingWeight hw nb) st HO (fun E => ltac:(discriminate E))) as H1.
  destruct (DrawKindQ src rQ (HammingWeight hw nb) st) as [[sk st1]| |]; [|discriminate..]. cbn [bind] in D |- *. destruct H1 as (O1 & _ & _ & s & S1 & S2).
  pose proof (short_crp rQ BQ L EL src sk s pt false scale crp pool st1 M level Lp HS HF O1 S1 HM Hp HC HW) as H3.
  destruct (EncryptFromCRPNew src rQ (SkKey sk) pt false scale crp pool st1) as [[c st3]| |]; [|discriminate..]. destruct H3 as (_ & E & H4 & H5).
  exists c, E. split; [reflexivity|]. split; assumption.
Qed.
Lemma x_leak_drawn : drawn (leak xsrc xQ x_hw x_pt2 (f64_of_Z 1) (firstn 1 x_crp) (zero_poly xQ) (newSamplers 10)) = true.
Proof. vm_compute. reflexivity. Qed.
Lemma x_leak : exists c E, leak xsrc xQ x_hw x_pt2 (f64_of_Z 1) (firstn 1 x_crp) (zero_poly xQ) (newSamplers 10) = Ret c /\ (forall k, Z.abs (E k) <= 19) /\
  nth 1 (comp c 1) [] = repeat 0 32 /\ ntt_repr 5 (rmod xQ 1) (mq (rmod xQ 1)) (nth 1 (comp c 0) []) (padd x_msg E).
Proof.
  assert (W1 : words xQ (length (firstn 1 x_crp) - 1) canon (firstn 1 x_crp)).
  { destruct x_crp_words as (H1 & H2). split; [cbn; lia|]. intros i Hi. destruct i as [|i]; [|cbn in Hi; lia]. exact (H2 0%nat ltac:(lia)). }
  destruct (leak_case xsrc xQ 5 7 (fun j => Z.of_nat j mod 11) x_pt2 (f64_of_Z 1) (firstn 1 x_crp) (zero_poly xQ) (newSamplers 10) x_msg 1
    (k_Q xQ xP x_pair) eq_refl xsrc_ok x_fit_Q (new_samplers_ok 10) x_pt2_rows x_repr2 ltac:(cbn; lia) W1 x_zero x_leak_drawn) as (c & E & H1 & H2 & H3).
  rewrite xsrc_bound in H2. exists c, E. split; [exact H1|]. split; [exact H2|]. exact (H3 1%nat ltac:(cbn; lia)).
Qed.
