(** Cases of ckks in which the documented effect does not hold. *)
From Verif Require Import Word Arith PolySpec PolyProofs Ring RingProofs NTT RingOps RNSSpec RowProofs OpsProofs OpsProps BasisExt BasisProps Automorphism AutoProps Gadget Frlwe FrlweSetup GadgetSpec Repr FrlweProps Examples BasisEx FrlweEx RlweSpec Rlwe RlweKeys RlweTop RlweEx Float64 ScalingSpec Ckks CkksSpec CkksBase CkksConst CkksOps CkksRelin CkksRescale CkksEx.

Lemma table_peq level B c M i (t : list Z) : ct_ok gQ level B c -> decrypts gQ 4 (fst g_sk) c M -> (i <= level)%nat ->
  nth i (g_dec level (ctV c)) [] = t -> peq 16 (mq (rmod gQ i)) (fun k => nth k t 0) M.
Proof. intros Hc HD Hi E k Hk. rewrite <- E. apply (g_dec_word level B c M i k Hc HD Hi Hk). Qed.

(** Two polynomials equal modulo 12289 have equal residues. *)
Lemma peq_residue a b k : (k < 16)%nat -> peq 16 12289 a b -> a k mod 12289 = b k mod 12289.
Proof. intros Hk H. apply eqm_mod_eq; [apply Z.mod_pos_bound; lia|]. apply (eqm_trans 12289 _ (a k)); [apply eqm_mod|exact (H k Hk)]. Qed.

Lemma result_ok (o : option Ct) v level B : option_map ctV o = Some v -> option_map ctNTT o = Some true -> ctb level B v = true ->
  exists c, o = Some c /\ ctV c = v /\ ct_ok gQ level B c.
Proof.
  destruct o as [[v' sc nt]|]; cbn; intros E1 E2 E3; [|discriminate]. inversion E1. inversion E2. subst. eexists. split; [reflexivity|]. split; [reflexivity|].
  apply ctb_ok. exact E3.
Qed.

Definition x1 : Ct := Eval cbv delta [g_ct] beta in g_ct 1 0 1024.
Definition x2 : Ct := Eval cbv delta [g_ct] beta in g_ct 2 0 1024.
Lemma x1_ok : ct_ok gQ 0 canon x1.
Proof. apply ctb_ok. vm_compute. reflexivity. Qed.
Lemma x2_ok : ct_ok gQ 0 canon x2.
Proof. apply ctb_ok. vm_compute. reflexivity. Qed.
Definition x1_dec : list Z := Eval vm_compute in nth 0 (g_dec 0 (ctV x1)) [].
Definition x2_dec : list Z := Eval vm_compute in nth 0 (g_dec 0 (ctV x2)) [].
Lemma x1_dec_eq : nth 0 (g_dec 0 (ctV x1)) [] = x1_dec.
Proof. vm_compute. reflexivity. Qed.
Lemma x2_dec_eq : nth 0 (g_dec 0 (ctV x2)) [] = x2_dec.
Proof. vm_compute. reflexivity. Qed.
Definition tab (t : list Z) : poly := fun k => nth k t 0.

(** A ciphertext of degree 2. *)
Definition x3 : Ct := mkCt (g_vals 7 0 ++ [g_rows 9 0]) (f64_of_Z 1048576) true.
Lemma x3_ok : ct_ok gQ 0 canon x3.
Proof. apply ctb_ok. vm_compute. reflexivity. Qed.
Definition x3_dec : list Z := Eval vm_compute in nth 0 (g_dec 0 (ctV x3)) [].
Lemma x3_dec_eq : nth 0 (g_dec 0 (ctV x3)) [] = x3_dec.
Proof. vm_compute. reflexivity. Qed.

(** ** C41 *)
Definition mad_v : list rows := Eval vm_compute in match MulAndAdd gQ x1 x2 x3 g_scratch with Some c => ctV c | None => [] end.
Definition mad_dec : list Z := Eval vm_compute in nth 0 (g_dec 0 mad_v) [].
Lemma mad_dec_eq : nth 0 (g_dec 0 mad_v) [] = mad_dec.
Proof. vm_compute. reflexivity. Qed.
Lemma mad_wrong : exists rQ L sk s c0 c1 out scratch M0 M1 Mo c,
  built_ring 9 rQ /\ rN rQ = (2 ^ L)%nat /\ secret rQ L sk s /\
  ct_ok rQ 0 canon c0 /\ ct_ok rQ 0 canon c1 /\ ct_ok rQ 0 canon out /\
  ctDegree c0 = 1%nat /\ ctDegree c1 = 1%nat /\ ctDegree out = 2%nat /\ ctScale out = f64_mul (ctScale c0) (ctScale c1) /\
  decrypts rQ L sk c0 M0 /\ decrypts rQ L sk c1 M1 /\ decrypts rQ L sk out Mo /\
  MulAndAdd rQ c0 c1 out scratch = Some c /\ ~ decrypts rQ L sk c (padd Mo (pmul (rN rQ) M0 M1)).
Proof.
  destruct (g_decrypts 0 canon x1 x1_ok g_fits_canon) as [M0 D0]. destruct (g_decrypts 0 canon x2 x2_ok g_fits_canon) as [M1 D1].
  set (out := mkCt (ctV x3) (f64_mul (ctScale x1) (ctScale x2)) true).
  assert (Ho : ct_ok gQ 0 canon out) by (apply ctb_ok; vm_compute; reflexivity).
  destruct (g_decrypts 0 canon out Ho g_fits_canon) as [Mo Do].
  destruct (result_ok (MulAndAdd gQ x1 x2 out g_scratch) mad_v 0 canon) as (c & Ec & Ev & Hc); [vm_compute; reflexivity|vm_compute; reflexivity|vm_compute; reflexivity|].
  exists gQ, 4%nat, (fst g_sk), ex_s, x1, x2, out, g_scratch, M0, M1, Mo, c.
  split; [exact gQ_built|]. split; [reflexivity|]. split; [exact g_secret|]. split; [exact x1_ok|]. split; [exact x2_ok|]. split; [exact Ho|].
  do 4 (split; [reflexivity|]). split; [exact D0|]. split; [exact D1|]. split; [exact Do|]. split; [exact Ec|]. intros D.
  pose proof (table_peq 0 canon c _ 0 mad_dec Hc D ltac:(lia) ltac:(rewrite Ev; exact mad_dec_eq)) as T.
  pose proof (table_peq 0 canon x1 _ 0 x1_dec x1_ok D0 ltac:(lia) x1_dec_eq) as T0.
  pose proof (table_peq 0 canon x2 _ 0 x2_dec x2_ok D1 ltac:(lia) x2_dec_eq) as T1.
  pose proof (table_peq 0 canon out _ 0 x3_dec Ho Do ltac:(lia) x3_dec_eq) as T2.
  assert (T3 : peq 16 12289 (tab mad_dec) (padd (tab x3_dec) (pmul 16 (tab x1_dec) (tab x2_dec)))).
  { etransitivity; [exact T|]. symmetry. apply padd_peq; [exact T2|]. apply pmul_peq; [exact T0|exact T1]. }
  apply (peq_residue _ _ 0) in T3; [|lia]. vm_compute in T3. discriminate.
Qed.

(** ** C54: the product with 2^52+1, and a receiver of a higher level *)
Definition mc_v : list rows := Eval vm_compute in ctV (MultByConst gQ x1 (CInt (2 ^ 52 + 1)) x1).
Definition mc_dec : list Z := Eval vm_compute in nth 0 (g_dec 0 mc_v) [].
Lemma mc_dec_eq : nth 0 (g_dec 0 mc_v) [] = mc_dec.
Proof. vm_compute. reflexivity. Qed.
Lemma mult_const_wrong : exists rQ L sk s c M,
  built_ring 9 rQ /\ rN rQ = (2 ^ L)%nat /\ secret rQ L sk s /\ ct_ok rQ 0 canon c /\ ctDegree c = 1%nat /\ decrypts rQ L sk c M /\
  ~ decrypts rQ L sk (MultByConst rQ c (CInt (2 ^ 52 + 1)) c) (pscale (2 ^ 52 + 1) M).
Proof.
  destruct (g_decrypts 0 canon x1 x1_ok g_fits_canon) as [M0 D0].
  exists gQ, 4%nat, (fst g_sk), ex_s, x1, M0.
  split; [exact gQ_built|]. split; [reflexivity|]. split; [exact g_secret|]. split; [exact x1_ok|]. split; [reflexivity|]. split; [exact D0|]. intros D.
  destruct (result_ok (Some (MultByConst gQ x1 (CInt (2 ^ 52 + 1)) x1)) mc_v 0 canon) as (c & Ec & Ev & Hc); [vm_compute; reflexivity|vm_compute; reflexivity|vm_compute; reflexivity|].
  assert (E : MultByConst gQ x1 (CInt (2 ^ 52 + 1)) x1 = c) by (injection Ec; trivial). rewrite E in D.
  pose proof (table_peq 0 canon c _ 0 mc_dec Hc D ltac:(lia) ltac:(rewrite Ev; exact mc_dec_eq)) as T.
  pose proof (table_peq 0 canon x1 _ 0 x1_dec x1_ok D0 ltac:(lia) x1_dec_eq) as T0.
  assert (T3 : peq 16 12289 (tab mc_dec) (pscale (2 ^ 52 + 1) (tab x1_dec))).
  { etransitivity; [exact T|]. symmetry. apply pscale_peq. exact T0. }
  apply (peq_residue _ _ 0) in T3; [|lia]. vm_compute in T3. discriminate.
Qed.

Definition neg_v : list rows := Eval vm_compute in match Neg gQ x1 (g_new 1 1) with Some c => ctV c | None => [] end.
Definition neg_dec : list Z := Eval vm_compute in nth 1 (g_dec 1 neg_v) [].
Lemma neg_dec_eq : nth 1 (g_dec 1 neg_v) [] = neg_dec.
Proof. vm_compute. reflexivity. Qed.
Lemma neg_level_wrong : exists rQ L sk s c M out c',
  built_ring 9 rQ /\ rN rQ = (2 ^ L)%nat /\ secret rQ L sk s /\ ct_ok rQ 0 canon c /\ ct_ok rQ 1 canon out /\ ctDegree c = 1%nat /\ ctDegree out = 1%nat /\
  decrypts rQ L sk c M /\ Neg rQ c out = Some c' /\ ~ decrypts rQ L sk c' (popp M).
Proof.
  destruct (g_decrypts 0 canon x1 x1_ok g_fits_canon) as [M0 D0].
  set (M := fun k => nth k x1_dec 0).
  assert (DM : decrypts gQ 4 (fst g_sk) x1 M).
  { destruct (ct_ok_repr gQ gQ_built 4 eq_refl 0 canon x1 x1_ok) as [C HC]. apply (ct_repr_peq gQ gQ_built 4 eq_refl 0 canon x1 C _ ex_s M0 M HC g_fits_canon g_secret D0).
    intros i Hi. replace i with 0%nat by lia. symmetry. exact (table_peq 0 canon x1 _ 0 x1_dec x1_ok D0 ltac:(lia) x1_dec_eq). }
  destruct (result_ok (Neg gQ x1 (g_new 1 1)) neg_v 1 closed) as (c & Ec & Ev & Hc); [vm_compute; reflexivity|vm_compute; reflexivity|vm_compute; reflexivity|].
  exists gQ, 4%nat, (fst g_sk), ex_s, x1, M, (g_new 1 1), c.
  split; [exact gQ_built|]. split; [reflexivity|]. split; [exact g_secret|]. split; [exact x1_ok|].
  split; [apply ctb_ok; vm_compute; reflexivity|]. split; [reflexivity|]. split; [reflexivity|]. split; [exact DM|]. split; [exact Ec|]. intros D.
  pose proof (table_peq 1 closed c _ 1 neg_dec Hc D ltac:(lia) ltac:(rewrite Ev; exact neg_dec_eq)) as T.
  specialize (T 0%nat ltac:(lia)). apply (eqm_mod_eq 97) in T; [vm_compute in T; discriminate|vm_compute; split; [discriminate|reflexivity]].
Qed.

(** ** C59 *)
Definition ac_v : list rows := Eval vm_compute in ctV (AddConst gQ x1 (CInt 1) (g_new 1 0)).
Definition ac_dec : list Z := Eval vm_compute in nth 0 (g_dec 0 ac_v) [].
Lemma ac_dec_eq : nth 0 (g_dec 0 ac_v) [] = ac_dec.
Proof. vm_compute. reflexivity. Qed.
Lemma add_const_wrong : exists rQ L sk s c M scale,
  built_ring 9 rQ /\ rN rQ = (2 ^ L)%nat /\ secret rQ L sk s /\ ct_ok rQ 0 canon c /\ ctDegree c = 1%nat /\ ctScale c = f64_of_Z 1024 /\ decrypts rQ L sk c M /\
  ~ decrypts rQ L sk (AddConst rQ c (CInt 1) (NewCiphertext (rN rQ) 1 0 scale)) (padd M (pgauss (rN rQ) 1024 0)).
Proof.
  destruct (g_decrypts 0 canon x1 x1_ok g_fits_canon) as [M0 D0].
  exists gQ, 4%nat, (fst g_sk), ex_s, x1, M0, f64_zero.
  split; [exact gQ_built|]. split; [reflexivity|]. split; [exact g_secret|]. split; [exact x1_ok|]. split; [reflexivity|]. split; [reflexivity|]. split; [exact D0|].
  change (NewCiphertext (rN gQ) 1 0 f64_zero) with (g_new 1 0). intros D.
  destruct (result_ok (Some (AddConst gQ x1 (CInt 1) (g_new 1 0))) ac_v 0 canon) as (c & Ec & Ev & Hc); [vm_compute; reflexivity|vm_compute; reflexivity|vm_compute; reflexivity|].
  assert (E : AddConst gQ x1 (CInt 1) (g_new 1 0) = c) by (injection Ec; trivial). rewrite E in D.
  pose proof (table_peq 0 canon c _ 0 ac_dec Hc D ltac:(lia) ltac:(rewrite Ev; exact ac_dec_eq)) as T.
  pose proof (table_peq 0 canon x1 _ 0 x1_dec x1_ok D0 ltac:(lia) x1_dec_eq) as T0.
  assert (T3 : peq 16 12289 (tab ac_dec) (padd (tab x1_dec) (pgauss 16 1024 0))).
  { etransitivity; [exact T|]. symmetry. apply padd_peq; [exact T0|reflexivity]. }
  apply (peq_residue _ _ 0) in T3; [|lia]. vm_compute in T3. discriminate.
Qed.

(** ** C55: a receiver of degree 2 *)
Lemma small_noise level levelP E : switch_noise gQ gP level levelP 12289 1 1 E -> level = 0%nat -> levelP = 0%nat -> forall k, (k < 16)%nat -> Z.abs (E k) <= 22.
Proof.
  intros H -> -> k Hk. specialize (H k Hk). change (rN gQ) with 16%nat in H. change (product (prefix gP 0)) with 40961 in H.
  change (ceil_div (0 + 1) (0 + 1)) with 1%nat in H. change (Z.of_nat 16) with 16 in H. change (Z.of_nat 1) with 1 in H. change (2 ^ 42) with 4398046511104 in H. lia.
Qed.
(** The residues of a - b differ from all small numbers. *)
Lemma far_apart a b E k : (k < 16)%nat -> peq 16 12289 a (padd b E) -> Z.abs (E k) <= 22 -> 22 < (a k - b k) mod 12289 < 12289 - 22 -> False.
Proof.
  intros Hk H HE HF. specialize (H k Hk). unfold padd in H.
  assert (E1 : eqm 12289 (a k - b k) (E k)) by (replace (E k) with (b k + E k - b k) by ring; apply eqm_sub; [exact H|reflexivity]).
  apply eqm_divide in E1; [|discriminate]. destruct E1 as [z Hz]. rewrite <- (Z.mod_unique (a k - b k) 12289 (if E k <? 0 then z - 1 else z) (if E k <? 0 then E k + 12289 else E k)) in HF.
  - destruct (E k <? 0) eqn:V; [apply Z.ltb_lt in V|apply Z.ltb_ge in V]; lia.
  - left. destruct (E k <? 0) eqn:V; [apply Z.ltb_lt in V|apply Z.ltb_ge in V]; lia.
  - destruct (E k <? 0); lia.
Qed.

Definition mr2_v : list rows := Eval vm_compute in match MulRelin gQ gP 0 g_rlk false x1 x2 x3 g_scratch with Some c => ctV c | None => [] end.
Definition mr2_dec : list Z := Eval vm_compute in nth 0 (g_dec 0 mr2_v) [].
Lemma mr2_dec_eq : nth 0 (g_dec 0 mr2_v) [] = mr2_dec.
Proof. vm_compute. reflexivity. Qed.
Lemma relin_degree_wrong : exists rQ rP L sk s rlk c0 c1 out scratch M0 M1 c,
  ring_pair rQ rP /\ rN rQ = (2 ^ L)%nat /\ secret rQ L sk s /\ key_levels rQ rP 1 0 /\ swkey_ok rQ rP L 1 0 rlk s (ppow (rN rQ) s 2) 1 /\
  blocks_below rQ 0 0 12289 /\ pbound (rN rQ) 1 s /\
  ct_ok rQ 0 canon c0 /\ ct_ok rQ 0 canon c1 /\ ct_ok rQ 0 canon out /\ ctDegree c0 = 1%nat /\ ctDegree c1 = 1%nat /\ ctDegree out = 2%nat /\
  decrypts rQ L sk c0 M0 /\ decrypts rQ L sk c1 M1 /\ MulRelin rQ rP 0 rlk false c0 c1 out scratch = Some c /\
  forall E, switch_noise rQ rP 0 0 12289 1 1 E -> ~ decrypts rQ L sk c (padd (pmul (rN rQ) M0 M1) E).
Proof.
  destruct (g_decrypts 0 canon x1 x1_ok g_fits_canon) as [M0 D0]. destruct (g_decrypts 0 canon x2 x2_ok g_fits_canon) as [M1 D1].
  destruct (result_ok (MulRelin gQ gP 0 g_rlk false x1 x2 x3 g_scratch) mr2_v 0 lazy) as (c & Ec & Ev & Hc); [vm_compute; reflexivity|vm_compute; reflexivity|vm_compute; reflexivity|].
  exists gQ, gP, 4%nat, (fst g_sk), ex_s, g_rlk, x1, x2, x3, g_scratch, M0, M1, c.
  split; [exact gpair|]. split; [reflexivity|]. split; [exact g_secret|]. split; [exact g_levels|]. split; [exact g_rlk_ok|].
  split; [apply g_blocks; lia|]. split; [exact g_s_bound|]. split; [exact x1_ok|]. split; [exact x2_ok|]. split; [exact x3_ok|].
  do 3 (split; [reflexivity|]). split; [exact D0|]. split; [exact D1|]. split; [exact Ec|]. intros E HE D.
  pose proof (table_peq 0 lazy c _ 0 mr2_dec Hc D ltac:(lia) ltac:(rewrite Ev; exact mr2_dec_eq)) as T.
  pose proof (table_peq 0 canon x1 _ 0 x1_dec x1_ok D0 ltac:(lia) x1_dec_eq) as T0.
  pose proof (table_peq 0 canon x2 _ 0 x2_dec x2_ok D1 ltac:(lia) x2_dec_eq) as T1.
  assert (T3 : peq 16 12289 (tab mr2_dec) (padd (pmul 16 (tab x1_dec) (tab x2_dec)) E)).
  { etransitivity; [exact T|]. symmetry. apply padd_peq; [|reflexivity]. apply pmul_peq; [exact T0|exact T1]. }
  apply (far_apart _ _ _ 0 ltac:(lia) T3); [apply (small_noise 0 0 E HE); [reflexivity|reflexivity|lia]|]. vm_compute. split; reflexivity.
Qed.

(** ** C60 *)
Definition rot_v : list rows := Eval vm_compute in match Rotate gQ gP 0 g_rtks 1 true x1 x1 g_scratch with Some c => ctV c | None => [] end.
Definition rot_dec : list Z := Eval vm_compute in nth 0 (g_dec 0 rot_v) [].
Lemma rot_dec_eq : nth 0 (g_dec 0 rot_v) [] = rot_dec.
Proof. vm_compute. reflexivity. Qed.
Lemma rotate_in_place_wrong : exists rQ rP L sk s rtks key c scratch M c',
  ring_pair rQ rP /\ rN rQ = (2 ^ L)%nat /\ secret rQ L sk s /\ key_levels rQ rP 1 0 /\
  rtks (GaloisElementForColumnRotationBy rQ 1) = Some key /\ rotation_key rQ rP L 1 0 (GaloisElementForColumnRotationBy rQ 1) key s 1 /\
  blocks_below rQ 0 0 12289 /\ pbound (rN rQ) 1 s /\ ct_ok rQ 0 canon c /\ ctDegree c = 1%nat /\ decrypts rQ L sk c M /\
  Rotate rQ rP 0 rtks 1 true c c scratch = Some c' /\
  forall E, switch_noise rQ rP 0 0 12289 1 1 E -> ~ decrypts rQ L sk c' (padd (pauto (rN rQ) (Z.to_nat (GaloisElementForColumnRotationBy rQ 1)) M) E).
Proof.
  destruct (g_decrypts 0 canon x1 x1_ok g_fits_canon) as [M0 D0].
  destruct (result_ok (Rotate gQ gP 0 g_rtks 1 true x1 x1 g_scratch) rot_v 0 canon) as (c & Ec & Ev & Hc); [vm_compute; reflexivity|vm_compute; reflexivity|vm_compute; reflexivity|].
  exists gQ, gP, 4%nat, (fst g_sk), ex_s, g_rtks, g_rot5, x1, g_scratch, M0, c.
  replace (GaloisElementForColumnRotationBy gQ 1) with 5 by (vm_compute; reflexivity).
  split; [exact gpair|]. split; [reflexivity|]. split; [exact g_secret|]. split; [exact g_levels|]. split; [reflexivity|]. split; [exact g_rot5_ok|].
  split; [apply g_blocks; lia|]. split; [exact g_s_bound|]. split; [exact x1_ok|]. split; [reflexivity|]. split; [exact D0|]. split; [exact Ec|]. intros E HE D.
  pose proof (table_peq 0 canon c _ 0 rot_dec Hc D ltac:(lia) ltac:(rewrite Ev; exact rot_dec_eq)) as T.
  pose proof (table_peq 0 canon x1 _ 0 x1_dec x1_ok D0 ltac:(lia) x1_dec_eq) as T0.
  assert (T3 : peq 16 12289 (tab rot_dec) (padd (pauto 16 5 (tab x1_dec)) E)).
  { etransitivity; [exact T|]. symmetry. apply padd_peq; [|reflexivity]. apply pauto_peq. exact T0. }
  apply (far_apart _ _ _ 0 ltac:(lia) T3); [apply (small_noise 0 0 E HE); [reflexivity|reflexivity|lia]|]. vm_compute. split; reflexivity.
Qed.

(** ** C56: results of MulRelin as operands *)
Definition new0 : Ct := NewCiphertext 16 1 0 f64_zero.
Definition new1 : Ct := NewCiphertext 16 1 1 f64_zero.
Definition p0_v : list rows := Eval vm_compute in match MulRelin gQ gP 0 g_rlk false x1 x2 new0 g_scratch with Some c => ctV c | None => [] end.
Definition p0_dec : list Z := Eval vm_compute in nth 0 (g_dec 0 p0_v) [].
Lemma p0_dec_eq : nth 0 (g_dec 0 p0_v) [] = p0_dec.
Proof. vm_compute. reflexivity. Qed.
Lemma p0_ok : exists c, MulRelin gQ gP 0 g_rlk false x1 x2 new0 g_scratch = Some c /\ ctV c = p0_v /\ ct_ok gQ 0 lazy c /\ relin_product gQ gP 4 (fst g_sk) ex_s 0 c /\ ctScale c = f64_mul (f64_of_Z 1024) (f64_of_Z 1024).
Proof.
  destruct (result_ok (MulRelin gQ gP 0 g_rlk false x1 x2 new0 g_scratch) p0_v 0 lazy) as (c & Ec & Ev & Hc); [vm_compute; reflexivity|vm_compute; reflexivity|vm_compute; reflexivity|].
  exists c. split; [exact Ec|]. split; [exact Ev|]. split; [exact Hc|]. split.
  - exists g_rlk, 1%nat, 0%nat, 1, x1, x2, g_scratch, f64_zero. split; [exact g_secret|]. split; [exact g_levels|]. split; [lia|]. split; [exact g_rlk_ok|].
    split; [exact x1_ok|]. split; [exact x2_ok|]. split; [reflexivity|]. split; [reflexivity|exact Ec].
  - destruct (g_decrypts 0 canon x1 x1_ok g_fits_canon) as [M0 D0]. destruct (g_decrypts 0 canon x2 x2_ok g_fits_canon) as [M1 D1].
    destruct (mul_relin gQ gP 4 gpair eq_refl 1 0 0 0 0 canon canon g_rlk false x1 x2 new0 g_scratch (fst g_sk) ex_s M0 M1 12289 1 1 g_secret g_levels x1_ok x2_ok g_fits_canon g_fits_canon D0 D1 eq_refl eq_refl) as (c' & E & Ec' & _ & _ & Es & _).
    + discriminate.
    + apply (g_new_shaped 1 0); lia.
    + cbn. lia.
    + exact g_rlk_ok.
    + apply g_blocks. cbn. lia.
    + lia.
    + lia.
    + exact g_s_bound.
    + rewrite Ec in Ec'. injection Ec' as <-. exact Es.
Qed.

Definition np_v : list rows := Eval vm_compute in match Neg gQ (mkCt p0_v f64_zero true) (mkCt p0_v f64_zero true) with Some c => ctV c | None => [] end.
Definition np_dec : list Z := Eval vm_compute in nth 0 (g_dec 0 np_v) [].
Lemma np_dec_eq : nth 0 (g_dec 0 np_v) [] = np_dec.
Proof. vm_compute. reflexivity. Qed.
(** Words below 2^64. *)
Definition word_bound (q : Z) : Z := W.

Lemma neg_product_wrong : exists rQ rP L sk s c M c',
  ring_pair rQ rP /\ rN rQ = (2 ^ L)%nat /\ relin_product rQ rP L sk s 0 c /\ decrypts rQ L sk c M /\ Neg rQ c c = Some c' /\ ~ decrypts rQ L sk c' (popp M).
Proof.
  destruct p0_ok as (c & Ec & Ev & Hc & HP & Hs). destruct (g_decrypts 0 lazy c Hc (fits_lazy gQ gQ_built 4 eq_refl)) as [M D].
  destruct c as [v sc nt]. cbn [ctV ctScale] in Ev, Hs. assert (nt = true) as -> by (destruct Hc as (_ & _ & E & _); exact E). subst v.
  destruct (result_ok (Neg gQ (mkCt p0_v sc true) (mkCt p0_v sc true)) np_v 0 word_bound) as (c' & Ec' & Ev' & Hc'); [vm_compute; reflexivity|vm_compute; reflexivity|vm_compute; reflexivity|].
  exists gQ, gP, 4%nat, (fst g_sk), ex_s, (mkCt p0_v sc true), M, c'. split; [exact gpair|]. split; [reflexivity|]. split; [exact HP|]. split; [exact D|]. split; [exact Ec'|]. intros D'.
  pose proof (table_peq 0 lazy _ _ 0 p0_dec Hc D ltac:(lia) p0_dec_eq) as T. pose proof (table_peq 0 word_bound c' _ 0 np_dec Hc' D' ltac:(lia) ltac:(rewrite Ev'; exact np_dec_eq)) as T'.
  assert (T3 : peq 16 12289 (tab np_dec) (popp (tab p0_dec))).
  { etransitivity; [exact T'|]. symmetry. apply popp_peq. exact T. }
  apply (peq_residue _ _ 0) in T3; [|lia]. vm_compute in T3. discriminate.
Qed.

Definition sp_v : list rows := Eval vm_compute in match Sub gQ (mkCt (ctV x1) f64_zero true) (mkCt p0_v f64_zero true) new0 new0 with Some c => ctV c | None => [] end.
Definition sp_dec : list Z := Eval vm_compute in nth 0 (g_dec 0 sp_v) [].
Lemma sp_dec_eq : nth 0 (g_dec 0 sp_v) [] = sp_dec.
Proof. vm_compute. reflexivity. Qed.
Lemma sub_product_wrong : exists rQ rP L sk s c0 M0 c M c',
  ring_pair rQ rP /\ rN rQ = (2 ^ L)%nat /\ relin_product rQ rP L sk s 0 c /\ decrypts rQ L sk c M /\
  ct_ok rQ 0 canon c0 /\ ctDegree c0 = 1%nat /\ ctScale c0 = ctScale c /\ decrypts rQ L sk c0 M0 /\
  SubNew rQ c0 c (NewCiphertext (rN rQ) 1 0 f64_zero) = Some c' /\ ~ decrypts rQ L sk c' (psub M0 M).
Proof.
  destruct p0_ok as (c & Ec & Ev & Hc & HP & Hs). destruct (g_decrypts 0 lazy c Hc (fits_lazy gQ gQ_built 4 eq_refl)) as [M D].
  destruct c as [v sc nt]. cbn [ctV ctScale] in Ev, Hs. assert (nt = true) as -> by (destruct Hc as (_ & _ & E & _); exact E). subst v sc.
  set (x := mkCt (ctV x1) (f64_mul (f64_of_Z 1024) (f64_of_Z 1024)) true).
  assert (Hx : ct_ok gQ 0 canon x) by (apply ctb_ok; vm_compute; reflexivity).
  destruct (g_decrypts 0 canon x Hx g_fits_canon) as [M0 D0].
  set (p := mkCt p0_v (f64_mul (f64_of_Z 1024) (f64_of_Z 1024)) true).
  destruct (result_ok (SubNew gQ x p new0) sp_v 0 word_bound) as (c' & Ec' & Ev' & Hc'); [vm_compute; reflexivity|vm_compute; reflexivity|vm_compute; reflexivity|].
  exists gQ, gP, 4%nat, (fst g_sk), ex_s, x, M0, p, M, c'. split; [exact gpair|]. split; [reflexivity|]. split; [exact HP|]. split; [exact D|].
  split; [exact Hx|]. split; [reflexivity|]. split; [reflexivity|]. split; [exact D0|]. split; [exact Ec'|]. intros D'.
  pose proof (table_peq 0 lazy _ _ 0 p0_dec Hc D ltac:(lia) p0_dec_eq) as T. pose proof (table_peq 0 canon x _ 0 x1_dec Hx D0 ltac:(lia) x1_dec_eq) as T0.
  pose proof (table_peq 0 word_bound c' _ 0 sp_dec Hc' D' ltac:(lia) ltac:(rewrite Ev'; exact sp_dec_eq)) as T'.
  assert (T3 : peq 16 12289 (tab sp_dec) (psub (tab x1_dec) (tab p0_dec))).
  { etransitivity; [exact T'|]. symmetry. apply psub_peq; [exact T0|exact T]. }
  apply (peq_residue _ _ 0) in T3; [|lia]. vm_compute in T3. discriminate.
Qed.

(** Rescaling the product at level 1. *)
Lemma no_residue a z r : 816 < a mod 12289 < 11473 -> Z.abs r <= 816 -> r = a + 12289 * z -> False.
Proof.
  intros H1 H2 H3. pose proof (Z.mod_eq a 12289 ltac:(discriminate)) as H4. revert H1 H4. generalize (a mod 12289) (a / 12289). intros m d H1 H4.
  assert (r = m + 12289 * (d + z)) by lia. clear - H1 H2 H. nia.
Qed.
Definition y1 : Ct := g_ct 1 1 1024.
Definition y2 : Ct := g_ct 2 1 1024.
Lemma y1_ok : ct_ok gQ 1 canon y1.
Proof. apply ctb_ok. vm_compute. reflexivity. Qed.
Lemma y2_ok : ct_ok gQ 1 canon y2.
Proof. apply ctb_ok. vm_compute. reflexivity. Qed.
Definition p1_v : list rows := Eval vm_compute in match MulRelin gQ gP 0 g_rlk false y1 y2 new1 g_scratch with Some c => ctV c | None => [] end.
Definition p1_dec : list Z := Eval vm_compute in nth 0 (g_dec 1 p1_v) [].
Lemma p1_dec_eq : nth 0 (g_dec 1 p1_v) [] = p1_dec.
Proof. vm_compute. reflexivity. Qed.
Lemma p1_ok : exists c, MulRelin gQ gP 0 g_rlk false y1 y2 new1 g_scratch = Some c /\ ctV c = p1_v /\ ct_ok gQ 1 lazy c /\ relin_product gQ gP 4 (fst g_sk) ex_s 1 c /\ ctScale c = f64_mul (f64_of_Z 1024) (f64_of_Z 1024).
Proof.
  destruct (result_ok (MulRelin gQ gP 0 g_rlk false y1 y2 new1 g_scratch) p1_v 1 lazy) as (c & Ec & Ev & Hc); [vm_compute; reflexivity|vm_compute; reflexivity|vm_compute; reflexivity|].
  exists c. split; [exact Ec|]. split; [exact Ev|]. split; [exact Hc|]. split.
  - exists g_rlk, 1%nat, 0%nat, 1, y1, y2, g_scratch, f64_zero. split; [exact g_secret|]. split; [exact g_levels|]. split; [lia|]. split; [exact g_rlk_ok|].
    split; [exact y1_ok|]. split; [exact y2_ok|]. split; [reflexivity|]. split; [reflexivity|exact Ec].
  - destruct (g_decrypts 1 canon y1 y1_ok g_fits_canon) as [M0 D0]. destruct (g_decrypts 1 canon y2 y2_ok g_fits_canon) as [M1 D1].
    destruct (mul_relin gQ gP 4 gpair eq_refl 1 0 1 1 1 canon canon g_rlk false y1 y2 new1 g_scratch (fst g_sk) ex_s M0 M1 12289 1 1 g_secret g_levels y1_ok y2_ok g_fits_canon g_fits_canon D0 D1 eq_refl eq_refl) as (c' & E & Ec' & _ & _ & Es & _).
    + discriminate.
    + apply (g_new_shaped 1 1); lia.
    + cbn. lia.
    + exact g_rlk_ok.
    + apply g_blocks. cbn. lia.
    + lia.
    + lia.
    + exact g_s_bound.
    + rewrite Ec in Ec'. injection Ec' as <-. exact Es.
Qed.
Definition p1_ct : Ct := mkCt p1_v (f64_mul (f64_of_Z 1024) (f64_of_Z 1024)) true.
Definition rs_v : list rows := Eval vm_compute in match Rescale gQ true p1_ct (f64_of_Z 1024) p1_ct with Done c => ctV c | _ => [] end.
Definition rs_dec : list Z := Eval vm_compute in nth 0 (g_dec 0 rs_v) [].
Lemma rs_dec_eq : nth 0 (g_dec 0 rs_v) [] = rs_dec.
Proof. vm_compute. reflexivity. Qed.
Definition p1_6 : Z := Eval vm_compute in nth 6 p1_dec 0.
Definition rs_6 : Z := Eval vm_compute in nth 6 rs_dec 0.
Lemma rescale_contra (M M' : poly) (R : nat -> poly) : peq 16 12289 (fun k => nth k p1_dec 0) M -> peq 16 12289 (fun k => nth k rs_dec 0) M' ->
  (forall k, (k < 16)%nat -> 97 * M' k + psum 2 (fun j => pmul 16 (R j) (ppow 16 ex_s j)) k = M k) -> (forall j k, (k < 16)%nat -> 2 * Z.abs (R j k) < 97) -> False.
Proof.
  intros T T' HR HB. specialize (HR 6%nat ltac:(lia)).
  assert (T1 : eqm 12289 p1_6 (M 6%nat)) by exact (T 6%nat ltac:(lia)). assert (T2 : eqm 12289 rs_6 (M' 6%nat)) by exact (T' 6%nat ltac:(lia)). clear T T'.
  assert (HB1 : forall j, pbound 16 48 (R j)) by (intros j k Hk; specialize (HB j k Hk); lia).
  assert (B0 : Z.abs (pmul 16 (R 0%nat) (ppow 16 ex_s 0) 6%nat) <= 48).
  { assert (E := pmul_1_l 16 0 (R 0%nat) 6%nat ltac:(lia)). assert (E2 := pmul_comm 16 0 (R 0%nat) (ppow 16 ex_s 0) 6%nat ltac:(lia)).
    apply (proj1 (eqm_0 _ _)) in E. apply (proj1 (eqm_0 _ _)) in E2. rewrite E2. change (ppow 16 ex_s 0) with pone. rewrite E. apply HB1. lia. }
  assert (B1 : Z.abs (pmul 16 (R 1%nat) (ppow 16 ex_s 1) 6%nat) <= Z.of_nat 16 * (48 * 1)).
  { apply (pmul_bound 16 48 1); [lia|lia|apply HB1| |lia]. intros k Hk. assert (E := pmul_1_l 16 0 ex_s k Hk). apply (proj1 (eqm_0 _ _)) in E.
    change (ppow 16 ex_s 1) with (pmul 16 pone ex_s). rewrite E. apply g_s_bound. exact Hk. }
  revert HR B0 B1. unfold psum. cbn [bigsum]. generalize (pmul 16 (R 0%nat) (ppow 16 ex_s 0) 6%nat) (pmul 16 (R 1%nat) (ppow 16 ex_s 1) 6%nat). intros r0 r1 HR B0 B1.
  revert HR T1 T2. generalize (M 6%nat) (M' 6%nat). intros m m' HR T1 T2.
  apply eqm_divide in T1; [|discriminate]. apply eqm_divide in T2; [|discriminate]. destruct T1 as [z1 Z1]. destruct T2 as [z2 Z2].
  apply (no_residue (p1_6 - 97 * rs_6) (97 * z2 - z1) (r0 + r1)); [vm_compute; split; reflexivity|lia|lia].
Qed.
Lemma rescale_product_wrong : exists rQ rP L sk s c M minScale c',
  ring_pair rQ rP /\ rN rQ = (2 ^ L)%nat /\ relin_product rQ rP L sk s 1 c /\ decrypts rQ L sk c M /\
  Rescale rQ true c minScale c = Done c' /\ ct_ok rQ 0 canon c' /\ ctDegree c' = 1%nat /\
  let D := mq (rmod rQ 1) in
  ~ exists M' R, decrypts rQ L sk c' M' /\
      (forall k, (k < rN rQ)%nat -> D * M' k + psum 2 (fun j => pmul (rN rQ) (R j) (ppow (rN rQ) s j)) k = M k) /\
      (forall j k, (k < rN rQ)%nat -> 2 * Z.abs (R j k) < D).
Proof.
  destruct p1_ok as (c & Ec & Ev & Hc & HP & Hs). destruct (g_decrypts 1 lazy c Hc (fits_lazy gQ gQ_built 4 eq_refl)) as [M D].
  destruct c as [v sc nt]. cbn [ctV ctScale] in Ev, Hs. assert (nt = true) as -> by (destruct Hc as (_ & _ & E & _); exact E). subst v sc.
  fold p1_ct in *.
  destruct (result_ok (match Rescale gQ true p1_ct (f64_of_Z 1024) p1_ct with Done c => Some c | _ => None end) rs_v 0 canon) as (c' & Ec' & Ev' & Hc'); [vm_compute; reflexivity|vm_compute; reflexivity|vm_compute; reflexivity|].
  exists gQ, gP, 4%nat, (fst g_sk), ex_s, p1_ct, M, (f64_of_Z 1024), c'.
  split; [exact gpair|]. split; [reflexivity|]. split; [exact HP|]. split; [exact D|].
  split; [destruct (Rescale gQ true p1_ct (f64_of_Z 1024) p1_ct) as [y| |]; [injection Ec' as ->; reflexivity|discriminate|discriminate]|].
  split; [exact Hc'|]. split; [unfold ctDegree; rewrite Ev'; reflexivity|]. cbv zeta. change (mq (rmod gQ 1)) with 97. change (rN gQ) with 16%nat.
  intros (M' & R & D' & HR & HB).
  pose proof (table_peq 1 lazy _ _ 0 p1_dec Hc D ltac:(lia) p1_dec_eq) as T. pose proof (table_peq 0 canon c' _ 0 rs_dec Hc' D' ltac:(lia) ltac:(rewrite Ev'; exact rs_dec_eq)) as T'.
  exact (rescale_contra M M' R T T' HR HB).
Qed.

(** ** C42: degree 3 *)
Definition d3 (scale : Z) : Ct := mkCt (g_vals 1 0 ++ g_vals 2 0) (f64_of_Z scale) true.
Lemma add_degree_three : exists rQ c0 c1 out pool, built_ring 9 rQ /\ ct_ok rQ 0 canon c0 /\ ct_ok rQ 0 canon c1 /\
  ctDegree c0 = 3%nat /\ ctDegree c1 = 3%nat /\ shaped 3 0 out /\ shaped 2 1 pool /\ Add rQ c0 c1 out pool = None.
Proof.
  exists gQ, (d3 2048), (d3 1024), (d3 1024), (g_new 2 1). split; [exact gQ_built|]. split; [apply ctb_ok; vm_compute; reflexivity|]. split; [apply ctb_ok; vm_compute; reflexivity|].
  split; [reflexivity|]. split; [reflexivity|]. split.
  - split; [reflexivity|]. split; [reflexivity|]. intros j Hj. destruct j as [|[|[|[|j]]]]; [reflexivity|reflexivity|reflexivity|reflexivity|lia].
  - split; [apply g_new_shaped; lia|vm_compute; reflexivity].
Qed.
