(** Concrete cases and counterexamples for CkksMore.v. *)
From Coq Require Import Reals Lra.
From Flocq Require Import Core IEEE754.BinarySingleNaN.
From Verif Require Import Word Arith PolySpec PolyProofs Ring RingProofs NTT RingOps RNSSpec RowProofs OpsProofs OpsProps BasisExt BasisProps Automorphism AutoProps Gadget Frlwe FrlweSetup GadgetSpec Repr FrlweProps Examples BasisEx FrlweEx RlweSpec Rlwe RlweKeys RlweTop RlweEx Float64 FloatProofs ScalingSpec Ckks CkksSpec CkksBase CkksConst CkksOps CkksFloat CkksRelin CkksRescale CkksEx CkksRefute CkksMore CkksMoreSpec CkksMoreTop.
Open Scope Z_scope.

(** Constants and scales below 2^30. *)
Definition small_float (x : float64) : bool := is_finite x && f64_le x (f64_of_Z (2 ^ 30)) && f64_le (f64_of_Z (- 2 ^ 30)) x.
Lemma small_abs x : small_float x = true -> is_finite x = true /\ (Rabs (B2R x) <= IZR (2 ^ 30))%R.
Proof.
  unfold small_float. rewrite !Bool.andb_true_iff. intros [[F H1] H2]. split; [exact F|].
  destruct (of_Z_int (2 ^ 30) ltac:(discriminate)) as [F1 E1]. destruct (of_Z_int (- 2 ^ 30) ltac:(discriminate)) as [F2 E2].
  unfold f64_le in H1, H2. rewrite Bleb_correct in H1, H2 by assumption. rewrite E1 in H1. rewrite E2 in H2.
  destruct (Rle_bool_spec (B2R x) (IZR (2 ^ 30))) as [G1|]; [|discriminate]. destruct (Rle_bool_spec (IZR (- 2 ^ 30)) (B2R x)) as [G2|]; [|discriminate]. apply Rabs_le. rewrite opp_IZR in G2. split; assumption.
Qed.
Lemma small_range x s : small_float x = true -> small_float s = true -> in_range x s.
Proof.
  intros H1 H2. destruct (small_abs x H1) as [F1 A1]. destruct (small_abs s H2) as [_ A2]. split; [exact F1|].
  rewrite Rabs_mult. apply Rle_trans with (IZR (2 ^ 30) * IZR (2 ^ 30))%R; [apply Rmult_le_compat; [apply Rabs_pos|apply Rabs_pos|exact A1|exact A2]|].
  rewrite <- mult_IZR. apply IZR_le. discriminate.
Qed.

(** Decryption to a given table, decided. *)
Definition dec_is (level : nat) (v : list rows) (t : list Z) : bool :=
  forallb (fun i => forallb (fun k => coeff (g_dec level v) i k mod mq (rmod gQ i) =? nth k t 0 mod mq (rmod gQ i)) (seq 0 16)) (seq 0 (S level)).
Lemma dec_is_ok level B c t : ct_ok gQ level B c -> fits gQ B -> dec_is level (ctV c) t = true -> decrypts gQ 4 (fst g_sk) c (fun k => nth k t 0).
Proof.
  intros Hc HB H. destruct (g_decrypts level B c Hc HB) as [M D]. destruct (ct_ok_repr gQ gQ_built 4 eq_refl level B c Hc) as [C HC].
  apply (ct_repr_peq gQ gQ_built 4 eq_refl level B c C _ ex_s M _ HC HB g_secret D). intros i Hi k Hk. change (rN gQ) with 16%nat in Hk.
  unfold dec_is in H. rewrite forallb_forall in H. specialize (H i ltac:(apply in_seq; lia)). rewrite forallb_forall in H. specialize (H k ltac:(apply in_seq; lia)).
  apply Z.eqb_eq in H. transitivity (coeff (g_dec level (ctV c)) i k); [symmetry; apply (g_dec_word level B c M i k Hc D Hi Hk)|].
  exact H.
Qed.

(** ** C65: the scale 3584 from the scale 1024; the ciphertext (1, 0) has the message 1/1024. *)
Definition one_v : list rows := [repeat (repeat 1 16) 2; zrows 2].
Definition one_ct : Ct := mkCt one_v (f64_of_Z 1024) true.
Definition ss_v : list rows := Eval vm_compute in match SetScale gQ one_ct (f64_of_Z 3584) with Done c => ctV c | _ => [] end.
Lemma table_gauss a k : nth k [a] 0 = pgauss 16 a 0 k.
Proof. destruct k as [|k]; [reflexivity|]. rewrite nth_overflow by (cbn; lia). unfold pgauss. change (Nat.eqb (S k) 0) with false. cbv iota. destruct (Nat.eqb (S k) (16 / 2)); reflexivity. Qed.
Lemma one_ok : ct_ok gQ 1 canon one_ct.
Proof. apply ctb_ok. vm_compute. reflexivity. Qed.
Lemma one_dec : decrypts gQ 4 (fst g_sk) one_ct (pgauss 16 1 0).
Proof.
  pose proof (dec_is_ok 1 canon one_ct [1] one_ok g_fits_canon ltac:(vm_compute; reflexivity)) as D.
  destruct (ct_ok_repr gQ gQ_built 4 eq_refl 1 canon one_ct one_ok) as [C HC].
  apply (ct_repr_peq gQ gQ_built 4 eq_refl 1 canon one_ct C _ ex_s _ _ HC g_fits_canon g_secret D). intros i Hi k Hk. apply eqm_eq.
  apply table_gauss.
Qed.
(** Numbers that are not integers, decided. *)
Lemma not_integer x : small_float x = true -> needs_scale x = true -> forall k, B2R x <> IZR k.
Proof.
  intros H N k E. destruct (small_abs x H) as [F A]. rewrite E, <- abs_IZR in A. apply le_IZR in A.
  rewrite (needs_scale_int x k) in N; [discriminate|split; [exact F|exact E]|]. apply Z.le_lt_trans with (1 := A). reflexivity.
Qed.
Lemma set_scale_wrong : exists rQ L sk s c scale c', 
  built_ring 9 rQ /\ rN rQ = (2 ^ L)%nat /\ secret rQ L sk s /\ ct_ok rQ 1 canon c /\ ctDegree c = 1%nat /\
  float_int (ctScale c) 1024 /\ float_int scale 3584 /\ decrypts rQ L sk c (pgauss (rN rQ) 1 0) /\
  SetScale rQ c scale = Done c' /\ ct_ok rQ 1 canon c' /\ ctDegree c' = 1%nat /\ ctScale c' = scale /\ decrypts rQ L sk c' (pgauss (rN rQ) 340 0).
Proof.
  destruct (set_scale_none gQ gQ_built 4 eq_refl 1 canon one_ct (f64_of_Z 3584) (fst g_sk) ex_s (pgauss 16 1 0) g_secret one_ok g_fits_canon one_dec ltac:(lia)) as (c' & a & E1 & E2 & E3 & E4 & _ & _).
  { apply small_range; vm_compute; reflexivity. }
  { apply not_integer; vm_compute; reflexivity. }
  { vm_compute. reflexivity. }
  { vm_compute. reflexivity. }
  { vm_compute. reflexivity. }
  assert (Ev : match SetScale gQ one_ct (f64_of_Z 3584) with Done c => ctV c | _ => [] end = ss_v) by (vm_compute; reflexivity). rewrite E1 in Ev.
  exists gQ, 4%nat, (fst g_sk), ex_s, one_ct, (f64_of_Z 3584), c'.
  split; [exact gQ_built|]. split; [reflexivity|]. split; [exact g_secret|]. split; [exact one_ok|]. split; [reflexivity|].
  split; [apply of_Z_int; discriminate|]. split; [apply of_Z_int; discriminate|]. split; [exact one_dec|].
  split; [exact E1|]. split; [exact E2|]. split; [exact E3|]. split; [exact E4|].
  assert (HD : dec_is 1 (ctV c') [340] = true) by (rewrite Ev; vm_compute; reflexivity).
  pose proof (dec_is_ok 1 canon c' [340] E2 g_fits_canon HD) as D.
  destruct (ct_ok_repr gQ gQ_built 4 eq_refl 1 canon c' E2) as [C HC].
  apply (ct_repr_peq gQ gQ_built 4 eq_refl 1 canon c' C _ ex_s _ _ HC g_fits_canon g_secret D). intros i Hi k Hk. apply eqm_eq.
  apply table_gauss.
Qed.

(** ** C67: MulByPow2New, and MultByiNew of a ciphertext of degree 2 *)
Definition p2_v : list rows := Eval vm_compute in ctV (MulByPow2 gQ x1 1 (g_new 1 0)).
Definition p2_dec : list Z := Eval vm_compute in nth 0 (g_dec 0 p2_v) [].
Lemma p2_dec_eq : nth 0 (g_dec 0 p2_v) [] = p2_dec.
Proof. vm_compute. reflexivity. Qed.
Lemma pow2_wrong : exists rQ L sk s c M scale,
  built_ring 9 rQ /\ rN rQ = (2 ^ L)%nat /\ secret rQ L sk s /\ ct_ok rQ 0 canon c /\ ctDegree c = 1%nat /\ decrypts rQ L sk c M /\
  ~ decrypts rQ L sk (MulByPow2 rQ c 1 (NewCiphertext (rN rQ) 1 0 scale)) (pscale (2 ^ 1) M).
Proof.
  destruct (g_decrypts 0 canon x1 x1_ok g_fits_canon) as [M0 D0].
  exists gQ, 4%nat, (fst g_sk), ex_s, x1, M0, f64_zero.
  split; [exact gQ_built|]. split; [reflexivity|]. split; [exact g_secret|]. split; [exact x1_ok|]. split; [reflexivity|]. split; [exact D0|].
  change (NewCiphertext (rN gQ) 1 0 f64_zero) with (g_new 1 0). intros D.
  destruct (result_ok (Some (MulByPow2 gQ x1 1 (g_new 1 0))) p2_v 0 canon) as (c & Ec & Ev & Hc); [vm_compute; reflexivity|vm_compute; reflexivity|vm_compute; reflexivity|].
  assert (E : MulByPow2 gQ x1 1 (g_new 1 0) = c) by (injection Ec; trivial). rewrite E in D.
  pose proof (table_peq 0 canon c _ 0 p2_dec Hc D ltac:(lia) ltac:(rewrite Ev; exact p2_dec_eq)) as T.
  pose proof (table_peq 0 canon x1 _ 0 x1_dec x1_ok D0 ltac:(lia) x1_dec_eq) as T0.
  assert (T3 : peq 16 12289 (tab p2_dec) (pscale (2 ^ 1) (tab x1_dec))).
  { etransitivity; [exact T|]. symmetry. apply pscale_peq. exact T0. }
  apply (peq_residue _ _ 0) in T3; [|lia]. vm_compute in T3. discriminate.
Qed.

Definition mi_v : list rows := Eval vm_compute in ctV (MultByiNew gQ false x3).
Definition mi_dec : list Z := Eval vm_compute in nth 0 (g_dec 0 mi_v) [].
Lemma mi_dec_eq : nth 0 (g_dec 0 mi_v) [] = mi_dec.
Proof. vm_compute. reflexivity. Qed.
Lemma mult_i_new_wrong : exists rQ L sk s c M,
  built_ring 9 rQ /\ rN rQ = (2 ^ L)%nat /\ secret rQ L sk s /\ ct_ok rQ 0 canon c /\ ctDegree c = 2%nat /\ decrypts rQ L sk c M /\
  ~ decrypts rQ L sk (MultByiNew rQ false c) (pmul (rN rQ) (pgauss (rN rQ) 0 1) M).
Proof.
  destruct (g_decrypts 0 canon x3 x3_ok g_fits_canon) as [M0 D0].
  exists gQ, 4%nat, (fst g_sk), ex_s, x3, M0.
  split; [exact gQ_built|]. split; [reflexivity|]. split; [exact g_secret|]. split; [exact x3_ok|]. split; [reflexivity|]. split; [exact D0|]. intros D.
  destruct (result_ok (Some (MultByiNew gQ false x3)) mi_v 0 canon) as (c & Ec & Ev & Hc); [vm_compute; reflexivity|vm_compute; reflexivity|vm_compute; reflexivity|].
  assert (E : MultByiNew gQ false x3 = c) by (injection Ec; trivial). rewrite E in D.
  pose proof (table_peq 0 canon c _ 0 mi_dec Hc D ltac:(lia) ltac:(rewrite Ev; exact mi_dec_eq)) as T.
  pose proof (table_peq 0 canon x3 _ 0 x3_dec x3_ok D0 ltac:(lia) x3_dec_eq) as T0.
  assert (T3 : peq 16 12289 (tab mi_dec) (pmul 16 (pgauss 16 0 1) (tab x3_dec))).
  { etransitivity; [exact T|]. symmetry. apply pmul_peq; [reflexivity|exact T0]. }
  apply (peq_residue _ _ 0) in T3; [|lia]. vm_compute in T3. discriminate.
Qed.
