(** The kinds of secret keys for the ring and the generators of SessionEx.v. *)
From Flocq Require Import IEEE754.Binary IEEE754.Bits IEEE754.BinarySingleNaN.
From Verif Require Import Word Arith PolySpec PolyProofs Ring RingProofs NTT RingOps RNSSpec RowProofs OpsProofs OpsProps BasisExt Automorphism Gadget Frlwe FrlweSetup GadgetSpec Repr FrlweProps RlweSpec Rlwe RlweKeys RlweTop Float64 Codec Sampler SamplerSpec Gauss GaussSpec Ckks CkksSpec CkksBase Fckks FckksSpec FckksProps MsgEx Draw DrawSpec DrawProofs SessionProofs SessionEx KeyKinds KeyKindsSpec KeyKindsProofs.
From Verif Require BasisEx.
Local Open Scope Z_scope.

Definition x_kinds : list kind := [Plain; Gaussian; Distrib half (fun _ => 85); HammingWeight 7 (fun j => Z.of_nat j mod 11)].
Lemma x_kinds_drawn : forallb (fun k => drawn (read_kind xsrc xQ k (newSamplers 10))) x_kinds = true.
Proof. vm_compute. reflexivity. Qed.
Lemma x_pair : ring_pair xQ xP.
Proof. destruct setup32 as (ks & conv & H). exact (f_pair mxQ mxP mxT 1 par32 ks conv (4 + 1) H). Qed.

Lemma x_kind_cases : forall k, In k x_kinds -> exists sk s st, DrawKind xsrc xQ xP k (newSamplers 10) = Ret (sk, st) /\ key_of xQ xP sk s /\ of_kind 32 10 19 k s.
Proof.
  intros k Hk. pose proof (proj1 (forallb_forall _ _) x_kinds_drawn k Hk) as D. cbv beta in D.
  pose proof (secret_kind xQ xP x_pair xsrc k (newSamplers 10) (new_samplers_ok 10) (fun _ => conj xsrc_ok (eq_ind_r (errors_fit xQ xP) fit32 xsrc_bound))) as H.
  unfold DrawKind in *. destruct (read_kind _ _ _ _) as [[rs st]| |]; [|discriminate..]. cbn [bind] in *. destruct H as (_ & _ & _ & s & H1 & H2).
  rewrite xsrc_bound in H2. exists (genSecretKey xQ xP rs), s, st. split; [reflexivity|]. split; [exact H1|exact H2].
Qed.

(** Key pair and encryption without special moduli. *)
Definition pipe (src : source) (rQ : Ring) (k : kind) (pt ct0 ct1 pool : rows) (st : samplers) : res ((rows * (rows * rows) * (rows * rows)) * samplers) :=
  let* '(sk, st) := DrawKindQ src rQ k st in
  let* '(pk, st) := DrawPublicKeyQ src rQ sk st in
  let* '(c, st) := DrawEncryptQ src rQ pk pt false ct0 ct1 true pool st in
  Ret ((sk, pk, c), st).
Lemma pipe_case src rQ L hw nb pt ct0 ct1 pool st M : built_ring 9 rQ -> rN rQ = (2 ^ L)%nat -> source_ok src -> errors_fit_Q rQ (srBound src) -> samplers_ok st ->
  let level := Nat.min (length pt - 1) (length ct0 - 1) in rns_repr rQ level canon pt M -> has_rows (rN rQ) level ct1 -> has_rows (rN rQ) level pool ->
  drawn (pipe src rQ (HammingWeight hw nb) pt ct0 ct1 pool st) = true ->
  exists sk s pk c0 c1 st1 st2 st3 F,
  DrawKindQ src rQ (HammingWeight hw nb) st = Ret (sk, st1) /\ secret rQ L sk s /\ ternary (rN rQ) hw s /\
  DrawPublicKeyQ src rQ sk st1 = Ret (pk, st2) /\ public_key_Q rQ L pk s (srBound src) /\
  DrawEncryptQ src rQ pk pt false ct0 ct1 true pool st2 = Ret ((c0, c1), st3) /\
  (forall pt' pool', (level < length pt')%nat -> rns_repr rQ level canon (Decrypt rQ sk [c0; c1] true pt' false pool') (padd M F)) /\
  pbound (rN rQ) (Z.of_nat (rN rQ) * srBound src + srBound src + Z.of_nat (rN rQ) * (srBound src * 1)) F.
Proof.
  intros BQ EL HS HF HO level HM Hc Hp D. unfold pipe in D.
  pose proof (secret_Q rQ BQ L EL src (HammingWeight hw nb) st HO (fun E => ltac:(discriminate E))) as H1.
  destruct (DrawKindQ _ _ _ _) as [[sk st1]| |]; [|discriminate..]. cbn [bind] in D. destruct H1 as (O1 & _ & _ & s & S1 & S2). cbn [of_kind] in S2.
  pose proof (public_Q rQ BQ L EL src sk s st1 HS HF O1 S1) as H2.
  destruct (DrawPublicKeyQ src rQ sk st1) as [[pk st2]| |] eqn:E2; [|discriminate..]. cbn [bind] in D. cbn [yields] in H2. destruct H2 as (O2 & _ & P1).
  pose proof (encrypt_Q rQ BQ L EL src pk sk s (srBound src) 1 pt false ct0 ct1 true pool M st2 HS HF O2 S1 P1 (proj2 (proj2 HS)) ltac:(lia) (fun k _ => ternary_abs _ _ _ S2 k) HM Hc Hp) as H3. cbv zeta in H3.
  destruct (DrawEncryptQ src rQ pk pt false ct0 ct1 true pool st2) as [[[c0 c1] st3]| |] eqn:E3; [|discriminate..]. cbn [yields] in H3.
  destruct H3 as (_ & _ & _ & F & F1 & F2). exists sk, s, pk, c0, c1, st1, st2, st3, F. split; [reflexivity|]. split; [exact S1|]. split; [exact S2|]. split; [exact E2|].
  split; [exact P1|]. split; [exact E3|]. split; [intros pt' pool'; apply (F2 pt' false pool')|exact F1].
Qed.

(** A secret of weight 7, a message at level 1. *)
Definition x_msg : poly := fun k => Z.of_nat k * 1000 - 7.
Definition x_pt : rows := BasisEx.res_rows xQ 1 x_msg.
Definition x_hw : kind := HammingWeight 7 (fun j => Z.of_nat j mod 11).
Lemma x_pipe_drawn : drawn (pipe xsrc xQ x_hw x_pt (zero_poly xQ) (zero_poly xQ) (zero_poly xQ) (newSamplers 10)) = true.
Proof. vm_compute. reflexivity. Qed.
Lemma x_fit_Q : errors_fit_Q xQ (srBound xsrc).
Proof. rewrite xsrc_bound. exact (proj1 (proj2 fit32)). Qed.
Lemma x_zero : has_rows (rN xQ) 1 (zero_poly xQ).
Proof. apply zero_poly_rows. change (length (rmods xQ)) with 3%nat. lia. Qed.
Lemma x_repr : rns_repr xQ 1 canon x_pt x_msg.
Proof. apply (BasisEx.res_rows_repr 2); [lia|apply (one_2 xQ), (k_Q xQ xP x_pair)|change (length (rmods xQ)) with 3%nat; lia]. Qed.
Lemma x_level : Nat.min (length x_pt - 1) (length (zero_poly xQ) - 1) = 1%nat.
Proof. vm_compute. reflexivity. Qed.

Lemma x_without_P : exists sk s pk c0 c1 st1 st2 st3 F,
  DrawKindQ xsrc xQ x_hw (newSamplers 10) = Ret (sk, st1) /\ secret xQ 5 sk s /\ ternary 32 7 s /\
  DrawPublicKeyQ xsrc xQ sk st1 = Ret (pk, st2) /\ public_key_Q xQ 5 pk s 19 /\
  DrawEncryptQ xsrc xQ pk x_pt false (zero_poly xQ) (zero_poly xQ) true (zero_poly xQ) st2 = Ret ((c0, c1), st3) /\
  (forall pt' pool', (1 < length pt')%nat -> rns_repr xQ 1 canon (Decrypt xQ sk [c0; c1] true pt' false pool') (padd x_msg F)) /\ pbound 32 1235 F.
Proof.
  pose proof (pipe_case xsrc xQ 5 7 (fun j => Z.of_nat j mod 11) x_pt (zero_poly xQ) (zero_poly xQ) (zero_poly xQ) (newSamplers 10) x_msg (k_Q xQ xP x_pair) eq_refl xsrc_ok x_fit_Q (new_samplers_ok 10)) as H.
  cbv zeta in H. rewrite x_level, xsrc_bound in H. specialize (H x_repr x_zero x_zero x_pipe_drawn). exact H.
Qed.
