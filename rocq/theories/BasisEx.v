(** Concrete objects for the examples of the basis extension. *)
From Verif Require Import Word Arith PolySpec PolyProofs Ring RingProofs NTT RingOps RNSSpec RowProofs OpsProofs Float64 BasisExt BasisProofs BasisProps Pocklington Examples.

(** The rows of residues of an integer polynomial. *)
Definition res_rows (r : Ring) (level : nat) (X : nat -> Z) : rows :=
  map (fun i => map (fun k => X k mod mq (rmod r i)) (seq 0 (rN r))) (seq 0 (S level)).

Lemma res_rows_repr c r level X : 2 <= c -> built_ring c r -> (level < length (rmods r))%nat ->
  rns_repr r level canon (res_rows r level X) X.
Proof.
  intros Hc Hr Hl. destruct (built_ring_wf c r Hc Hr) as (L & Hw & _).
  split; [exact Hl|]. unfold res_rows. split; [rewrite map_length, seq_length; lia|].
  intros i Hi. rewrite nth_map_seq by lia.
  pose proof (wf_ge _ _ (wf_ring_mod _ _ _ i Hw ltac:(lia))).
  split; [rewrite map_length, seq_length; reflexivity|]. intros k Hk. rewrite nth_map_seq by exact Hk.
  split; [apply Z.mod_pos_bound; unfold canon; lia|apply eqm_mod].
Qed.

Lemma rns_repr_weaken r level (B B' : Z -> Z) p X : (forall i, (i <= level)%nat -> B (mq (rmod r i)) <= B' (mq (rmod r i))) ->
  rns_repr r level B p X -> rns_repr r level B' p X.
Proof.
  intros HB (H1 & H2 & H3). split; [exact H1|]. split; [exact H2|]. intros i Hi.
  apply (row_repr_weaken _ _ (B (mq (rmod r i)))); [apply HB; exact Hi|apply H3; exact Hi].
Qed.

Definition ringP16 : Ring := Eval vm_compute in ring_of 16 [353; 449; 577].
Lemma ringP16_built : built_ring 8 ringP16.
Proof.
  exists 1000%nat, 16, [353; 449; 577]. split; [vm_compute; reflexivity|].
  split; [vm_compute; discriminate|]. intros q Hq. cbn in Hq.
  destruct Hq as [<- | [<- | [<- | []]]]; vm_compute; discriminate.
Qed.

Lemma built_weaken c c' r : 0 <= c' <= c -> built_ring c r -> built_ring c' r.
Proof.
  intros Hc (fuel & N & ms & E & H1 & H2). exists fuel, N, ms. split; [exact E|]. split; [exact H1|].
  intros q Hq. specialize (H2 q Hq). assert (W0 : 0 < W) by reflexivity.
  destruct (Z.le_gt_cases 0 q); [|revert Hc W0 H; clear; nia].
  assert (c' * q <= c * q) by (apply Z.mul_le_mono_nonneg_r; lia). lia.
Qed.

Definition X16 (k : nat) : Z := 123456 * Z.of_nat k + 7.

Lemma disjointb r1 r2 : forallb (fun q => negb (existsb (Z.eqb q) (moduli r2))) (moduli r1) = true -> disjoint_moduli r1 r2.
Proof.
  rewrite forallb_forall. intros H q H1 H2. specialize (H q H1). apply negb_true_iff in H.
  assert (E : existsb (Z.eqb q) (moduli r2) = true) by (apply existsb_exists; exists q; split; [exact H2|apply Z.eqb_refl]).
  congruence.
Qed.
