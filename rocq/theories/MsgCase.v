(** Every ciphertext that decrypts carries some message: for the examples of the evaluator of ckks, with the keys of CkksEx.v. *)
From Coq Require Import Reals Lra Lia ZArith List Arith.
From Coquelicot Require Import Complex.
From Verif Require Import Word Arith PolySpec Ring RingOps RNSSpec Gadget GadgetSpec Float64 ScalingSpec Rlwe RlweSpec Ckks CkksSpec CkksFloat CkksEx SlotSpec SlotProofs EncSpec MsgSpec SlotMsg.
Import ListNotations.
Open Scope R_scope.

Lemma slot_mod m P k : slot (2 ^ (m + 1)) P k = slot (2 ^ (m + 1)) P (k mod 2 ^ m).
Proof.
  rewrite (Nat.div_mod_eq k (2 ^ m)) at 1. generalize (k / 2 ^ m)%nat, (k mod 2 ^ m)%nat. intros a b. induction a as [|a IH]; [f_equal; lia|].
  replace (2 ^ m * S a + b)%nat with ((2 ^ m * a + b) + 2 ^ m)%nat by lia. rewrite slot_period. exact IH.
Qed.
Lemma below_all (f : nat -> R) n : exists A, 0 <= A /\ forall k, (k < n)%nat -> f k <= A.
Proof.
  induction n as [|n [A [H1 H2]]]; [exists 0; split; [lra|lia]|]. exists (Rmax A (f n)). split; [apply Rle_trans with (1 := H1), Rmax_l|].
  intros k Hk. destruct (Nat.eq_dec k n) as [->|Hn]; [apply Rmax_r|]. apply Rle_trans with A; [apply H2; lia|apply Rmax_l].
Qed.
Lemma any_carries m r sk c P : rN r = (2 ^ (m + 1))%nat -> decrypts r (m + 1) sk c P -> fval (ctScale c) <> 0 -> exists v A, carries r m m sk c v 0 /\ vbound v A.
Proof.
  intros EN HD HS. set (v k := (slot (rN r) P (k mod 2 ^ m) / RtoC (fval (ctScale c)))%C). destruct (below_all (fun k => Cmod (v k)) (2 ^ m)) as (A & A1 & A2).
  assert (P0 : (0 < 2 ^ m)%nat) by (apply Nat.neq_0_lt_0, Nat.pow_nonzero; lia).
  exists v, A. split.
  - exists P. split; [exact HD|]. intros k. unfold v. rewrite Nat.mod_mod by lia.
    replace (slot (rN r) P k) with (slot (rN r) P (k mod 2 ^ m)) by (rewrite EN; symmetry; apply slot_mod).
    match goal with |- Cmod ?x <= _ => replace x with (RtoC 0) end; [rewrite Cmod_0; lra|]. set (z := slot _ _ _). clearbody z. field. intros E. apply HS. injection E. trivial.
  - split; [exact A1|]. intros k. unfold v at 1. specialize (A2 (k mod 2 ^ m)%nat). cbv beta in A2. unfold v in A2. rewrite Nat.mod_mod in A2 by lia. apply A2. apply Nat.mod_upper_bound. lia.
Qed.

Lemma g_ok : ct_ok gQ 1 canon (g_ct 1 1 1024) /\ ct_ok gQ 1 canon (g_ct 2 1 1024).
Proof. split; apply ctb_ok; vm_compute; reflexivity. Qed.
Lemma g_scale seed : scale_ok (ctScale (g_ct seed 1 1024)) /\ fval (ctScale (g_ct seed 1 1024)) = 1024.
Proof. destruct (of_Z_int 1024 ltac:(discriminate)) as [F E]. cbn [g_ct ctScale]. split; [split; [exact F|rewrite E; lra]|exact E]. Qed.
Lemma g_carries seed : ct_ok gQ 1 canon (g_ct seed 1 1024) -> exists v A, carries gQ 3 3 (fst g_sk) (g_ct seed 1 1024) v 0 /\ vbound v A.
Proof. intros K. destruct (g_decrypts 1 canon _ K g_fits_canon) as [M D]. apply (any_carries 3 gQ (fst g_sk) _ M eq_refl D). rewrite (proj2 (g_scale seed)). lra. Qed.
Lemma carries_ext r m L sk c v v' e : (forall k, (k < 2 ^ L)%nat -> v k = v' k) -> carries r m L sk c v e -> carries r m L sk c v' e.
Proof. intros H (P & D & SF). exists P. split; [exact D|]. intros k. rewrite <- H by (apply Nat.mod_upper_bound, Nat.pow_nonzero; lia). apply SF. Qed.
