(** Polynomials that stand for messages. *)
From Coq Require Import Reals ZArith Lra Lia List Arith.
From Coquelicot Require Import Complex.
From Verif Require Import PolySpec PolyProofs FftSpec FftRing SlotSpec SlotProofs EncFft EncSlots SlotTrace MsgSpec.
Import ListNotations.
Open Scope R_scope.

Lemma sparse_period m L p k : (L <= m)%nat -> let N := (2 ^ (m + 1))%nat in sparse N (2 ^ (m - L)) p -> slot N p (k + 2 ^ L) = slot N p k.
Proof.
  intros HL N HS. unfold slot. apply csum_ext. intros i Hi.
  destruct (Nat.eq_dec (i mod 2 ^ (m - L)) 0) as [E|E].
  - f_equal. apply Nat.mod_divide in E; [|apply Nat.pow_nonzero; lia]. destruct E as [t ->].
    destruct (five_order L) as [c' Ec]. set (c := (2 * c' + 1)%nat) in Ec.
    replace (PI * INR (5 ^ (k + 2 ^ L) * (t * 2 ^ (m - L))) / INR N) with (PI * INR (5 ^ k * (t * 2 ^ (m - L))) / INR N + PI * INR (2 * (5 ^ k * c * t))); [apply cis_shift_even|].
    assert (HN : INR N <> 0) by (apply not_0_INR; unfold N; apply Nat.pow_nonzero; lia).
    rewrite Nat.pow_add_r, Ec.
    assert (X : (2 ^ (L + 2) * 2 ^ (m - L) = 2 * N)%nat). { unfold N. rewrite <- Nat.pow_add_r. replace (L + 2 + (m - L))%nat with (S (m + 1)) by lia. reflexivity. }
    replace (5 ^ k * (1 + 2 ^ (L + 2) * c) * (t * 2 ^ (m - L)))%nat with (5 ^ k * (t * 2 ^ (m - L)) + 2 * (5 ^ k * c * t) * N)%nat.
    + rewrite plus_INR, (mult_INR _ N). field. exact HN.
    + replace (5 ^ k * (1 + 2 ^ (L + 2) * c) * (t * 2 ^ (m - L)))%nat with (5 ^ k * (t * 2 ^ (m - L)) + 5 ^ k * c * t * (2 ^ (L + 2) * 2 ^ (m - L)))%nat by ring. rewrite X. ring.
  - rewrite HS by assumption. ring.
Qed.

Lemma Cmod_cconj x : Cmod (Cconj x) = Cmod x.
Proof. unfold Cmod, Cconj. cbn [fst snd]. f_equal. ring. Qed.

Section Ops.
  Variables (N L : nat).
  Hypothesis HN : (0 < N)%nat.
  Notation sf := (stands_for N L).

  Lemma sf_weaken P s v e e' : sf P s v e -> e <= e' -> sf P s v e'.
  Proof. intros H He k. apply Rle_trans with (1 := H k). exact He. Qed.
  Lemma sf_ext P s v v' e : sf P s v e -> (forall k, (k < 2 ^ L)%nat -> v k = v' k) -> sf P s v' e.
  Proof. intros H E k. rewrite <- E by (apply Nat.mod_upper_bound, Nat.pow_nonzero; lia). apply H. Qed.
  Lemma sf_add P0 P1 s v0 v1 e0 e1 : sf P0 s v0 e0 -> sf P1 s v1 e1 -> sf (padd P0 P1) s (fun k => Cplus (v0 k) (v1 k)) (e0 + e1).
  Proof.
    intros H0 H1 k. rewrite slot_add by exact HN. specialize (H0 k). specialize (H1 k).
    match goal with |- Cmod ?X <= _ => replace X with ((slot N P0 k - RtoC s * v0 (k mod 2 ^ L)%nat) + (slot N P1 k - RtoC s * v1 (k mod 2 ^ L)%nat))%C by (unfold Cminus; ring) end.
    apply Rle_trans with (1 := Cmod_triangle _ _). lra.
  Qed.
  Lemma slot_scale a P k : slot N (pscale a P) k = Cmult (RtoC (IZR a)) (slot N P k).
  Proof. unfold slot. rewrite <- csum_scale. apply csum_ext. intros i _. unfold pscale. rewrite mult_IZR, RtoC_mult. ring. Qed.
  Lemma slot_psub P0 P1 k : slot N (psub P0 P1) k = Cminus (slot N P0 k) (slot N P1 k).
  Proof.
    assert (E : slot N P0 k = Cplus (slot N (psub P0 P1) k) (slot N P1 k)).
    { rewrite <- slot_add by exact HN. apply csum_ext. intros i _. do 3 f_equal. unfold psub, padd. lia. }
    rewrite E. unfold Cminus. ring.
  Qed.
  Lemma sf_sub P0 P1 s v0 v1 e0 e1 : sf P0 s v0 e0 -> sf P1 s v1 e1 -> sf (psub P0 P1) s (fun k => Cminus (v0 k) (v1 k)) (e0 + e1).
  Proof.
    intros H0 H1 k. rewrite slot_psub. specialize (H0 k). specialize (H1 k).
    match goal with |- Cmod ?X <= _ => replace X with ((slot N P0 k - RtoC s * v0 (k mod 2 ^ L)%nat) + - (slot N P1 k - RtoC s * v1 (k mod 2 ^ L)%nat))%C by (unfold Cminus; ring) end.
    apply Rle_trans with (1 := Cmod_triangle _ _). rewrite Cmod_opp. lra.
  Qed.
  Lemma sf_noise P E s v e B : sf P s v e -> (forall i, (i < N)%nat -> Rabs (IZR (E i)) <= B) -> sf (padd P E) s v (e + INR N * B).
  Proof.
    intros H HB k. rewrite slot_add by exact HN. specialize (H k). assert (X := slot_boundR N E B k HB).
    match goal with |- Cmod ?X <= _ => replace X with ((slot N P k - RtoC s * v (k mod 2 ^ L)%nat) + slot N E k)%C by (unfold Cminus; ring) end.
    apply Rle_trans with (1 := Cmod_triangle _ _). lra.
  Qed.
  Lemma sf_scale P s s' v e A : sf P s v e -> vbound v A -> sf P s' v (e + Rabs (s - s') * A).
  Proof.
    intros H [HA HV] k. specialize (H k). specialize (HV (k mod 2 ^ L)%nat).
    match goal with |- Cmod ?X <= _ => replace X with ((slot N P k - RtoC s * v (k mod 2 ^ L)%nat) + RtoC (s - s') * v (k mod 2 ^ L)%nat)%C by (rewrite RtoC_minus; unfold Cminus; ring) end.
    apply Rle_trans with (1 := Cmod_triangle _ _). rewrite Cmod_mult, Cmod_R. assert (Rabs (s - s') * Cmod (v (k mod 2 ^ L)%nat) <= Rabs (s - s') * A) by (apply Rmult_le_compat_l; [apply Rabs_pos|exact HV]). lra.
  Qed.
  Lemma sf_mul P0 P1 s0 s1 v0 v1 A0 A1 e0 e1 : 0 <= s0 -> 0 <= s1 -> vbound v0 A0 -> vbound v1 A1 -> sf P0 s0 v0 e0 -> sf P1 s1 v1 e1 ->
    sf (pmul N P0 P1) (s0 * s1) (fun k => Cmult (v0 k) (v1 k)) (s0 * A0 * e1 + s1 * A1 * e0 + e0 * e1).
  Proof.
    intros Hs0 Hs1 [HA0 V0] [HA1 V1] H0 H1 k. rewrite slot_mul by exact HN. specialize (H0 k). specialize (H1 k). specialize (V0 (k mod 2 ^ L)%nat). specialize (V1 (k mod 2 ^ L)%nat).
    set (x0 := slot N P0 k) in *. set (x1 := slot N P1 k) in *. set (w0 := v0 (k mod 2 ^ L)%nat) in *. set (w1 := v1 (k mod 2 ^ L)%nat) in *.
    match goal with |- Cmod ?X <= _ => replace X with (RtoC s0 * w0 * (x1 - RtoC s1 * w1) + RtoC s1 * w1 * (x0 - RtoC s0 * w0) + (x0 - RtoC s0 * w0) * (x1 - RtoC s1 * w1))%C by (rewrite RtoC_mult; unfold Cminus; ring) end.
    apply Rle_trans with (1 := Cmod_triangle _ _). apply Rplus_le_compat; [apply Rle_trans with (1 := Cmod_triangle _ _); apply Rplus_le_compat|].
    - rewrite !Cmod_mult, Cmod_R, Rabs_pos_eq by exact Hs0. apply Rmult_le_compat; [apply Rmult_le_pos; [exact Hs0|apply Cmod_ge_0]|apply Cmod_ge_0|apply Rmult_le_compat_l; assumption|exact H1].
    - rewrite !Cmod_mult, Cmod_R, Rabs_pos_eq by exact Hs1. apply Rmult_le_compat; [apply Rmult_le_pos; [exact Hs1|apply Cmod_ge_0]|apply Cmod_ge_0|apply Rmult_le_compat_l; assumption|exact H0].
    - rewrite Cmod_mult. apply Rmult_le_compat; [apply Cmod_ge_0|apply Cmod_ge_0|exact H0|exact H1].
  Qed.
  Lemma sf_rotate P s v e r : sf P s v e -> sf (pauto N (5 ^ r) P) s (fun k => v ((k + r) mod 2 ^ L)%nat) e.
  Proof. intros H k. rewrite slot_rotate by exact HN. rewrite Nat.add_mod_idemp_l by (apply Nat.pow_nonzero; lia). apply H. Qed.
  Lemma sf_conj P s v e : sf P s v e -> sf (pauto N (2 * N - 1) P) s (fun k => Cconj (v k)) e.
  Proof.
    intros H k. rewrite slot_conj by exact HN. specialize (H k).
    match goal with |- Cmod ?X <= _ => replace X with (Cconj (slot N P k - RtoC s * v (k mod 2 ^ L)%nat)%C) end.
    - rewrite Cmod_cconj. exact H.
    - destruct (slot N P k) as [a b], (v (k mod 2 ^ L)%nat) as [c d]. unfold Cconj, RtoC, Cminus, Cmult, Cplus, Copp. cbn [fst snd]. f_equal; ring.
  Qed.
  Lemma sf_div' P P' R s v e D B : (0 < D)%Z -> (forall i, (i < N)%nat -> (D * P' i + R i)%Z = P i) -> (forall k, Cmod (slot N R k) <= B) ->
    sf P s v e -> sf P' (s / IZR D) v ((e + B) / IZR D).
  Proof.
    intros HD HP HB H k. specialize (H k). assert (PD : 0 < IZR D) by (apply IZR_lt; exact HD). assert (X := HB k).
    assert (E : slot N P k = (RtoC (IZR D) * slot N P' k + slot N R k)%C).
    { rewrite <- slot_scale, <- slot_add by exact HN. apply csum_ext. intros i Hi. do 3 f_equal. unfold padd, pscale. symmetry. apply HP. exact Hi. }
    apply (Rmult_le_reg_l (IZR D)); [exact PD|]. replace (IZR D * ((e + B) / IZR D)) with (e + B) by (field; lra).
    rewrite <- (Rabs_pos_eq (IZR D)) at 1 by lra. rewrite <- Cmod_R, <- Cmod_mult.
    match goal with |- Cmod ?X <= _ => replace X with ((slot N P k - RtoC s * v (k mod 2 ^ L)%nat) + - slot N R k)%C end.
    - apply Rle_trans with (1 := Cmod_triangle _ _). rewrite Cmod_opp. lra.
    - rewrite E. unfold Rdiv. rewrite RtoC_mult. assert (Y : (RtoC (IZR D) * RtoC (/ IZR D) = RtoC 1)%C) by (rewrite <- RtoC_mult; f_equal; field; lra).
      transitivity (RtoC (IZR D) * slot N P' k - (RtoC (IZR D) * RtoC (/ IZR D)) * (RtoC s * v (k mod 2 ^ L)%nat))%C; [rewrite Y|]; unfold Cminus; ring.
  Qed.
  Lemma sf_size P s v e A k : 0 <= s -> vbound v A -> sf P s v e -> Cmod (slot N P k) <= s * A + e.
  Proof.
    intros Hs [HA V] H. specialize (H k). specialize (V (k mod 2 ^ L)%nat).
    replace (slot N P k) with (RtoC s * v (k mod 2 ^ L)%nat + (slot N P k - RtoC s * v (k mod 2 ^ L)%nat))%C by (unfold Cminus; ring).
    apply Rle_trans with (1 := Cmod_triangle _ _). rewrite Cmod_mult, Cmod_R, Rabs_pos_eq by exact Hs.
    assert (s * Cmod (v (k mod 2 ^ L)%nat) <= s * A) by (apply Rmult_le_compat_l; assumption). lra.
  Qed.
End Ops.
