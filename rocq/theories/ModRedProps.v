(** Proofs of the statements of P_ModRed.v. *)
From Verif Require Import Word ModRed Arith ModRedProofs Fermat.

Lemma p63 q : q < 2 ^ 63 -> 2 * q <= W.
Proof. unfold W. change (2 ^ 63) with 9223372036854775808. lia. Qed.
Lemma p63' q : q <= 2 ^ 63 -> 2 * q <= W.
Proof. unfold W. change (2 ^ 63) with 9223372036854775808. lia. Qed.

Lemma C01_lemma :
  forall q x y,
    Z.odd q = true -> 2 <= q < 2 ^ 63 -> 0 <= x < W -> 0 <= y < W -> x * y < q * W ->
    let r := MRed x y q (MRedParams q) in
    0 <= r < q /\ (r * W) mod q = (x * y) mod q /\
    (forall r', 0 <= r' < q -> (r' * W) mod q = (x * y) mod q -> r' = r).
Proof.
  intros q x y Ho [Hq HqW] Hx Hy Hb r. apply p63 in HqW.
  pose proof (MRedParams_inv q Ho) as Hi.
  assert (R : 0 <= r < q) by (apply MRed_range; lia || assumption).
  assert (E : eqm q (r * W) (x * y)) by (apply MRed_eqm; lia || assumption).
  split; [exact R|]. split; [exact E|].
  intros r' Hr' E'. apply (eqm_small q); [assumption|assumption|].
  apply odd_cancel_W; [lia|assumption|]. exact (eq_trans E' (eq_sym E)).
Qed.

Lemma C01_lazy_lemma :
  forall q x y,
    Z.odd q = true -> 2 <= q < 2 ^ 63 -> 0 <= x < W -> 0 <= y < W -> x * y < q * W ->
    let r := MRedConstant x y q (MRedParams q) in
    0 < r < 2 * q /\ (r * W) mod q = (x * y) mod q.
Proof.
  intros q x y Ho [Hq HqW] Hx Hy Hb r. apply p63 in HqW.
  pose proof (MRedParams_inv q Ho) as Hi.
  split; [apply MRedConstant_range; lia || assumption|].
  apply MRedConstant_eqm; lia || assumption.
Qed.

Lemma C01_reduced_lemma :
  forall q x y, 0 < q -> 0 <= x < W -> 0 <= y < q -> x * y < q * W.
Proof. intros. nia. Qed.

Lemma C01_refuted_lemma :
  exists q x y, Z.odd q = true /\ 2 <= q < 2 ^ 63 /\ 0 <= x < W /\ 0 <= y < W /\
    (MRed x y q (MRedParams q) * W) mod q <> (x * y) mod q.
Proof.
  exists 97, 18446744073709551615, 18446744073709551615.
  repeat split; try (vm_compute; congruence).
Qed.

Lemma C02_lemma :
  forall q, Z.odd q = true -> 0 <= q < W ->
    (q * MRedParams q) mod W = 1 /\ 0 <= MRedParams q < W.
Proof.
  intros q Ho Hq. split.
  - pose proof (MRedParams_inv q Ho) as H. unfold eqm in H. rewrite H. reflexivity.
  - apply MRedParams_range.
Qed.

Lemma C02_even_lemma :
  forall q k, Z.odd q = false -> (q * k) mod W <> 1.
Proof.
  intros q k Ho H.
  assert (He : Z.even q = true) by (rewrite <- Z.negb_odd, Ho; reflexivity).
  apply Z.even_spec in He. destruct He as [h ->].
  pose proof (Z.div_mod (2 * h * k) W ltac:(discriminate)) as D. rewrite H in D.
  unfold W in D. lia.
Qed.

Lemma C03_mul_lemma :
  forall q x y, 2 <= q <= 2 ^ 63 -> 0 <= x < W -> 0 <= y < W ->
    BRed x y q (BRedParams q) = (x * y) mod q.
Proof. intros q x y [Hq HqW] Hx Hy. apply p63' in HqW. apply BRed_correct; assumption. Qed.

Lemma C03_mul_lazy_lemma :
  forall q x y, 2 <= q <= 2 ^ 63 -> 0 <= x < W -> 0 <= y < W ->
    0 <= BRedConstant x y q (BRedParams q) < 2 * q /\
    BRedConstant x y q (BRedParams q) mod q = (x * y) mod q.
Proof.
  intros q x y [Hq HqW] Hx Hy. apply p63' in HqW.
  destruct (BRedConstant_spec x y q Hq HqW Hx Hy) as (s & E & R). split; [exact R|].
  rewrite E. apply (eqm_intro _ _ _ (- s)). ring.
Qed.

Lemma C03_red_lemma :
  forall q a, 2 <= q <= 2 ^ 63 -> 0 <= a < W -> BRedAdd a q (BRedParams q) = a mod q.
Proof. intros q a [Hq HqW] Ha. apply p63' in HqW. apply BRedAdd_correct; assumption. Qed.

Lemma C03_red_lazy_lemma :
  forall q a, 2 <= q <= 2 ^ 63 -> 0 <= a < W ->
    0 <= BRedAddConstant a q (BRedParams q) < 2 * q /\
    BRedAddConstant a q (BRedParams q) mod q = a mod q.
Proof.
  intros q a [Hq HqW] Ha. apply p63' in HqW.
  destruct (BRedAddConstant_spec a q Hq HqW Ha) as (s & E & R). split; [exact R|].
  rewrite E. apply (eqm_intro _ _ _ (- s)). ring.
Qed.

Lemma C03_cred_lemma :
  forall q a, 0 < q <= 2 ^ 63 -> 0 <= a < 2 * q -> CRed a q = a mod q.
Proof. intros q a [Hq HqW] Ha. apply p63' in HqW. apply CRed_correct; lia. Qed.

Lemma C04_to_lemma :
  forall q a, 2 <= q < 2 ^ 63 -> 0 <= a < W -> MForm a q (BRedParams q) = (a * W) mod q.
Proof. intros q a [Hq HqW] Ha. apply p63 in HqW. apply MForm_correct; assumption. Qed.

Lemma C04_to_lazy_lemma :
  forall q a, 2 <= q < 2 ^ 63 -> 0 <= a < W ->
    0 <= MFormConstant a q (BRedParams q) < 2 * q /\
    MFormConstant a q (BRedParams q) mod q = (a * W) mod q.
Proof.
  intros q a [Hq HqW] Ha. apply p63 in HqW.
  destruct (MFormConstant_spec a q Hq HqW Ha) as (s & E & R). split; [exact R|].
  rewrite E. apply (eqm_intro _ _ _ (- s)). ring.
Qed.

Lemma C04_from_lemma :
  forall q a, Z.odd q = true -> 2 <= q < 2 ^ 63 -> 0 <= a < W ->
    0 <= InvMForm a q (MRedParams q) < q /\
    (InvMForm a q (MRedParams q) * W) mod q = a mod q.
Proof.
  intros q a Ho [Hq HqW] Ha. apply p63 in HqW. pose proof (MRedParams_inv q Ho) as Hi.
  split; [apply InvMForm_range; lia || assumption|apply InvMForm_eqm; lia || assumption].
Qed.

Lemma C04_from_lazy_lemma :
  forall q a, Z.odd q = true -> 2 <= q < 2 ^ 63 -> 0 <= a < W ->
    0 <= InvMFormConstant a q (MRedParams q) <= q /\
    (InvMFormConstant a q (MRedParams q) * W) mod q = a mod q.
Proof.
  intros q a Ho [Hq HqW] Ha. apply p63 in HqW. pose proof (MRedParams_inv q Ho) as Hi.
  destruct (InvMFormConstant_spec a q (MRedParams q)) as [R E]; try lia; try assumption.
  split; [lia|exact E].
Qed.

Lemma C04_round_trip_lemma :
  forall q a, Z.odd q = true -> 2 <= q < 2 ^ 63 -> 0 <= a < W ->
    InvMForm (MForm a q (BRedParams q)) q (MRedParams q) = a mod q /\
    MForm (InvMForm a q (MRedParams q)) q (BRedParams q) = a mod q.
Proof.
  intros q a Ho [Hq HqW] Ha. apply p63 in HqW.
  split; [apply InvMForm_MForm; assumption|apply MForm_InvMForm; assumption].
Qed.

Lemma C05_exp_lemma :
  forall q x e, 2 <= q <= 2 ^ 63 -> 0 <= x < W -> 0 <= e < W -> ModExp x e q = (x ^ e) mod q.
Proof. intros q x e [Hq HqW] Hx He. apply p63' in HqW. apply ModExp_correct; lia. Qed.

Lemma C05_inverse_lemma :
  forall q x, prime q -> 2 <= q <= 2 ^ 63 -> 0 <= x < W -> ~ (q | x) ->
    (x * ModExp x (q - 2) q) mod q = 1 /\ 0 <= ModExp x (q - 2) q < q.
Proof.
  intros q x Hp [Hq HqW] Hx Hd. apply p63' in HqW. rewrite ModExp_correct by lia. split.
  - rewrite Zmult_mod_idemp_r. pose proof (fermat_inv q x Hp Hd) as F. unfold eqm in F.
    rewrite F. apply Z.mod_small. lia.
  - apply Z.mod_pos_bound. lia.
Qed.

Lemma C05_mont_exp_lemma :
  forall q b e, Z.odd q = true -> 2 <= q < 2 ^ 63 -> 0 <= e < 2 ^ 63 ->
    ModexpMontgomery ((b * W) mod q) e q (MRedParams q) (BRedParams q) = (b ^ e * W) mod q.
Proof.
  intros q b e Ho [Hq HqW] He. apply p63 in HqW.
  apply ModexpMontgomery_correct; try assumption; try lia. apply eqm_mod.
Qed.

Lemma C05_pow2_lemma :
  forall q x n, Z.odd q = true -> 2 <= q < 2 ^ 63 -> 0 <= n <= 64 -> 0 <= x < W -> x * 2 ^ n < q * W ->
    0 <= PowerOf2 x n q (MRedParams q) < q /\
    (PowerOf2 x n q (MRedParams q) * W) mod q = (x * 2 ^ n) mod q.
Proof.
  intros q x n Ho [Hq HqW] Hn Hx Hb. apply p63 in HqW.
  apply PowerOf2_correct; try assumption. apply MRedParams_inv; assumption.
Qed.

Lemma C05_case_lemma : ModExp 5 95 97 = 39 /\ (5 * 39) mod 97 = 1 /\ prime 97 /\ ~ (97 | 5).
Proof.
  split; [vm_compute; reflexivity|]. split; [reflexivity|]. split.
  - destruct (prime_dec 97) as [H|H]; [exact H|].
    exfalso. apply H. constructor; [lia|]. intros n Hn. apply Zgcd_1_rel_prime.
    assert (G : forallb (fun k => Z.gcd (Z.of_nat k) 97 =? 1) (seq 1 96) = true) by (vm_compute; reflexivity).
    rewrite forallb_forall in G.
    specialize (G (Z.to_nat n)). rewrite Z2Nat.id in G by lia.
    apply Z.eqb_eq, G. apply in_seq. lia.
  - intros [k Hk]. lia.
Qed.
