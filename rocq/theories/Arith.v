(** Elementary facts about congruences used throughout the proofs. *)
From Verif Require Import Word.
From Coq Require Export Setoid Morphisms Znumtheory Zpow_facts.
Ltac Zify.zify_post_hook ::= Z.div_mod_to_equations.

Global Instance eqm_equiv q : Equivalence (eqm q).
Proof. split; unfold eqm; red; intros; congruence. Qed.

Global Instance eqm_add q : Proper (eqm q ==> eqm q ==> eqm q) Z.add.
Proof.
  intros a b H c d H'. unfold eqm in *.
  rewrite Zplus_mod, H, H', <- Zplus_mod. reflexivity.
Qed.

Global Instance eqm_mul q : Proper (eqm q ==> eqm q ==> eqm q) Z.mul.
Proof.
  intros a b H c d H'. unfold eqm in *.
  rewrite Zmult_mod, H, H', <- Zmult_mod. reflexivity.
Qed.

Global Instance eqm_sub q : Proper (eqm q ==> eqm q ==> eqm q) Z.sub.
Proof.
  intros a b H c d H'. unfold eqm in *.
  rewrite Zminus_mod, H, H', <- Zminus_mod. reflexivity.
Qed.

Global Instance eqm_opp q : Proper (eqm q ==> eqm q) Z.opp.
Proof.
  intros a b H. replace (- a) with (0 - a) by lia. replace (- b) with (0 - b) by lia.
  apply eqm_sub; [reflexivity | exact H].
Qed.

Lemma eqm_pow q a b n : eqm q a b -> eqm q (a ^ n) (b ^ n).
Proof.
  intros H. destruct (Z_lt_le_dec n 0) as [Hn|Hn].
  - rewrite !Z.pow_neg_r by lia. reflexivity.
  - revert n Hn. apply natlike_ind.
    + rewrite !Z.pow_0_r. reflexivity.
    + intros n Hn IH. rewrite !Z.pow_succ_r by lia. apply eqm_mul; assumption.
Qed.

Lemma eqm_refl q a : eqm q a a.
Proof. reflexivity. Qed.

Lemma eqm_eq q a b : a = b -> eqm q a b.
Proof. intros ->. reflexivity. Qed.

Lemma eqm_divide q a b : q <> 0 -> eqm q a b <-> (q | a - b).
Proof.
  intros Hq. unfold eqm. split.
  - intros H. exists (a / q - b / q).
    rewrite (Z.div_mod a q) at 1 by lia. rewrite (Z.div_mod b q) at 1 by lia.
    rewrite H. ring.
  - intros [k Hk]. replace a with (b + k * q) by lia. apply Z_mod_plus_full.
Qed.

Lemma eqm_intro q a b k : a = b + k * q -> eqm q a b.
Proof. intros ->. unfold eqm. apply Z_mod_plus_full. Qed.

Lemma eqm_elim q a b : q <> 0 -> eqm q a b -> exists k, a = b + k * q.
Proof.
  intros Hq H. apply eqm_divide in H; [|assumption]. destruct H as [k Hk].
  exists k. lia.
Qed.

Lemma eqm_mod q a : eqm q (a mod q) a.
Proof. unfold eqm. apply Zmod_mod. Qed.

Lemma eqm_small q a b : 0 <= a < q -> 0 <= b < q -> eqm q a b -> a = b.
Proof. unfold eqm. intros Ha Hb H. rewrite !Z.mod_small in H; assumption. Qed.

Lemma eqm_mod_eq q a b : 0 <= a < q -> eqm q a b -> a = b mod q.
Proof. unfold eqm. intros Ha H. rewrite Z.mod_small in H; assumption. Qed.

Lemma eqm_q0 q : eqm q q 0.
Proof. apply (eqm_intro _ _ _ 1). lia. Qed.

Lemma eqm_trans q a b c : eqm q a b -> eqm q b c -> eqm q a c.
Proof. unfold eqm. congruence. Qed.

Lemma eqm_sym q a b : eqm q a b -> eqm q b a.
Proof. unfold eqm. congruence. Qed.

Lemma eqm_mult_compat q k a b : q <> 0 -> k <> 0 -> eqm (k * q) (k * a) (k * b) <-> eqm q a b.
Proof.
  intros Hq Hk. rewrite !eqm_divide by nia. split; intros [c Hc]; exists c; nia.
Qed.

Lemma eqm_dvd q q' a b : q <> 0 -> (q' | q) -> eqm q a b -> eqm q' a b.
Proof.
  intros Hq [c Hc] H. destruct (Z.eq_dec q' 0) as [->|Hq'].
  - lia.
  - apply eqm_divide in H; [|assumption]. apply eqm_divide; [assumption|].
    eapply Z.divide_trans; [|eassumption]. exists c; lia.
Qed.

Lemma eqm_cancel q a b c : q <> 0 -> Z.gcd c q = 1 -> eqm q (c * a) (c * b) -> eqm q a b.
Proof.
  intros Hq Hg H. apply eqm_divide in H; [|assumption]. apply eqm_divide; [assumption|].
  replace (c * a - c * b) with (c * (a - b)) in H by ring.
  apply Z.gauss in H; [assumption|]. rewrite Z.gcd_comm. assumption.
Qed.

(** Powers of two and odd numbers. *)
Lemma odd_gcd_pow2 q n : Z.odd q = true -> 0 <= n -> Z.gcd (2 ^ n) q = 1.
Proof.
  intros Ho. revert n. apply natlike_ind.
  - rewrite Z.pow_0_r. apply Z.gcd_1_l.
  - intros n Hn IH. rewrite Z.pow_succ_r by lia.
    apply Zgcd_1_rel_prime. apply rel_prime_sym.
    apply rel_prime_mult; apply rel_prime_sym; apply Zgcd_1_rel_prime; [|assumption].
    assert (Hdiv : (Z.gcd 2 q | 2)) by apply Z.gcd_divide_l.
    assert (Hdivq : (Z.gcd 2 q | q)) by apply Z.gcd_divide_r.
    assert (0 <= Z.gcd 2 q) by apply Z.gcd_nonneg.
    assert (Z.gcd 2 q <= 2) by (apply Z.divide_pos_le; [lia|assumption]).
    assert (Z.gcd 2 q <> 0) by (intros E; rewrite E in Hdiv; destruct Hdiv; lia).
    assert (Z.gcd 2 q <> 2).
    { intros E; rewrite E in Hdivq. destruct Hdivq as [k ->].
      rewrite Z.odd_mul in Ho. simpl in Ho. rewrite andb_false_r in Ho. discriminate. }
    lia.
Qed.

Lemma W_pow : W = 2 ^ 64.
Proof. reflexivity. Qed.

Lemma W_pos : 0 < W.
Proof. reflexivity. Qed.

Lemma odd_gcd_W q : Z.odd q = true -> Z.gcd W q = 1.
Proof. intros H. rewrite W_pow. apply odd_gcd_pow2; [assumption|lia]. Qed.

Lemma odd_cancel_W q a b : q <> 0 -> Z.odd q = true -> eqm q (a * W) (b * W) -> eqm q a b.
Proof.
  intros Hq Ho H. apply (eqm_cancel _ _ _ W); [assumption|apply odd_gcd_W; assumption|].
  rewrite (Z.mul_comm W a), (Z.mul_comm W b). exact H.
Qed.

(** Word lemmas. *)
Lemma w64_small x : 0 <= x < W -> w64 x = x.
Proof. intros H. apply Z.mod_small; assumption. Qed.

Lemma w64_range x : 0 <= w64 x < W.
Proof. apply Z.mod_pos_bound. reflexivity. Qed.

Lemma w64_eqm x : eqm W (w64 x) x.
Proof. apply eqm_mod. Qed.

Lemma eqm_w64_eq x y : 0 <= x < W -> eqm W x y -> w64 y = x.
Proof. intros Hx H. unfold w64. symmetry. apply eqm_mod_eq; assumption. Qed.

Lemma mul_hi_lo x y : x * y = mul_hi x y * W + mul_lo x y.
Proof. unfold mul_hi, mul_lo. rewrite Z.mul_comm with (m := W). apply Z.div_mod. discriminate. Qed.

Lemma mul_lo_range x y : 0 <= mul_lo x y < W.
Proof. apply Z.mod_pos_bound. reflexivity. Qed.

Lemma mul_hi_nonneg x y : 0 <= x -> 0 <= y -> 0 <= mul_hi x y.
Proof. intros. apply Z.div_pos; [nia|reflexivity]. Qed.

Lemma mul_hi_lt x y b : x * y < b * W -> mul_hi x y < b.
Proof. intros. apply Z.div_lt_upper_bound; [reflexivity|]. lia. Qed.

Lemma csub_small a q : 0 <= q -> q <= W -> 0 <= a < 2 * q -> a < W -> csub a q = a mod q.
Proof.
  intros Hq HqW Ha HaW. unfold csub, wsub. destruct (Z.leb_spec q a).
  - rewrite w64_small by lia. rewrite <- (Z.mod_small (a - q) q) by lia.
    symmetry. apply (eqm_intro q a (a - q) 1). lia.
  - rewrite Z.mod_small; lia.
Qed.

Lemma csub_range a q : 0 < q -> q <= W -> 0 <= a < 2 * q -> a < W -> 0 <= csub a q < q.
Proof. intros. rewrite csub_small by lia. apply Z.mod_pos_bound. lia. Qed.

Lemma csub_eqm a q : 0 < q -> 0 <= a < W -> eqm q (csub a q) a.
Proof.
  intros Hq Ha. unfold csub, wsub. destruct (Z.leb_spec q a); [|reflexivity].
  rewrite w64_small by lia. apply (eqm_intro _ _ _ (-1)). lia.
Qed.
