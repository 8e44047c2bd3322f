(** Existence of primitive roots modulo a prime. *)
From Verif Require Import Word Arith Fermat.

(** ** Roots of polynomials modulo a prime *)
Fixpoint pe (c : list Z) (x : Z) : Z :=
  match c with [] => 0 | a :: c' => a + x * pe c' x end.

Lemma synth_div c a : c <> [] ->
  exists c', length c = S (length c') /\ (c' <> [] -> last c' 0 = last c 0) /\
    forall x, pe c x = (x - a) * pe c' x + pe c a.
Proof.
  induction c as [|a0 c IH]; intros Hc; [contradiction|].
  destruct c as [|a1 c].
  - exists []. cbn. repeat split; [contradiction|intros; ring].
  - destruct IH as (c' & Hl & Hlast & E); [discriminate|].
    exists (pe (a1 :: c) a :: c'). split; [cbn [length] in *; lia|]. split.
    + intros _. destruct c' as [|b c'].
      * destruct c; [cbn; ring|cbn in Hl; lia].
      * transitivity (last (b :: c') 0); [reflexivity|]. rewrite Hlast by discriminate. reflexivity.
    + intros x. change (pe (a0 :: a1 :: c) x) with (a0 + x * pe (a1 :: c) x).
      change (pe (a0 :: a1 :: c) a) with (a0 + a * pe (a1 :: c) a).
      change (pe (pe (a1 :: c) a :: c') x) with (pe (a1 :: c) a + x * pe c' x).
      rewrite (E x). ring.
Qed.

Lemma lagrange_roots p : prime p -> forall n c l,
  length c = S n -> ~ (p | last c 0) -> NoDup l ->
  (forall x, In x l -> 0 <= x < p /\ (p | pe c x)) -> (length l <= n)%nat.
Proof.
  intros Hp n. induction n as [|n IH]; intros c l Hl Hlast Hnd Hr.
  - destruct c as [|a c]; [discriminate|]. destruct c; [|discriminate].
    destruct l as [|x l]; [cbn; lia|]. exfalso. apply Hlast.
    destruct (Hr x (or_introl eq_refl)) as [_ H]. cbn in *. rewrite Z.mul_0_r, Z.add_0_r in H. exact H.
  - destruct l as [|a l]; [cbn; lia|]. cbn [length]. apply le_n_S.
    destruct (synth_div c a) as (c' & Hl' & Hlast' & E); [intros ->; discriminate|].
    assert (Hc' : c' <> []) by (intros ->; cbn in Hl'; lia).
    inversion Hnd as [|? ? Hni Hnd']; subst.
    apply (IH c'); [lia|rewrite Hlast' by assumption; exact Hlast|exact Hnd'|].
    intros x Hx. destruct (Hr x (or_intror Hx)) as [Rx Dx].
    destruct (Hr a (or_introl eq_refl)) as [Ra Da].
    split; [exact Rx|].
    assert (D : (p | (x - a) * pe c' x)).
    { replace ((x - a) * pe c' x) with (pe c x - pe c a) by (rewrite (E x); ring).
      apply Z.divide_sub_r; assumption. }
    destruct (prime_mult p Hp _ _ D) as [D1|D1]; [|exact D1].
    exfalso. assert (x <> a) by (intros ->; contradiction).
    destruct D1 as [k Hk]. assert (k = 0) by nia. lia.
Qed.

Lemma pe_const_pow k x : pe (repeat 0 k ++ [1]) x = x ^ Z.of_nat k.
Proof.
  induction k as [|k IH]; [change (1 + x * 0 = 1); ring|].
  cbn [repeat app pe]. rewrite IH, Nat2Z.inj_succ, Z.pow_succ_r by lia. ring.
Qed.

(** If 0 < n < p-1 some residue has x^n <> 1. *)
Lemma exists_non_root p n : prime p -> (0 < n)%nat -> Z.of_nat n < p - 1 ->
  exists x, 0 < x < p /\ ~ eqm p (x ^ Z.of_nat n) 1.
Proof.
  intros Hp Hn Hlt.
  assert (Hp2 := prime_ge_2 p Hp).
  set (l := map Z.of_nat (seq 1 (Z.to_nat (p - 1)))).
  destruct (existsb (fun x => negb (Z.eqb ((x ^ Z.of_nat n) mod p) (1 mod p))) l) eqn:Ex.
  - apply existsb_exists in Ex. destruct Ex as (x & Hx & Hb).
    apply in_map_iff in Hx. destruct Hx as (j & <- & Hj). apply in_seq in Hj.
    exists (Z.of_nat j). split; [lia|]. unfold eqm. intros E.
    apply negb_true_iff in Hb. apply Z.eqb_neq in Hb. contradiction.
  - exfalso.
    assert (Hall : forall x, In x l -> 0 <= x < p /\ (p | pe ((-1) :: repeat 0 (n - 1) ++ [1]) x)).
    { intros x Hx. split.
      - apply in_map_iff in Hx. destruct Hx as (j & <- & Hj). apply in_seq in Hj. lia.
      - assert (Hb : negb (Z.eqb ((x ^ Z.of_nat n) mod p) (1 mod p)) = false).
        { destruct (negb _) eqn:Hb; [|reflexivity]. rewrite <- Ex. symmetry.
          apply existsb_exists. exists x. split; assumption. }
        apply negb_false_iff, Z.eqb_eq in Hb.
        cbn [pe]. rewrite pe_const_pow.
        replace (-1 + x * x ^ Z.of_nat (n - 1)) with (x ^ Z.of_nat n - 1).
        + apply eqm_divide; [lia|exact Hb].
        + replace (Z.of_nat n) with (Z.succ (Z.of_nat (n - 1))) by lia.
          rewrite Z.pow_succ_r by lia. ring. }
    assert (Hlen : (length l <= n)%nat).
    { apply (lagrange_roots p Hp n ((-1) :: repeat 0 (n - 1) ++ [1])).
      - cbn [length]. rewrite app_length, repeat_length. cbn. lia.
      - change ((-1) :: repeat 0 (n - 1) ++ [1]) with (((-1) :: repeat 0 (n - 1)) ++ [1]).
        rewrite last_last. intros H. apply Z.divide_1_r_nonneg in H; lia.
      - apply NoDup_map_inj; [intros; lia|apply seq_NoDup].
      - exact Hall. }
    unfold l in Hlen. rewrite map_length, seq_length in Hlen. lia.
Qed.

(** ** Orders *)
Definition has_order (p a d : Z) : Prop :=
  eqm p (a ^ d) 1 /\ forall k, 0 <= k -> eqm p (a ^ k) 1 -> (d | k).

Lemma eqm_1_pow p a k j : 0 <= k -> 0 <= j -> eqm p (a ^ k) 1 -> eqm p (a ^ (k * j)) 1.
Proof.
  intros Hk Hj H. rewrite Z.pow_mul_r by assumption.
  rewrite (eqm_pow p _ _ j H). rewrite Z.pow_1_l by assumption. reflexivity.
Qed.

Lemma has_order_mul p a b m n :
  0 < m -> 0 < n -> Z.gcd m n = 1 -> has_order p a m -> has_order p b n -> has_order p (a * b) (m * n).
Proof.
  intros Hm Hn Hg [Ha1 Ha2] [Hb1 Hb2]. split.
  - rewrite Z.pow_mul_l.
    rewrite (eqm_1_pow p a m n) by (lia || assumption).
    rewrite (Z.mul_comm m n), (eqm_1_pow p b n m) by (lia || assumption). reflexivity.
  - intros k Hk H.
    assert (Hmk : (m | k)).
    { apply (Z.gauss m n k); [|exact Hg]. apply Ha2; [lia|].
      assert (E : eqm p ((a * b) ^ (k * n)) 1) by (apply eqm_1_pow; lia || assumption).
      rewrite Z.pow_mul_l in E. rewrite (Z.mul_comm k n) in E.
      rewrite (eqm_1_pow p b n k) in E by (lia || assumption). rewrite Z.mul_1_r in E. exact E. }
    assert (Hnk : (n | k)).
    { apply (Z.gauss n m k); [|rewrite Z.gcd_comm; exact Hg]. apply Hb2; [nia|].
      assert (E : eqm p ((a * b) ^ (k * m)) 1) by (apply eqm_1_pow; lia || assumption).
      rewrite Z.pow_mul_l in E. rewrite (Z.mul_comm k m) in E.
      rewrite (eqm_1_pow p a m k) in E by (lia || assumption). rewrite Z.mul_1_l in E. exact E. }
    destruct Hmk as [u ->].
    assert ((n | u)).
    { apply (Z.gauss n m u); [rewrite Z.mul_comm; exact Hnk|rewrite Z.gcd_comm; exact Hg]. }
    destruct H0 as [v ->]. exists v. ring.
Qed.

Lemma divisor_prime_power r d : prime r -> 0 < d -> forall k, (d | r ^ Z.of_nat (S k)) ->
  (d | r ^ Z.of_nat k) \/ d = r ^ Z.of_nat (S k).
Proof.
  intros Hr Hd k [e He]. pose proof (prime_ge_2 r Hr).
  destruct (Zdivide_dec r e) as [[e' ->]|Hn].
  - left. exists e'. rewrite Nat2Z.inj_succ, Z.pow_succ_r in He by lia.
    apply (Z.mul_reg_l _ _ r); [lia|]. rewrite He. ring.
  - right. assert (Hg : rel_prime e (r ^ Z.of_nat (S k))).
    { apply rel_prime_Zpower_r; [lia|].
      apply rel_prime_sym. apply prime_rel_prime; assumption. }
    assert (0 < r ^ Z.of_nat (S k)) by (apply Z.pow_pos_nonneg; lia).
    assert (0 < e) by nia.
    assert (He1 : (e | 1)).
    { destruct Hg as [_ _ Hg]. apply Hg; [apply Z.divide_refl|exists d; rewrite He; ring]. }
    apply Z.divide_1_r_nonneg in He1; [|lia]. rewrite He, He1. ring.
Qed.

Lemma order_gcd p a k j : 0 <= k -> 0 <= j -> prime p -> ~ (p | a) ->
  eqm p (a ^ k) 1 -> eqm p (a ^ j) 1 -> eqm p (a ^ Z.gcd k j) 1.
Proof.
  intros Hk Hj Hp Ha. assert (Hk' := Hk). revert Hk' j Hj. pattern k. revert k Hk.
  apply Z_lt_induction. intros k IH Hk j Hj Hk1 Hj1.
  destruct (Z.eq_dec k 0) as [->|Hk0].
  - rewrite Z.gcd_0_l, Z.abs_eq by assumption. exact Hj1.
  - rewrite <- (Z.gcd_mod j k Hk0).
    apply IH; [apply Z.mod_pos_bound; lia|apply Z.mod_pos_bound; lia|lia| |exact Hk1].
    pose proof (Z.div_mod j k Hk0) as D.
    assert (0 <= j / k) by (apply Z.div_pos; lia).
    assert (0 <= j mod k) by (apply Z.mod_pos_bound; lia).
    rewrite D in Hj1. rewrite Z.pow_add_r in Hj1 by nia.
    rewrite (eqm_1_pow p a k (j / k)) in Hj1 by (lia || assumption).
    rewrite Z.mul_1_l in Hj1. exact Hj1.
Qed.

Lemma has_order_prime_power p r k : prime p -> prime r -> (r ^ Z.of_nat k | p - 1) ->
  exists a, ~ (p | a) /\ has_order p a (r ^ Z.of_nat k).
Proof.
  intros Hp Hr Hd. pose proof (prime_ge_2 p Hp) as Hp2. pose proof (prime_ge_2 r Hr) as Hr2.
  destruct k as [|k].
  - exists 1. split; [intros H; apply Z.divide_1_r_nonneg in H; lia|].
    split; [rewrite Z.pow_1_l by lia; reflexivity|]. intros. exists k. cbn. ring.
  - assert (Hrk : 0 < r ^ Z.of_nat k) by (apply Z.pow_pos_nonneg; lia).
    assert (E : r ^ Z.of_nat (S k) = r * r ^ Z.of_nat k)
      by (rewrite Nat2Z.inj_succ, Z.pow_succ_r by lia; reflexivity).
    destruct Hd as [e He].
    assert (0 < e) by nia.
    assert (He' : p - 1 = r * (e * r ^ Z.of_nat k)) by (rewrite He, E; ring).
    destruct (exists_non_root p (Z.to_nat (e * r ^ Z.of_nat k)) Hp) as (x & Hx & Hn); [nia|nia|].
    rewrite Z2Nat.id in Hn by nia.
    assert (Hpx : ~ (p | x)) by (intros D; apply Z.divide_pos_le in D; lia).
    assert (Hpe : ~ (p | x ^ e)).
    { assert (R : rel_prime p (x ^ e)).
      { apply rel_prime_Zpower_r; [lia|]. apply prime_rel_prime; assumption. }
      intros D. destruct R as [_ _ R]. specialize (R p (Z.divide_refl p) D).
      apply Z.divide_1_r_nonneg in R; lia. }
    exists (x ^ e). split; [exact Hpe|].
    assert (H1 : eqm p ((x ^ e) ^ r ^ Z.of_nat (S k)) 1).
    { rewrite <- Z.pow_mul_r by lia. rewrite <- He. apply fermat; assumption. }
    split; [exact H1|].
    intros j Hj Hj1.
    assert (Hg : eqm p ((x ^ e) ^ Z.gcd j (r ^ Z.of_nat (S k))) 1).
    { apply order_gcd; assumption || lia. }
    set (g := Z.gcd j (r ^ Z.of_nat (S k))) in *.
    assert (Hgd : (g | r ^ Z.of_nat (S k))) by apply Z.gcd_divide_r.
    assert (Hgp : 0 < g).
    { assert (0 <= g) by apply Z.gcd_nonneg. assert (0 < r ^ Z.of_nat (S k)) by (rewrite E; nia).
      assert (g <> 0); [|lia]. intros G0. rewrite G0 in Hgd. destruct Hgd as [u Hu].
      rewrite Z.mul_0_r in Hu. lia. }
    destruct (divisor_prime_power r g Hr Hgp k Hgd) as [[u Hu]|Hg'].
    + exfalso. apply Hn. rewrite Hu.
      replace (e * (u * g)) with (e * g * u) by ring.
      assert (0 <= u) by nia.
      apply eqm_1_pow; [nia|assumption|]. rewrite Z.pow_mul_r by lia. exact Hg.
    + rewrite <- Hg'. apply Z.gcd_divide_l.
Qed.

Lemma prime_divisor d : 1 < d -> exists r, prime r /\ (r | d).
Proof.
  intros Hd. assert (H0 : 0 <= d) by lia. revert Hd. pattern d. revert d H0.
  apply Z_lt_induction. intros d IH Hd.
  destruct (prime_dec d) as [Hp|Hn]; [exists d; split; [assumption|apply Z.divide_refl]|].
  destruct (not_prime_divide d Hd Hn) as (r & Hr & Hrd).
  destruct (IH r) as (r' & Hr' & Hr'd); [lia|lia|].
  exists r'. split; [assumption|]. eapply Z.divide_trans; eassumption.
Qed.

Lemma split_prime_power r d : prime r -> 0 < d ->
  exists k m, d = r ^ Z.of_nat k * m /\ 0 < m /\ ~ (r | m).
Proof.
  intros Hr Hd. pose proof (prime_ge_2 r Hr).
  assert (H0 : 0 <= d) by lia. revert Hd. pattern d. revert d H0.
  apply Z_lt_induction. intros d IH Hd.
  destruct (Zdivide_dec r d) as [[e He]|Hn].
  - destruct (IH e) as (k & m & E & Hm & Hrm); [nia|nia|].
    exists (S k), m. split; [|split; assumption].
    rewrite Nat2Z.inj_succ, Z.pow_succ_r by lia. rewrite He, E. ring.
  - exists O, d. split; [change (r ^ Z.of_nat 0) with 1; ring|split; assumption].
Qed.

Lemma prime_not_div_mul p a b : prime p -> ~ (p | a) -> ~ (p | b) -> ~ (p | a * b).
Proof. intros Hp Ha Hb D. destruct (prime_mult p Hp _ _ D); contradiction. Qed.

Lemma has_order_exists p d : prime p -> 0 < d -> (d | p - 1) ->
  exists a, ~ (p | a) /\ has_order p a d.
Proof.
  intros Hp Hd. assert (H0 : 0 <= d) by lia. revert Hd. pattern d. revert d H0.
  apply Z_lt_induction. intros d IH Hd Hdiv. pose proof (prime_ge_2 p Hp).
  destruct (Z.eq_dec d 1) as [->|Hd1].
  - exists 1. split; [intros H1; apply Z.divide_1_r_nonneg in H1; lia|].
    split; [reflexivity|]. intros. apply Z.divide_1_l.
  - destruct (prime_divisor d) as (r & Hr & Hrd); [lia|].
    pose proof (prime_ge_2 r Hr).
    destruct (split_prime_power r d Hr Hd) as (k & m & E & Hm & Hrm).
    destruct k as [|k].
    { exfalso. apply Hrm. replace m with d by (rewrite E; change (r ^ Z.of_nat 0) with 1; ring). exact Hrd. }
    assert (Hrk : 1 < r ^ Z.of_nat (S k)) by (apply Z.pow_gt_1; lia).
    destruct (IH m) as (a & Ha & Oa); [nia|nia| |].
    { eapply Z.divide_trans; [|exact Hdiv]. exists (r ^ Z.of_nat (S k)). exact E. }
    destruct (has_order_prime_power p r (S k) Hp Hr) as (b & Hb & Ob).
    { eapply Z.divide_trans; [|exact Hdiv]. exists m. rewrite E. ring. }
    exists (b * a). split; [apply prime_not_div_mul; assumption|].
    rewrite E. apply has_order_mul; try assumption; [lia|].
    apply Zgcd_1_rel_prime. apply rel_prime_sym, rel_prime_Zpower_r; [lia|].
    apply rel_prime_sym, prime_rel_prime; assumption.
Qed.

(** A primitive root in [3, p-1], for p >= 5. *)
Lemma primitive_root_exists p : prime p -> 5 <= p ->
  exists g, 3 <= g < p /\ forall k, 0 <= k -> eqm p (g ^ k) 1 -> (p - 1 | k).
Proof.
  intros Hp Hp5.
  destruct (has_order_exists p (p - 1) Hp) as (a & Ha & O1 & O2); [lia|apply Z.divide_refl|].
  assert (Hr : 0 <= a mod p < p) by (apply Z.mod_pos_bound; lia).
  assert (Ea : eqm p (a mod p) a) by apply eqm_mod.
  assert (O2' : forall k, 0 <= k -> eqm p ((a mod p) ^ k) 1 -> (p - 1 | k)).
  { intros k Hk E. apply O2; [assumption|]. rewrite <- E. symmetry. apply eqm_pow. exact Ea. }
  assert (Ha0 : a mod p <> 0) by (intros E; apply Ha, Z.mod_divide; lia || assumption).
  assert (Ha1 : a mod p <> 1).
  { intros E. specialize (O2' 1 ltac:(lia)). rewrite E in O2'.
    specialize (O2' (eqm_refl _ _)). apply Z.divide_1_r_nonneg in O2'; lia. }
  destruct (Z.eq_dec (a mod p) 2) as [E2|Hn2]; [|exists (a mod p); split; [lia|exact O2']].
  (* 2 is a primitive root: take its inverse *)
  rewrite E2 in O2'.
  assert (Hodd : p mod 2 = 1).
  { pose proof (prime_odd p Hp ltac:(lia)) as Ho. rewrite Zodd_mod in Ho.
    apply Zeq_bool_eq in Ho. exact Ho. }
  exists ((p + 1) / 2). split; [lia|].
  assert (Ei : eqm p (2 * ((p + 1) / 2)) 1) by (apply (eqm_intro _ _ _ 1); lia).
  intros k Hk E. apply O2'; [assumption|].
  assert (E1 : eqm p ((2 * ((p + 1) / 2)) ^ k) 1)
    by (rewrite (eqm_pow p _ _ k Ei), Z.pow_1_l by assumption; reflexivity).
  rewrite Z.pow_mul_l in E1. rewrite E in E1. rewrite Z.mul_1_r in E1. exact E1.
Qed.
