(** A primality test for q = c 2^e + 1: Pocklington's criterion with the factor 2^e, and trial division by the remaining candidates. *)
From Coq Require Import ZArith Znumtheory List Lia Bool.
From Verif Require Import Word Arith Fermat PrimRoot Pocklington.
Local Open Scope Z_scope.

Fixpoint pmodexp (a : Z) (e : positive) (q : Z) : Z :=
  match e with
  | xH => a mod q
  | xO e => let x := pmodexp a e q in (x * x) mod q
  | xI e => let x := pmodexp a e q in ((x * x) mod q * a) mod q
  end.
Lemma pmodexp_spec a e q : q <> 0 -> pmodexp a e q = a ^ Zpos e mod q.
Proof.
  intros Hq. induction e as [e IH|e IH|]; cbn [pmodexp].
  - cbv zeta. rewrite IH. rewrite <- Z.mul_mod by exact Hq. rewrite Zmult_mod_idemp_l. f_equal. rewrite (Pos2Z.inj_xI e).
    replace (2 * Zpos e + 1) with (Zpos e + Zpos e + 1) by lia. rewrite !Z.pow_add_r by lia. rewrite Z.pow_1_r. reflexivity.
  - cbv zeta. rewrite IH. rewrite <- Z.mul_mod by exact Hq. f_equal. rewrite (Pos2Z.inj_xO e). replace (2 * Zpos e) with (Zpos e + Zpos e) by lia. rewrite Z.pow_add_r by lia. reflexivity.
  - rewrite Z.pow_1_r. reflexivity.
Qed.

(** q is not divisible by r, r + F, ..., r + (n-1) F. *)
Fixpoint no_divisor (n : nat) (r F q : Z) : bool :=
  match n with O => true | S n => negb (q mod r =? 0) && no_divisor n (r + F) F q end.
Lemma no_divisor_spec F q : forall n r, no_divisor n r F q = true -> forall k, 0 <= k < Z.of_nat n -> q mod (r + k * F) <> 0.
Proof.
  induction n as [|n IH]; intros r H k Hk; [lia|]. cbn [no_divisor] in H. apply andb_true_iff in H. destruct H as [H1 H2].
  destruct (Z.eq_dec k 0) as [->|Hk0]; [rewrite Z.mul_0_l, Z.add_0_r; apply negb_true_iff, Z.eqb_neq in H1; exact H1|].
  replace (r + k * F) with (r + F + (k - 1) * F) by ring. apply (IH _ H2). lia.
Qed.
Definition proth_ok (c : Z * nat * Z) : bool :=
  let '(q, e, a) := c in
  match e, (q - 1) / 2 with
  | S _, Zpos h =>
      let F := 2 ^ Z.of_nat e in let K := Z.sqrt q / F in
      (3 <=? q) && ((q - 1) mod F =? 0) && (pmodexp a h q =? q - 1) && no_divisor (Z.to_nat K) (1 + F) F q && (0 <=? K) && (q <? (1 + (K + 1) * F) * (1 + (K + 1) * F))
  | _, _ => false
  end.

Lemma proth_prime q e a : proth_ok (q, e, a) = true -> prime q.
Proof.
  unfold proth_ok. destruct e as [|e]; [discriminate|]. destruct ((q - 1) / 2) as [|h|h] eqn:Eh; [discriminate| |discriminate].
  set (F := 2 ^ Z.of_nat (S e)). set (K := Z.sqrt q / F). rewrite !andb_true_iff, !Z.leb_le, Z.ltb_lt, !Z.eqb_eq. intros (((((H3 & HF) & HA) & HN) & HK) & HQ).
  assert (F0 : 2 <= F) by (unfold F; rewrite Nat2Z.inj_succ, Z.pow_succ_r by lia; assert (0 < 2 ^ Z.of_nat e) by (apply Z.pow_pos_nonneg; lia); lia).
  apply Z.mod_divide in HF; [|lia].
  assert (Hev : q - 1 = 2 * Zpos h). { rewrite <- Eh. destruct HF as [c Hc]. unfold F in Hc. rewrite Nat2Z.inj_succ, Z.pow_succ_r in Hc by lia. rewrite Hc. replace (c * (2 * 2 ^ Z.of_nat e)) with (c * 2 ^ Z.of_nat e * 2) by ring. rewrite Z.div_mul by lia. ring. }
  rewrite pmodexp_spec in HA by lia. clearbody K.
  apply prime_by_divisors; [lia|]. intros r Hr Hrq. pose proof (prime_ge_2 r Hr) as Hr2.
  assert (D : (F | r - 1)).
  { apply (cert_part q 2 e a r); [lia|exact prime_2|exact Hr|exact Hrq|exact HF| |].
    - rewrite Hev. unfold eqm. replace (2 * Zpos h) with (Zpos h + Zpos h) by lia. rewrite Z.pow_add_r by lia. rewrite Z.mul_mod, HA by lia.
      replace ((q - 1) * (q - 1)) with (1 + (q - 2) * q) by ring. apply Z.mod_add. lia.
    - rewrite Eh. set (u := a ^ Zpos h) in *. clearbody u. apply Zgcd_1_rel_prime. apply bezout_rel_prime.
      pose proof (Z.div_mod u q ltac:(lia)) as E. rewrite HA in E. generalize dependent (u / q). intros t E.
      apply (Bezout_intro _ _ _ (Zpos h) (1 - Zpos h - Zpos h * t)). clear - E Hev. subst u. generalize dependent (Zpos h). intros. assert (q = 2 * z + 1) by lia. subst q. ring. }
  destruct D as [k Hk]. assert (r = 1 + k * F) by lia. assert (Hk1 : 1 <= k) by nia.
  destruct (Z_le_gt_dec k K) as [L|G].
  - exfalso. apply (no_divisor_spec F q _ _ HN (k - 1)); [lia|]. replace (1 + F + (k - 1) * F) with r by lia. apply Z.mod_divide; [lia|exact Hrq].
  - assert (1 + (K + 1) * F <= r) by nia. assert (0 <= 1 + (K + 1) * F) by nia. nia.
Qed.
