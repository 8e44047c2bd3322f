(** Fermat's little theorem over Z, and modular inverses by exponentiation. *)
From Verif Require Import Word Arith.
From Coq Require Import Permutation.

Definition prodZ (l : list Z) : Z := fold_right Z.mul 1 l.

Lemma prodZ_nil : prodZ [] = 1.
Proof. reflexivity. Qed.
Lemma prodZ_cons x l : prodZ (x :: l) = x * prodZ l.
Proof. reflexivity. Qed.
Global Opaque prodZ.

Lemma prodZ_perm l l' : Permutation l l' -> prodZ l = prodZ l'.
Proof. induction 1; rewrite ?prodZ_cons; try congruence; ring. Qed.

Lemma prodZ_app l l' : prodZ (l ++ l') = prodZ l * prodZ l'.
Proof.
  induction l as [|x l IH]; cbn [app]; rewrite ?prodZ_nil, ?prodZ_cons; [ring|].
  rewrite IH. ring.
Qed.

Lemma prodZ_map_eqm q (f g : Z -> Z) l :
  (forall x, In x l -> eqm q (f x) (g x)) -> eqm q (prodZ (map f l)) (prodZ (map g l)).
Proof.
  induction l as [|x l IH]; simpl; intros H; [reflexivity|]. rewrite !prodZ_cons.
  rewrite (H x) by auto. rewrite IH by auto. reflexivity.
Qed.

Lemma prodZ_map_scale a l : prodZ (map (fun x => a * x) l) = a ^ Z.of_nat (length l) * prodZ l.
Proof.
  induction l as [|x l IH]; [rewrite Z.pow_0_r; reflexivity|].
  cbn [map length]. rewrite !prodZ_cons, IH. rewrite Nat2Z.inj_succ, Z.pow_succ_r by lia. ring.
Qed.

Lemma prodZ_rel_prime p l : (forall x, In x l -> rel_prime x p) -> rel_prime (prodZ l) p.
Proof.
  induction l as [|x l IH]; simpl; intros H.
  - rewrite prodZ_nil. apply rel_prime_1.
  - rewrite prodZ_cons. apply rel_prime_sym. apply rel_prime_mult; apply rel_prime_sym.
    + apply H; auto.
    + apply IH; auto.
Qed.

Definition residues (p : Z) : list Z := map Z.of_nat (seq 1 (Z.to_nat (p - 1))).

Lemma residues_in p x : In x (residues p) <-> 1 <= x < p.
Proof.
  unfold residues. rewrite in_map_iff. split.
  - intros (n & <- & Hn). apply in_seq in Hn. lia.
  - intros H. exists (Z.to_nat x). split; [lia|]. apply in_seq. lia.
Qed.

Lemma NoDup_map_inj {A B} (f : A -> B) l :
  (forall x y, In x l -> In y l -> f x = f y -> x = y) -> NoDup l -> NoDup (map f l).
Proof.
  induction l as [|a l IH]; simpl; intros Hinj Hnd; [constructor|].
  inversion Hnd; subst. constructor.
  - rewrite in_map_iff. intros (y & E & Hy). apply Hinj in E; auto. subst. contradiction.
  - apply IH; auto.
Qed.

Lemma residues_NoDup p : NoDup (residues p).
Proof.
  apply NoDup_map_inj; [intros; lia|]. apply seq_NoDup.
Qed.

Lemma residues_length p : 1 <= p -> Z.of_nat (length (residues p)) = p - 1.
Proof. intros. unfold residues. rewrite map_length, seq_length. lia. Qed.

Lemma prime_rel_prime_small p x : prime p -> 1 <= x < p -> rel_prime x p.
Proof. intros Hp Hx. apply rel_prime_le_prime; assumption. Qed.

Theorem fermat p a : prime p -> ~ (p | a) -> eqm p (a ^ (p - 1)) 1.
Proof.
  intros Hp Ha. assert (Hp2 : 2 <= p) by (apply prime_ge_2; assumption).
  assert (Hrel : rel_prime p a) by (apply prime_rel_prime; assumption).
  set (f := fun x => (a * x) mod p).
  assert (Hperm : Permutation (map f (residues p)) (residues p)).
  { apply NoDup_Permutation_bis.
    - apply NoDup_map_inj; [|apply residues_NoDup].
      intros x y Hx Hy E. apply residues_in in Hx, Hy.
      apply (eqm_small p); [lia|lia|].
      apply (eqm_cancel p _ _ a); [lia| |exact E].
      rewrite Z.gcd_comm. apply Zgcd_1_rel_prime. assumption.
    - rewrite map_length. lia.
    - intros y Hy. apply in_map_iff in Hy. destruct Hy as (x & <- & Hx).
      apply residues_in in Hx. apply residues_in. unfold f.
      assert (0 <= (a * x) mod p < p) by (apply Z.mod_pos_bound; lia).
      assert ((a * x) mod p <> 0); [|lia].
      intros E. apply Z.mod_divide in E; [|lia].
      apply prime_mult in E; [|assumption]. destruct E as [E|E]; [contradiction|].
      apply Z.divide_pos_le in E; lia. }
  apply prodZ_perm in Hperm.
  assert (E : eqm p (a ^ (p - 1) * prodZ (residues p)) (prodZ (residues p))).
  { rewrite <- (residues_length p) at 1 by lia. rewrite <- prodZ_map_scale.
    rewrite <- Hperm. apply prodZ_map_eqm. intros x _. unfold f. symmetry. apply eqm_mod. }
  apply (eqm_cancel p _ _ (prodZ (residues p))); [lia| |].
  - apply Zgcd_1_rel_prime. apply prodZ_rel_prime. intros x Hx.
    apply residues_in in Hx. apply prime_rel_prime_small; assumption.
  - rewrite Z.mul_comm, E, Z.mul_1_r. reflexivity.
Qed.

Lemma fermat_inv p a : prime p -> ~ (p | a) -> eqm p (a * a ^ (p - 2)) 1.
Proof.
  intros Hp Ha. assert (2 <= p) by (apply prime_ge_2; assumption).
  rewrite <- Z.pow_succ_r by lia. replace (Z.succ (p - 2)) with (p - 1) by lia.
  apply fermat; assumption.
Qed.

Lemma prime_odd p : prime p -> 2 < p -> Z.odd p = true.
Proof.
  intros Hp H. destruct (Z.odd p) eqn:E; [reflexivity|].
  exfalso. assert (Hd : (2 | p)).
  { apply Z.mod_divide; [lia|]. rewrite Zmod_odd, E. reflexivity. }
  apply prime_divisors in Hd; [|assumption]. lia.
Qed.

(** Square roots of 1 modulo a prime. *)
Lemma prime_sqrt_one p x : prime p -> eqm p (x * x) 1 -> eqm p x 1 \/ eqm p x (-1).
Proof.
  intros Hp H. assert (2 <= p) by (apply prime_ge_2; assumption).
  apply eqm_divide in H; [|lia].
  replace (x * x - 1) with ((x - 1) * (x - -1)) in H by ring.
  apply prime_mult in H; [|assumption].
  destruct H as [H|H]; [left|right]; apply eqm_divide; try assumption; lia.
Qed.
