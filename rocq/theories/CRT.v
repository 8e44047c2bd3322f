(** The Chinese remainder theorem for lists of distinct primes. *)
From Verif Require Import Word Arith Fermat PolySpec PolyProofs Ring RingProofs RingOps RNSSpec OpsProofs.

Lemma prodZ_pos l : (forall q, In q l -> 0 < q) -> 0 < prodZ l.
Proof.
  induction l as [|q l IH]; intros H; rewrite ?prodZ_nil, ?prodZ_cons; [lia|].
  apply Z.mul_pos_pos; [apply H; left; reflexivity|apply IH; intros; apply H; right; assumption].
Qed.

Lemma prodZ_divide q l : In q l -> (q | prodZ l).
Proof.
  induction l as [|a l IH]; intros H; [destruct H|]. rewrite prodZ_cons. destruct H as [->|H].
  - apply Z.divide_mul_l. reflexivity.
  - apply Z.divide_mul_r. apply IH. exact H.
Qed.

Lemma prime_prodZ p l : prime p -> (forall q, In q l -> prime q) -> ~ In p l -> rel_prime p (prodZ l).
Proof.
  intros Hp. induction l as [|q l IH]; intros Hl Hn; rewrite ?prodZ_nil, ?prodZ_cons.
  - apply rel_prime_sym. apply rel_prime_1.
  - apply rel_prime_mult.
    + apply prime_rel_prime; [exact Hp|]. intros Hd. apply Hn. left. symmetry.
      apply prime_div_prime; [exact Hp|apply Hl; left; reflexivity|exact Hd].
    + apply IH; [intros; apply Hl; right; assumption|intros H; apply Hn; right; exact H].
Qed.

Lemma crt_divide l : (forall q, In q l -> prime q) -> NoDup l -> forall a, (forall q, In q l -> (q | a)) -> (prodZ l | a).
Proof.
  induction l as [|q l IH]; intros Hp Hnd a Ha; rewrite ?prodZ_nil, ?prodZ_cons.
  - apply Z.divide_1_l.
  - inversion Hnd as [|? ? Hni Hnd']; subst.
    destruct (Ha q (or_introl eq_refl)) as [c Hc].
    assert (Hc' : (prodZ l | c)).
    { assert (H : (prodZ l | q * c)).
      { replace (q * c) with a by lia. apply IH; [intros; apply Hp; right; assumption|exact Hnd'|intros; apply Ha; right; assumption]. }
      apply (Gauss (prodZ l) q c H). apply rel_prime_sym. apply prime_prodZ;
        [apply Hp; left; reflexivity|intros; apply Hp; right; assumption|exact Hni]. }
    destruct Hc' as [d Hd]. exists d. rewrite Hc, Hd. ring.
Qed.

Lemma crt_eqm l a b : (forall q, In q l -> prime q) -> NoDup l -> (forall q, In q l -> eqm q a b) -> eqm (prodZ l) a b.
Proof.
  intros Hp Hnd H.
  assert (P0 : 0 < prodZ l) by (apply prodZ_pos; intros q Hq; pose proof (prime_ge_2 q (Hp q Hq)); lia).
  apply eqm_divide; [lia|]. apply crt_divide; [exact Hp|exact Hnd|].
  intros q Hq. apply eqm_divide; [pose proof (prime_ge_2 q (Hp q Hq)); lia|]. apply H. exact Hq.
Qed.

Lemma eqm_prodZ l a b q : (forall q, In q l -> 0 < q) -> eqm (prodZ l) a b -> In q l -> eqm q a b.
Proof.
  intros Hl H Hq. apply (eqm_dvd (prodZ l)); [pose proof (prodZ_pos l Hl); lia|apply prodZ_divide; exact Hq|exact H].
Qed.

Section RingProd.
  Variables (L : nat) (r : Ring).
  Hypothesis Hw : wf_ring L L r.

  Lemma lprod_prodZ level : lprod r level = prodZ (firstn (S level) (moduli r)).
  Proof. clear. Transparent prodZ. reflexivity. Opaque prodZ. Qed.

  Lemma moduli_prime q : In q (moduli r) -> prime q.
  Proof. unfold moduli. rewrite in_map_iff. intros (m & <- & Hm). apply (wf_prime _ _ (wfr_mods _ _ _ Hw m Hm)). Qed.

  Lemma firstn_in {A} n (l : list A) x : In x (firstn n l) -> In x l.
  Proof. clear. intros H. rewrite <- (firstn_skipn n l). apply in_or_app. left. exact H. Qed.
  Lemma firstn_nodup {A} n (l : list A) : NoDup l -> NoDup (firstn n l).
  Proof.
    clear. revert l. induction n as [|n IH]; intros l H; [constructor|]. destruct l as [|x l]; [constructor|].
    inversion H as [|? ? Hx Hl]; subst. cbn. constructor; [intros Hi; apply Hx; apply (firstn_in n l); exact Hi|apply IH; exact Hl].
  Qed.

  Lemma lprod_pos level : 0 < lprod r level.
  Proof.
    rewrite lprod_prodZ. apply prodZ_pos. intros q Hq. apply firstn_in in Hq.
    pose proof (prime_ge_2 q (moduli_prime q Hq)). lia.
  Qed.

  Lemma in_firstn_moduli level i : (level < length (rmods r))%nat -> (i <= level)%nat -> In (mq (rmod r i)) (firstn (S level) (moduli r)).
  Proof.
    clear. intros Hl Hi. unfold moduli. rewrite firstn_map. apply in_map. unfold rmod.
    rewrite <- (NTTProofs.nth_firstn (S level) i (rmods r) modp0) by lia. apply nth_In. rewrite firstn_length. lia.
  Qed.
  Lemma firstn_moduli_in level q : (level < length (rmods r))%nat -> In q (firstn (S level) (moduli r)) ->
    exists i, (i <= level)%nat /\ q = mq (rmod r i).
  Proof.
    clear. intros Hl H. unfold moduli in H. rewrite firstn_map in H. apply in_map_iff in H. destruct H as (m & <- & Hm).
    apply (In_nth _ _ modp0) in Hm. destruct Hm as (i & Hi & E). rewrite firstn_length in Hi. exists i. split; [lia|].
    unfold rmod. rewrite <- E. rewrite NTTProofs.nth_firstn by lia. reflexivity.
  Qed.

  Lemma lprod_eqm level a b : (level < length (rmods r))%nat ->
    (eqm (lprod r level) a b <-> forall i, (i <= level)%nat -> eqm (mq (rmod r i)) a b).
  Proof.
    intros Hl. rewrite lprod_prodZ. split.
    - intros H i Hi. apply (eqm_prodZ _ _ _ _) with (2 := H).
      + intros q Hq. apply firstn_in in Hq. pose proof (prime_ge_2 q (moduli_prime q Hq)). lia.
      + apply in_firstn_moduli; assumption.
    - intros H. apply crt_eqm.
      + intros q Hq. apply firstn_in in Hq. apply moduli_prime. exact Hq.
      + apply firstn_nodup. apply (wfr_distinct _ _ _ Hw).
      + intros q Hq. destruct (firstn_moduli_in level q Hl Hq) as (i & Hi & ->). apply H. exact Hi.
  Qed.
End RingProd.
