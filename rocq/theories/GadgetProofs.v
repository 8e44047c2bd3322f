(** The algebra of key switching, common to rlwe and frlwe. *)
From Verif Require Import Word ModRed Arith Fermat PolySpec PolyProofs Ring RNSSpec BasisExt BasisProofs CRT BasisProps GadgetSpec.

Section Algebra.
  Variables (n nb : nat) (q P : Z).
  Add Ring polyring : (poly_ring n q) (setoid (peq_equiv n q) (poly_ring_ext n q)).

  Lemma pmul_add_r a b c : peq n q (pmul n a (padd b c)) (padd (pmul n a b) (pmul n a c)).
  Proof. ring. Qed.

  Lemma digits_times_key d b0 b1 s :
    peq n q (padd (psum nb (fun i => pmul n (d i) (b0 i))) (pmul n (psum nb (fun i => pmul n (d i) (b1 i))) s))
            (psum nb (fun i => pmul n (d i) (padd (b0 i) (pmul n (b1 i) s)))).
  Proof.
    rewrite pmul_psum_l. rewrite <- psum_add. apply psum_peq. intros i Hi. ring.
  Qed.

  Lemma quotients D0 D1 r0 r1 S0 S1 s : (forall k, (k < n)%nat -> r0 k = S0 k - P * D0 k) -> (forall k, (k < n)%nat -> r1 k = S1 k - P * D1 k) ->
    peq n q (pscale P (padd D0 (pmul n D1 s))) (psub (padd S0 (pmul n S1 s)) (padd r0 (pmul n r1 s))).
  Proof.
    intros H0 H1.
    assert (E0 : peq n q r0 (psub S0 (pscale P D0))) by (apply peq_exact; intros k Hk; apply H0; exact Hk).
    assert (E1 : peq n q r1 (psub S1 (pscale P D1))) by (apply peq_exact; intros k Hk; apply H1; exact Hk).
    rewrite E0, E1. rewrite pscale_add. rewrite <- (pscale_pmul_l n q P D1 s). ring.
  Qed.
End Algebra.

Lemma gadget_switch n alpha nb levelQ Qs Ps A s s' d b0 b1 e D0 D1 (r0 r1 : poly) :
  (forall p, In p Ps -> prime p) -> NoDup Ps -> (forall q, In q Qs -> prime q) -> (forall q, In q Qs -> ~ In q Ps) ->
  (0 < alpha)%nat -> (levelQ < length Qs)%nat -> (levelQ / alpha < nb)%nat ->
  (forall j, (j <= levelQ)%nat -> peq n (nth j Qs 0) (d (j / alpha)%nat) A) ->
  gadget_key n alpha nb Qs Ps b0 b1 e s s' ->
  let S0 := psum nb (fun i => pmul n (d i) (b0 i)) in let S1 := psum nb (fun i => pmul n (d i) (b1 i)) in
  (forall k, (k < n)%nat -> lift_of (product Ps) (S0 k) (S0 k - product Ps * D0 k)) ->
  (forall k, (k < n)%nat -> lift_of (product Ps) (S1 k) (S1 k - product Ps * D1 k)) ->
  exists rho0 rho1 E, switched n nb levelQ Qs Ps D0 D1 A s s' d e rho0 rho1 E.
Proof.
  intros HP HND HQ Hdis Ha HlQ Hnb Hd Hkey S0 S1 L0 L1.
  set (P := product Ps) in *.
  assert (P0 : 0 < P) by (apply (prodZ_pos Ps); intros p Hp; specialize (HP p Hp); apply prime_ge_2 in HP; lia).
  set (rho0 := fun k => S0 k - P * D0 k). set (rho1 := fun k => S1 k - P * D1 k).
  set (X := fun k => psum nb (fun i => pmul n (d i) (e i)) k - rho0 k - pmul n rho1 s k).
  assert (HX : forall k, (k < n)%nat -> (P | X k)).
  { intros k Hk. apply (crt_divide Ps HP HND). intros p Hp.
    assert (Hp0 : p <> 0) by (specialize (HP p Hp); apply prime_ge_2 in HP; lia).
    assert (EP : peq n p (pscale P (padd D0 (pmul n D1 s))) pzero).
    { intros k' Hk'. unfold pscale, pzero. destruct (prodZ_divide p Ps Hp) as [c Hc]. change (prodZ Ps) with P in Hc. rewrite Hc.
      apply (eqm_intro _ _ _ (c * padd D0 (pmul n D1 s) k')). ring. }
    assert (E1 := quotients n p P D0 D1 rho0 rho1 S0 S1 s ltac:(reflexivity) ltac:(reflexivity)).
    assert (E2 : peq n p (padd S0 (pmul n S1 s)) (psum nb (fun i => pmul n (d i) (e i)))).
    { unfold S0, S1. rewrite digits_times_key. apply psum_peq. intros i Hi. apply pmul_peq; [reflexivity|].
      apply (proj1 (Hkey i Hi)). exact Hp. }
    assert (E3 : peq n p (psub (psum nb (fun i => pmul n (d i) (e i))) (padd rho0 (pmul n rho1 s))) pzero).
    { rewrite <- EP, E1, E2. reflexivity. }
    specialize (E3 k Hk). unfold psub, padd, pzero in E3. apply (eqm_divide p _ _ Hp0) in E3.
    rewrite Z.sub_0_r in E3. unfold X. rewrite <- Z.sub_add_distr. exact E3. }
  exists rho0, rho1, (fun k => X k / P). split.
  - intros j Hj. set (q := nth j Qs 0). assert (Hq : In q Qs) by (apply nth_In; lia).
    assert (Q0 : q <> 0) by (specialize (HQ q Hq); apply prime_ge_2 in HQ; lia).
    apply (pscale_cancel n q P); [exact Q0| |].
    { apply Zgcd_1_rel_prime. apply rel_prime_sym. apply (prime_prodZ q Ps); [apply HQ; exact Hq|exact HP|apply Hdis; exact Hq]. }
    rewrite (quotients n q P D0 D1 rho0 rho1 S0 S1 s ltac:(reflexivity) ltac:(reflexivity)).
    assert (E2 : peq n q (padd S0 (pmul n S1 s)) (padd (psum nb (fun i => pmul n (d i) (e i))) (pscale P (pmul n A s')))).
    { unfold S0, S1. rewrite digits_times_key.
      transitivity (psum nb (fun i => padd (pmul n (d i) (e i)) (pmul n (d i) (if Nat.eqb (j / alpha) i then pscale P s' else pzero)))).
      { apply psum_peq. intros i Hi. rewrite <- pmul_add_r. apply pmul_peq; [reflexivity|]. apply (proj2 (Hkey i Hi)). lia. }
      rewrite psum_add. apply padd_peq; [reflexivity|].
      assert (Ej : peq n q (psum nb (fun i => pmul n (d i) (if Nat.eqb (j / alpha) i then pscale P s' else pzero))) (pmul n (d (j / alpha)%nat) (pscale P s'))).
      { apply peq_exact. intros k Hk. unfold psum. rewrite (bigsum_single nb (j / alpha)%nat).
        - rewrite Nat.eqb_refl. reflexivity.
        - assert (j / alpha <= levelQ / alpha)%nat by (apply Nat.div_le_mono; lia). lia.
        - intros i Hi Hne. destruct (Nat.eqb_spec (j / alpha) i); [congruence|]. unfold pmul. apply bigsum_zero. intros x Hx. unfold pzero. destruct (Nat.leb x k); ring. }
      rewrite Ej, pscale_pmul_r. apply pscale_peq. apply pmul_peq; [apply Hd; exact Hj|reflexivity]. }
    rewrite E2. intros k Hk. unfold psub, padd, pscale.
    assert (DX : P * (X k / P) = X k).
    { destruct (HX k Hk) as [c Hc]. rewrite Hc, Z.div_mul by lia. ring. }
    rewrite Z.mul_add_distr_l, DX. apply eqm_eq. unfold X. ring.
  - intros k Hk. assert (DX : P * (X k / P) = X k).
    { destruct (HX k Hk) as [c Hc]. rewrite Hc, Z.div_mul by lia. ring. }
    split; [exact DX|]. destruct (L0 k Hk) as (_ & A1 & A2). destruct (L1 k Hk) as (_ & A3 & A4).
    split; [exact A1|]. split; [exact A2|]. split; [exact A3|exact A4].
Qed.

(** The size of the error. *)
Lemma switched_bound n nb levelQ Qs Ps c0 c1 A s s' d e rho0 rho1 E DQ Be Bs :
  0 <= DQ -> 0 <= Be -> 0 <= Bs -> 0 < product Ps ->
  (forall i k, (i < nb)%nat -> (k < n)%nat -> 2 ^ 42 * Z.abs (d i k) <= (2 ^ 42 + 1) * DQ) ->
  (forall i, (i < nb)%nat -> pbound n Be (e i)) -> pbound n Bs s ->
  switched n nb levelQ Qs Ps c0 c1 A s s' d e rho0 rho1 E ->
  forall k, (k < n)%nat -> 2 ^ 42 * (product Ps * Z.abs (E k)) <= (2 ^ 42 + 1) * (Z.of_nat nb * (Z.of_nat n * (DQ * Be)) + product Ps * (1 + Z.of_nat n * Bs)).
Proof.
  intros HD HBe HBs HP Hd He Hs [_ H] k Hk. set (P := product Ps) in *.
  destruct (H k Hk) as (EE & A1 & A2 & _).
  assert (B1 : 2 ^ 42 * Z.abs (psum nb (fun i => pmul n (d i) (e i)) k) <= (2 ^ 42 + 1) * (Z.of_nat nb * (Z.of_nat n * (DQ * Be)))).
  { set (d' := fun i k => 2 ^ 42 * d i k).
    assert (X : Z.abs (psum nb (fun i => pmul n (d' i) (e i)) k) <= Z.of_nat nb * (Z.of_nat n * ((2 ^ 42 + 1) * DQ * Be))).
    { revert k Hk EE A1 A2. change (forall k, (k < n)%nat -> P * E k = psum nb (fun i => pmul n (d i) (e i)) k - rho0 k - pmul n rho1 s k -> - P < 2 ^ 42 * rho0 k -> 2 ^ 42 * (rho0 k - P) < P ->
        Z.abs (psum nb (fun i => pmul n (d' i) (e i)) k) <= Z.of_nat nb * (Z.of_nat n * ((2 ^ 42 + 1) * DQ * Be))).
      intros k Hk _ _ _. apply (psum_bound n nb _ (fun i => pmul n (d' i) (e i))); [|exact Hk]. intros i Hi. apply pmul_bound; [nia|exact HBe| |apply He; exact Hi].
      intros x Hx. unfold d'. rewrite Z.abs_mul. change (Z.abs (2 ^ 42)) with (2 ^ 42). apply Hd; assumption. }
    assert (Y : psum nb (fun i => pmul n (d' i) (e i)) k = 2 ^ 42 * psum nb (fun i => pmul n (d i) (e i)) k).
    { unfold psum. rewrite <- bigsum_scale. apply bigsum_ext. intros i Hi. unfold pmul. rewrite <- bigsum_scale. apply bigsum_ext. intros x Hx. unfold d'. ring. }
    rewrite Y, Z.abs_mul in X. change (Z.abs (2 ^ 42)) with (2 ^ 42) in X.
    transitivity (Z.of_nat nb * (Z.of_nat n * ((2 ^ 42 + 1) * DQ * Be))); [exact X|]. apply Z.eq_le_incl. ring. }
  assert (B2 : 2 ^ 42 * Z.abs (rho0 k) <= (2 ^ 42 + 1) * P) by lia.
  assert (B3 : 2 ^ 42 * Z.abs (pmul n rho1 s k) <= (2 ^ 42 + 1) * (P * (Z.of_nat n * Bs))).
  { set (r' := fun k => 2 ^ 42 * rho1 k).
    assert (X : Z.abs (pmul n r' s k) <= Z.of_nat n * ((2 ^ 42 + 1) * P * Bs)).
    { apply pmul_bound; [lia|exact HBs| |exact Hs|exact Hk]. intros x Hx. unfold r'. destruct (H x Hx) as (_ & _ & _ & A3 & A4). lia. }
    assert (Y : pmul n r' s k = 2 ^ 42 * pmul n rho1 s k).
    { unfold pmul. rewrite <- bigsum_scale. apply bigsum_ext. intros x Hx. unfold r'. ring. }
    rewrite Y, Z.abs_mul in X. change (Z.abs (2 ^ 42)) with (2 ^ 42) in X.
    transitivity (Z.of_nat n * ((2 ^ 42 + 1) * P * Bs)); [exact X|]. apply Z.eq_le_incl. ring. }
  assert (EA : P * Z.abs (E k) = Z.abs (P * E k)) by (rewrite Z.abs_mul, (Z.abs_eq P) by lia; reflexivity).
  rewrite EA, EE.
  set (x := psum nb _ k) in *. set (y := rho0 k) in *. set (z := pmul n rho1 s k) in *.
  set (u := Z.of_nat nb * _) in *. set (v := P * (Z.of_nat n * Bs)) in *.
  assert (Ev : P * (1 + Z.of_nat n * Bs) = P + v) by (unfold v; ring). rewrite Ev. clearbody x y z u v. clear - B1 B2 B3. lia.
Qed.
