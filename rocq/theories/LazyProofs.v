(** Ciphertexts modulo QP: switched keys, rotations, sums, one division by P. *)
From Verif Require Import Word ModRed Arith Fermat ModRedProofs PolySpec PolyProofs Ring RingProofs NTT NTTProofs RingOps RNSSpec RowProofs OpsProofs OpsProps NTTProps Repr BasisExt CRT BasisProofs BasisProps Automorphism AutoProps Scaling Gadget GadgetSpec GadgetProofs Frlwe FrlweSetup FrlweProps FrlweSwitch RlweSpec Rlwe RlweBase RlweKeys RlweSwitch RlweEnc RlweTop RlweGen Float64 Ckks CkksSpec CkksBase CkksConst CkksOps CkksAdd CkksMul CkksRot CkksNoMod CkksTop Lazy LazySpec.
Open Scope Z_scope.

(** ** Algebra *)
Lemma gadget_phase n alpha nb levelQ Qs Ps A s s' d b0 b1 e :
  (0 < alpha)%nat -> (levelQ < length Qs)%nat -> (levelQ / alpha < nb)%nat ->
  (forall j, (j <= levelQ)%nat -> peq n (nth j Qs 0) (d (j / alpha)%nat) A) ->
  gadget_key n alpha nb Qs Ps b0 b1 e s s' ->
  let S0 := psum nb (fun i => pmul n (d i) (b0 i)) in let S1 := psum nb (fun i => pmul n (d i) (b1 i)) in
  let F := psum nb (fun i => pmul n (d i) (e i)) in
  (forall j, (j <= levelQ)%nat -> peq n (nth j Qs 0) (padd S0 (pmul n S1 s)) (padd (pscale (product Ps) (pmul n A s')) F)) /\
  (forall p, In p Ps -> peq n p (padd S0 (pmul n S1 s)) F).
Proof.
  intros Ha HlQ Hnb Hd Hkey S0 S1 F. set (P := product Ps) in *. split.
  - intros j Hj. set (q := nth j Qs 0). unfold S0, S1. rewrite digits_times_key.
    transitivity (psum nb (fun i => padd (pmul n (d i) (e i)) (pmul n (d i) (if Nat.eqb (j / alpha) i then pscale P s' else pzero)))).
    { apply psum_peq. intros i Hi. rewrite <- pmul_add_r. apply pmul_peq; [reflexivity|]. apply (proj2 (Hkey i Hi)). lia. }
    rewrite psum_add. transitivity (padd F (pscale P (pmul n A s'))); [|intros k Hk; apply eqm_eq; unfold padd; ring].
    apply padd_peq; [reflexivity|].
    assert (Ej : peq n q (psum nb (fun i => pmul n (d i) (if Nat.eqb (j / alpha) i then pscale P s' else pzero))) (pmul n (d (j / alpha)%nat) (pscale P s'))).
    { apply peq_exact. intros k Hk. unfold psum. rewrite (bigsum_single nb (j / alpha)%nat).
      - rewrite Nat.eqb_refl. reflexivity.
      - assert (j / alpha <= levelQ / alpha)%nat by (apply Nat.div_le_mono; lia). lia.
      - intros i Hi Hne. destruct (Nat.eqb_spec (j / alpha) i); [congruence|]. unfold pmul. apply bigsum_zero. intros x Hx. unfold pzero. destruct (Nat.leb x k); ring. }
    rewrite Ej, pscale_pmul_r. apply pscale_peq. apply pmul_peq; [apply Hd; exact Hj|reflexivity].
  - intros p Hp. unfold S0, S1. rewrite digits_times_key. apply psum_peq. intros i Hi. apply pmul_peq; [reflexivity|]. apply (proj1 (Hkey i Hi)). exact Hp.
Qed.

Lemma digits_bound n nb d e DQ Be : 0 <= DQ -> 0 <= Be ->
  (forall i k, (i < nb)%nat -> (k < n)%nat -> 2 ^ 42 * Z.abs (d i k) <= (2 ^ 42 + 1) * DQ) -> (forall i, (i < nb)%nat -> pbound n Be (e i)) ->
  forall k, (k < n)%nat -> 2 ^ 42 * Z.abs (psum nb (fun i => pmul n (d i) (e i)) k) <= (2 ^ 42 + 1) * (Z.of_nat nb * (Z.of_nat n * (DQ * Be))).
Proof.
  intros HD HBe Hd He k Hk. set (d' := fun i k => 2 ^ 42 * d i k).
  assert (X : Z.abs (psum nb (fun i => pmul n (d' i) (e i)) k) <= Z.of_nat nb * (Z.of_nat n * ((2 ^ 42 + 1) * DQ * Be))).
  { apply (psum_bound n nb _ (fun i => pmul n (d' i) (e i))); [|exact Hk]. intros i Hi. apply pmul_bound; [nia|exact HBe| |apply He; exact Hi].
    intros x Hx. unfold d'. rewrite Z.abs_mul. change (Z.abs (2 ^ 42)) with (2 ^ 42). apply Hd; assumption. }
  assert (Y : psum nb (fun i => pmul n (d' i) (e i)) k = 2 ^ 42 * psum nb (fun i => pmul n (d i) (e i)) k).
  { unfold psum. rewrite <- bigsum_scale. apply bigsum_ext. intros i Hi. unfold pmul. rewrite <- bigsum_scale. apply bigsum_ext. intros x Hx. unfold d'. ring. }
  rewrite Y, Z.abs_mul in X. change (Z.abs (2 ^ 42)) with (2 ^ 42) in X.
  transitivity (Z.of_nat nb * (Z.of_nat n * ((2 ^ 42 + 1) * DQ * Be))); [exact X|]. apply Z.eq_le_incl. ring.
Qed.

(** Dividing a pair by P. *)
Lemma divide_phase n levelQ Qs Ps C0 C1 s M F D0 D1 BF Bs :
  (forall p, In p Ps -> prime p) -> NoDup Ps -> (forall q, In q Qs -> prime q) -> (forall q, In q Qs -> ~ In q Ps) -> (levelQ < length Qs)%nat ->
  (forall q, In q (Qs ++ Ps) -> peq n q (padd C0 (pmul n C1 s)) (padd (pscale (product Ps) M) F)) ->
  (forall k, (k < n)%nat -> lift_of (product Ps) (C0 k) (C0 k - product Ps * D0 k)) ->
  (forall k, (k < n)%nat -> lift_of (product Ps) (C1 k) (C1 k - product Ps * D1 k)) ->
  0 <= Bs -> pbound n Bs s -> (forall k, (k < n)%nat -> 2 ^ 42 * Z.abs (F k) <= BF) ->
  exists E, (forall j, (j <= levelQ)%nat -> peq n (nth j Qs 0) (padd D0 (pmul n D1 s)) (padd M E)) /\
    forall k, (k < n)%nat -> 2 ^ 42 * (product Ps * Z.abs (E k)) <= BF + (2 ^ 42 + 1) * (product Ps * (1 + Z.of_nat n * Bs)).
Proof.
  intros HP HND HQ Hdis HlQ Hph L0 L1 HBs Hs HF. set (P := product Ps) in *.
  assert (P0 : 0 < P) by (apply (prodZ_pos Ps); intros p Hp; specialize (HP p Hp); apply prime_ge_2 in HP; lia).
  set (rho0 := fun k => C0 k - P * D0 k). set (rho1 := fun k => C1 k - P * D1 k).
  set (X := fun k => F k - rho0 k - pmul n rho1 s k).
  assert (HX : forall k, (k < n)%nat -> (P | X k)).
  { intros k Hk. apply (crt_divide Ps HP HND). intros p Hp.
    assert (Hp0 : p <> 0) by (specialize (HP p Hp); apply prime_ge_2 in HP; lia).
    assert (ZP : forall Y, peq n p (pscale P Y) pzero).
    { intros Y k' Hk'. unfold pscale, pzero. destruct (prodZ_divide p Ps Hp) as [c Hc]. change (prodZ Ps) with P in Hc. rewrite Hc.
      apply (eqm_intro _ _ _ (c * Y k')). ring. }
    assert (E1 := quotients n p P D0 D1 rho0 rho1 C0 C1 s ltac:(reflexivity) ltac:(reflexivity)).
    assert (E2 : peq n p (padd C0 (pmul n C1 s)) F).
    { transitivity (padd (pscale P M) F); [apply Hph; apply in_or_app; right; exact Hp|]. intros k' Hk'. unfold padd. rewrite (ZP M k' Hk'). apply eqm_eq. reflexivity. }
    assert (E3 : peq n p (psub F (padd rho0 (pmul n rho1 s))) pzero).
    { rewrite <- (ZP (padd D0 (pmul n D1 s))), E1, E2. reflexivity. }
    specialize (E3 k Hk). unfold psub, padd, pzero in E3. apply (eqm_divide p _ _ Hp0) in E3.
    rewrite Z.sub_0_r in E3. unfold X. rewrite <- Z.sub_add_distr. exact E3. }
  assert (DX : forall k, (k < n)%nat -> P * (X k / P) = X k).
  { intros k Hk. destruct (HX k Hk) as [c Hc]. rewrite Hc, Z.div_mul by lia. ring. }
  exists (fun k => X k / P). split.
  - intros j Hj. set (q := nth j Qs 0). assert (Hq : In q Qs) by (apply nth_In; lia).
    assert (Q0 : q <> 0) by (specialize (HQ q Hq); apply prime_ge_2 in HQ; lia).
    apply (pscale_cancel n q P); [exact Q0| |].
    { apply Zgcd_1_rel_prime. apply rel_prime_sym. apply (prime_prodZ q Ps); [apply HQ; exact Hq|exact HP|apply Hdis; exact Hq]. }
    rewrite (quotients n q P D0 D1 rho0 rho1 C0 C1 s ltac:(reflexivity) ltac:(reflexivity)).
    rewrite (Hph q) by (apply in_or_app; left; exact Hq).
    intros k Hk. unfold psub, padd, pscale. rewrite Z.mul_add_distr_l, (DX k Hk). apply eqm_eq. unfold X. ring.
  - intros k Hk. destruct (L0 k Hk) as (_ & A1 & A2). fold (rho0 k) in A1, A2.
    assert (B2 : 2 ^ 42 * Z.abs (rho0 k) <= (2 ^ 42 + 1) * P) by lia.
    assert (B3 : 2 ^ 42 * Z.abs (pmul n rho1 s k) <= (2 ^ 42 + 1) * (P * (Z.of_nat n * Bs))).
    { set (r' := fun k => 2 ^ 42 * rho1 k).
      assert (X1 : Z.abs (pmul n r' s k) <= Z.of_nat n * ((2 ^ 42 + 1) * P * Bs)).
      { apply pmul_bound; [lia|exact HBs| |exact Hs|exact Hk]. intros x Hx. unfold r'. destruct (L1 x Hx) as (_ & A3 & A4). fold (rho1 x) in A3, A4. lia. }
      assert (Y : pmul n r' s k = 2 ^ 42 * pmul n rho1 s k).
      { unfold pmul. rewrite <- bigsum_scale. apply bigsum_ext. intros x Hx. unfold r'. ring. }
      rewrite Y, Z.abs_mul in X1. change (Z.abs (2 ^ 42)) with (2 ^ 42) in X1.
      transitivity (Z.of_nat n * ((2 ^ 42 + 1) * P * Bs)); [exact X1|]. apply Z.eq_le_incl. ring. }
    assert (EA : P * Z.abs (X k / P) = Z.abs (X k)) by (rewrite <- (DX k Hk) at 2; rewrite Z.abs_mul, (Z.abs_eq P) by lia; reflexivity).
    rewrite EA. unfold X. specialize (HF k Hk).
    set (y := rho0 k) in *. set (z := pmul n rho1 s k) in *. set (v := P * (Z.of_nat n * Bs)) in *.
    assert (Ev : P * (1 + Z.of_nat n * Bs) = P + v) by (unfold v; ring). rewrite Ev. clearbody y z v. clear - B2 B3 HF. lia.
Qed.

Section Lazy.
  Variables (rQ rP : Ring) (L : nat).
  Hypothesis (HP : ring_pair rQ rP) (EL : rN rQ = (2 ^ L)%nat).
  Let n := rN rQ.
  Let BQ : built_ring 9 rQ := k_Q rQ rP HP.
  Let BP : built_ring 9 rP := k_P rQ rP HP.
  Let B2 : built_ring 2 rQ := one_2 rQ BQ.
  Let q i := mq (rmod rQ i).

  Lemma prefix_in r level x : (level < length (rmods r))%nat -> In x (prefix r level) -> exists i, (i <= level)%nat /\ x = mq (rmod r i).
  Proof.
    clear. intros Hl Hx. apply (In_nth _ _ 0) in Hx. destruct Hx as (i & Hi & <-). rewrite prefix_length in Hi by exact Hl.
    exists i. split; [lia|]. apply prefix_nth; lia.
  Qed.
  Lemma in_prefix r level i : (level < length (rmods r))%nat -> (i <= level)%nat -> In (mq (rmod r i)) (prefix r level).
  Proof. clear. intros Hl Hi. rewrite <- (prefix_nth r level i) by lia. apply nth_In. rewrite prefix_length by exact Hl. lia. Qed.
  Lemma special_zero level X i : (level < length (rmods rP))%nat -> (i <= level)%nat -> peq n (mq (rmod rP i)) (pscale (product (prefix rP level)) X) pzero.
  Proof.
    intros Hl Hi k Hk. unfold pscale, pzero. destruct (prodZ_divide _ _ (in_prefix rP level i Hl Hi)) as [c Hc]. change (prodZ (prefix rP level)) with (product (prefix rP level)) in Hc.
    rewrite Hc. apply (eqm_intro _ _ _ (c * X k)). ring.
  Qed.

  (** One key switching. *)
  Lemma switch_lazy levelK levelQ levelP cx isNTT A (key : swkey) poolInv c2 c0Q c0P c1Q c1P s s' DQ Be :
    key_levels rQ rP levelK levelP -> (levelQ <= levelK)%nat -> rns_dom rQ L levelQ isNTT cx A ->
    swkey_ok rQ rP L levelK levelP key s s' Be -> blocks_below rQ levelQ levelP DQ -> 0 <= Be ->
    exists x F, SwitchKeysInPlaceNoModDown rQ rP levelQ levelP cx isNTT (fst key) (snd key) poolInv c2 c0Q c0P c1Q c1P = Some x /\
      lazy_ct rQ rP L levelQ levelP x s (pmul n A s') F /\ lazy_noise rQ levelQ levelP 1 DQ Be F /\
      kept levelQ c0Q (fst (fst x)) /\ kept levelP c0P (snd (fst x)) /\ kept levelQ c1Q (fst (snd x)) /\ kept levelP c1P (snd (snd x)).
  Proof.
    intros (HK' & HlP & H18) HK HA (e & (_ & _ & b0 & b1 & Hkey & Hgk) & HBe) HDQ HB0.
    assert (HlQ : (levelQ < length (rmods rQ))%nat) by (clear - HK HK'; lia).
    set (alpha := (levelP + 1)%nat) in *. set (nb := ceil_div (levelQ + 1) alpha) in *. fold n in Hgk.
    assert (Ha : (0 < alpha)%nat) by (unfold alpha; clear; lia).
    assert (Hmono : (nb <= ceil_div (levelK + 1) alpha)%nat) by (apply ceil_div_mono; [exact Ha|clear - HK; lia]).
    pose proof (both_domains_ok rQ rP L HP EL levelQ levelP HlQ HlP H18 isNTT cx A poolInv HA) as HB. unfold SwitchKeysInPlaceNoModDown. fold alpha.
    destruct (both_domains rQ levelQ cx isNTT poolInv) as [cN cI]. destruct HB as [HcN HcI].
    destruct (finite_choice pzero nb (fun i d => qp_ntt rQ rP L levelQ levelP digitB (DecomposeSingleNTT rQ rP levelQ levelP alpha i cN cI (fst c2) (snd c2)) d /\
      forall k, (k < n)%nat -> lift_of (product (block_of alpha i (prefix rQ levelQ))) (A k) (d k))) as [d Hd].
    { intros i Hi. apply (rlwe_digit rQ rP L HP EL levelQ levelP HlQ HlP H18); assumption. }
    destruct (key_product rQ rP L HP EL levelQ levelP HlQ HlP H18 (fun i => DecomposeSingleNTT rQ rP levelQ levelP alpha i cN cI (fst c2) (snd c2)) (fst key) (snd key) d b0 b1 c0Q c0P c1Q c1P) as (x0 & X0 & x1 & X1 & E1 & R1 & R2 & K1 & K2 & K3 & K4).
    { intros i Hi. apply (Hd i Hi). }
    { intros i Hi. destruct (Hkey i (Nat.lt_le_trans _ _ _ Hi Hmono)) as [Y0 Y1]. split; [revert Y0|revert Y1]; apply (restrict_qp rQ rP L levelQ levelP levelK); exact HK. }
    fold n alpha nb in R1, R2. exists ((x0, X0), (x1, X1)), (psum nb (fun i => pmul n (d i) (e i))). split; [exact E1|].
    assert (posQ : forall q, In q (prefix rQ levelQ) -> 0 < q).
    { intros x Hx. assert (prime x) by (apply (sw_prime rQ _ BQ); apply firstn_in' in Hx; exact Hx). apply prime_ge_2 in H. lia. }
    split.
    - exists (psum nb (fun i => pmul n (d i) (b0 i))), (psum nb (fun i => pmul n (d i) (b1 i))). split; [exact R1|]. split; [exact R2|].
      destruct (gadget_phase n alpha nb levelQ (prefix rQ levelQ) (prefix rP levelP) A s s' d b0 b1 e) as [G1 G2].
      + exact Ha.
      + rewrite prefix_length by exact HlQ. clear; lia.
      + apply ceil_div_idx; [exact Ha|clear; lia].
      + intros j Hj k Hk. assert (Hi : (j / alpha < nb)%nat) by (apply ceil_div_idx; [exact Ha|clear - Hj; lia]).
        apply (lift_dvd (product (block_of alpha (j / alpha) (prefix rQ levelQ)))); [apply block_product_pos; exact posQ| |apply Hd; assumption].
        apply block_product_dvd; [exact Ha|]. rewrite prefix_length by exact HlQ. clear - Hj. lia.
      + intros i Hi. destruct (Hgk i (Nat.lt_le_trans _ _ _ Hi Hmono)) as [G1 G2].
        split; [exact G1|]. intros j Hj. rewrite prefix_length in Hj by exact HlQ. specialize (G2 j). rewrite prefix_length in G2 by exact HK'.
        rewrite prefix_nth in G2 |- * by (clear - Hj HK HlQ HK'; lia). apply G2. clear - Hj HK. lia.
      + intros x Hx. apply in_app_or in Hx. destruct Hx as [Hx|Hx].
        * destruct (prefix_in rQ levelQ x HlQ Hx) as (j & Hj & ->). specialize (G1 j Hj). rewrite prefix_nth in G1 by (clear - Hj HlQ; lia). exact G1.
        * etransitivity; [exact (G2 x Hx)|]. destruct (prefix_in rP levelP x HlP Hx) as (j & Hj & ->). intros k Hk. pose proof (special_zero levelP (pmul n A s') j HlP Hj k Hk) as Z0. unfold padd. etransitivity; [|apply eqm_add; [symmetry; exact Z0|reflexivity]]. apply eqm_eq. reflexivity.
    - split; [|cbn [fst snd]; repeat split; try apply K1; try apply K2; try apply K3; try apply K4].
      intros k Hk. rewrite Z.mul_1_l. fold alpha nb.
      assert (NB : (0 < nb)%nat) by (unfold nb; apply ceil_div_pos; clear - Ha; lia).
      assert (PB : forall i, 0 < product (block_of alpha i (prefix rQ levelQ))) by (intros i; apply block_product_pos; exact posQ).
      assert (D0 : 0 <= DQ) by (pose proof (HDQ 0%nat NB); pose proof (PB 0%nat); fold alpha in H; lia).
      apply digits_bound; [exact D0|exact HB0| | |exact Hk].
      + intros i x Hi Hx. destruct (proj2 (Hd i Hi) x Hx) as (_ & Y1 & Y2). pose proof (HDQ i Hi) as D1. fold alpha in D1. specialize (PB i).
        revert Y1 Y2 D1 PB. generalize (product (block_of alpha i (prefix rQ levelQ))) (d i x). clear. intros. lia.
      + intros i Hi. apply HBe. exact (Nat.lt_le_trans _ _ _ Hi Hmono).
  Qed.

  (** Decomposing first gives the same words. *)
  Lemma hoisted_nomod levelQ levelP cx (key0 key1 : list (rows * rows)) poolInv c2 pools c0Q c0P c1Q c1P :
    KeyswitchHoistedNoModDown rQ rP levelQ levelP (DecomposeNTT rQ rP levelQ levelP (levelP + 1) cx true poolInv pools) key0 key1 c0Q c1Q c0P c1P =
    SwitchKeysInPlaceNoModDown rQ rP levelQ levelP cx true key0 key1 poolInv c2 c0Q c0P c1Q c1P.
  Proof.
    clear. unfold KeyswitchHoistedNoModDown, SwitchKeysInPlaceNoModDown, DecomposeNTT, both_domains.
    set (cI := InvNTTLvl rQ levelQ cx poolInv). unfold keyswitch_accumulate. set (nb := ceil_div (levelQ + 1) (levelP + 1)). cbv zeta. destruct (_ || _)%bool; [reflexivity|].
    set (D := fun i => DecomposeSingleNTT rQ rP levelQ levelP (levelP + 1) i cx cI (fst (pools i)) (snd (pools i))).
    set (D' := fun i => DecomposeSingleNTT rQ rP levelQ levelP (levelP + 1) i cx cI (fst c2) (snd c2)).
    assert (Hn : forall i, (i < nb)%nat -> nth i (map D (seq 0 nb)) ([], []) = D i) by (intros i Hi; exact (nth_map_seq D nb i ([], []) Hi)).
    assert (AQ : forall F (key : list (rows * rows)) c,
      accumulate rQ levelQ F nb (fun i => fst (nth i key ([], []))) (fun i => fst (nth i (map D (seq 0 nb)) ([], []))) c =
      accumulate rQ levelQ F nb (fun i => fst (nth i key ([], []))) (fun i => fst (D' i)) c).
    { intros F key c. apply accumulate_ext. intros i Hi. split; [intros j Hj; reflexivity|]. rewrite Hn by exact Hi. apply decompose_same. }
    assert (AP : forall F (key : list (rows * rows)) c,
      accumulate rP levelP F nb (fun i => snd (nth i key ([], []))) (fun i => snd (nth i (map D (seq 0 nb)) ([], []))) c =
      accumulate rP levelP F nb (fun i => snd (nth i key ([], []))) (fun i => snd (D' i)) c).
    { intros F key c. apply accumulate_ext. intros i Hi. split; [intros j Hj; reflexivity|]. rewrite Hn by exact Hi. apply decompose_same. }
    rewrite !AQ, !AP. reflexivity.
  Qed.

  Lemma big_product : rbigQ rP = product (prefix rP (maxLevel rP)).
  Proof.
    rewrite <- (special_product_spec rP (maxLevel rP) (one_2 rP BP) (max_ne rP BP)). unfold special_product. rewrite Nat.eqb_refl. reflexivity.
  Qed.
End Lazy.
