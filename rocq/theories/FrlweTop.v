(** The theorems on frlwe, stated from the constructors. *)
From Verif Require Import Word Arith PolySpec PolyProofs Ring RingProofs RingOps RNSSpec RowProofs OpsProofs Float64 BasisExt BasisProps Gadget AccumProofs Frlwe FrlweSetup GadgetSpec FrlweProps GadgetProofs FrlweSwitch.

Lemma fast_constructors : forall fuel N Qs Ps Ts gamma p, sizes_ok N Qs Ps Ts gamma ->
  NewFParams fuel N Qs Ps Ts gamma = Some p ->
  (exists ks, NewKeySwitcher fuel p = Some ks) /\ (exists conv, NewConvRiT fuel p = Some conv).
Proof.
  intros fuel N Qs Ps Ts gamma p HS HF.
  apply (constructors_succeed fuel N Qs Ps Ts gamma p HS (NewFParams_ok fuel N Qs Ps Ts gamma p HS HF) HF).
Qed.

Lemma fast_external_product : forall fuel N Qs Ps Ts gamma p ks, sizes_ok N Qs Ps Ts gamma ->
  NewFParams fuel N Qs Ps Ts gamma = Some p -> NewKeySwitcher fuel p = Some ks ->
  forall L, rN (fpQ p) = (2 ^ L)%nat ->
  forall levelQ aPolyTs bg poolT poolR poolQ poolP c B (d b : nat -> poly) (beta : nat -> nat -> poly),
  (levelQ < length Qs)%nat ->
  let n := rN (fpQ p) in let nb := ceil_div (levelQ + 1) (length Ps) in let levelT := (length Ts - 1)%nat in
  (forall i, (i <= levelT)%nat -> 0 <= B (nth i Ts 0) /\ B (nth i Ts 0) + 2 * nth i Ts 0 + 16384 <= W) ->
  (forall i, (i < nb)%nat -> rns_ntt (fpT p) L levelT B (nth i aPolyTs []) (d i)) ->
  (forall i j, (i < nb)%nat -> (j * gamma < length Ps + levelQ + 1)%nat ->
     rns_ntt (fpT p) L levelT canon (nth j (nth i bg []) []) (pscale W (beta i j))) ->
  (forall i idx, (i < nb)%nat -> (idx < length Ps + levelQ + 1)%nat -> peq n (nth idx (Ps ++ Qs) 0) (beta i (idx / gamma)%nat) (b i)) ->
  (forall j k, (j * gamma < length Ps + levelQ + 1)%nat -> (k < n)%nat ->
     4 * Z.abs (psum nb (fun i => pmul n (d i) (beta i j)) k) <= product Ts) ->
  exists c' D, externalProduct ks levelQ aPolyTs bg poolT poolR poolQ poolP c = Some c' /\
    rns_repr (fpQ p) levelQ canon c' D /\ kept levelQ c c' /\
    forall k, (k < n)%nat -> quotient_of (product Ps) (psum nb (fun i => pmul n (d i) (b i)) k) (D k).
Proof.
  intros fuel N Qs Ps Ts gamma p ks HS HF HK L EL levelQ aPolyTs bg poolT poolR poolQ poolP c B d b beta HlQ n nb levelT HB Hd Hb Hbeta Hsz.
  pose proof (NewFParams_ok fuel N Qs Ps Ts gamma p HS HF) as Hp.
  pose proof (NewKeySwitcher_ok fuel N Qs Ps Ts gamma p HS Hp ks HK) as Hks.
  assert (ET : (length (rmods (fpT p)) - 1)%nat = levelT) by (rewrite moduli_length, (fk_mT _ _ _ _ _ _ Hp); reflexivity).
  assert (hT := fk_hT _ _ _ _ _ _ Hp).
  destruct (external_product N Qs Ps Ts gamma p ks HS Hp Hks L EL levelQ HlQ aPolyTs bg poolT poolR poolQ poolP c B d b beta) as (c' & D & X1 & X2 & X3 & X4);
    try rewrite ET; try assumption.
  - intros i Hi. destruct (rmod_nth _ _ i (fk_mT _ _ _ _ _ _ Hp)) as [_ Ei]; [unfold levelT in Hi; lia|]. rewrite Ei. apply HB. exact Hi.
  - exists c', D. split; [exact X1|]. split; [exact X3|]. split; [exact X2|]. intros k Hk. apply (X4 k Hk).
Qed.

Lemma fast_key_conversion : forall fuel N Qs Ps Ts gamma p conv, sizes_ok N Qs Ps Ts gamma ->
  NewFParams fuel N Qs Ps Ts gamma = Some p -> NewConvRiT fuel p = Some conv ->
  forall L, rN (fpQ p) = (2 ^ L)%nat ->
  forall kQ kP polyTs b,
  rns_ntt (fpQ p) L (length Qs - 1) canon kQ (pscale W b) -> rns_ntt (fpP p) L (length Ps - 1) canon kP (pscale W b) ->
  forall j, (j * gamma < length (Ps ++ Qs))%nat ->
  exists beta, rns_ntt (fpT p) L (length Ts - 1) canon (nth j (convertPoly conv p kQ kP polyTs) []) (pscale W beta) /\
    let R := product (block_of gamma j (Ps ++ Qs)) in
    forall k, (k < rN (fpQ p))%nat -> (forall q, In q (block_of gamma j (Ps ++ Qs)) -> eqm q (beta k) (b k)) /\
      - R < 2 ^ 42 * beta k /\ 2 ^ 42 * (beta k - R) < R.
Proof.
  intros fuel N Qs Ps Ts gamma p conv HS HF HC L EL kQ kP polyTs b H1 H2 j Hj.
  pose proof (NewFParams_ok fuel N Qs Ps Ts gamma p HS HF) as Hp.
  destruct (convert_poly fuel N Qs Ps Ts gamma p conv HS HF HC L EL (kQ, kP) b polyTs (conj H1 H2) j Hj) as (beta & B1 & B2).
  assert (ET : (length (rmods (fpT p)) - 1 = length Ts - 1)%nat) by (rewrite moduli_length, (fk_mT _ _ _ _ _ _ Hp); reflexivity).
  rewrite ET in B1. exists beta. split; [exact B1|]. intros R k Hk. destruct (B2 k Hk) as (C1 & C2 & C3). split; [|split; [exact C2|exact C3]].
  intros q Hq. apply (lift_dvd R); [|apply (CRT.prodZ_divide q (block_of gamma j (Ps ++ Qs))); exact Hq|apply (B2 k Hk)].
  apply block_product_pos. intros x Hx. apply in_app_iff in Hx.
  assert (Px : prime x).
  { destruct Hx as [Hx|Hx]; [apply (sw_prime (fpP p)); [apply (fk_P _ _ _ _ _ _ Hp)|rewrite (fk_mP _ _ _ _ _ _ Hp); exact Hx]
                            |apply (sw_prime (fpQ p)); [apply (fk_Q _ _ _ _ _ _ Hp)|rewrite (fk_mQ _ _ _ _ _ _ Hp); exact Hx]]. }
  apply prime_ge_2 in Px. lia.
Qed.

Lemma fast_switch_key : forall fuel N Qs Ps Ts gamma p ks conv, sizes_ok N Qs Ps Ts gamma ->
  NewFParams fuel N Qs Ps Ts gamma = Some p -> NewKeySwitcher fuel p = Some ks -> NewConvRiT fuel p = Some conv ->
  forall L, rN (fpQ p) = (2 ^ L)%nat ->
  forall levelQ a A (key0 key1 : list (rows * rows)) pool0 pool1 poolT1 poolT2 poolT2' poolR poolR' poolQ poolQ' poolP poolP' c0 c1
    b0 b1 e s s' DQ DR Be Bs,
  let n := rN (fpQ p) in let alpha := length Ps in let nb := ceil_div (levelQ + 1) alpha in
  (levelQ < length Qs)%nat -> rns_repr (fpQ p) levelQ canon a A ->
  (forall i, (i < nb)%nat -> key_poly Qs Ps p L (nth i key0 ([], [])) (b0 i) /\ key_poly Qs Ps p L (nth i key1 ([], [])) (b1 i)) ->
  gadget_key n alpha nb Qs Ps b0 b1 e s s' ->
  (forall i, (i < nb)%nat -> product (block_of alpha i (firstn (levelQ + 1) Qs)) <= DQ) ->
  (forall j, (j * gamma < alpha + levelQ + 1)%nat -> product (block_of gamma j (Ps ++ Qs)) <= DR) ->
  5 * (Z.of_nat nb * (Z.of_nat n * (DQ * DR))) <= product Ts ->
  0 <= Be -> 0 <= Bs -> (forall i, (i < nb)%nat -> pbound n Be (e i)) -> pbound n Bs s ->
  exists c0' c1' C0 C1 d rho0 rho1 E,
    SwitchKey ks levelQ a false (convertKey conv p key0 pool0) (convertKey conv p key1 pool1)
      poolT1 poolT2 poolT2' poolR poolR' poolQ poolQ' poolP poolP' c0 c1 = Some (c0', c1') /\
    rns_repr (fpQ p) levelQ canon c0' C0 /\ rns_repr (fpQ p) levelQ canon c1' C1 /\
    kept levelQ c0 c0' /\ kept levelQ c1 c1' /\
    switched n nb levelQ Qs Ps C0 C1 A s s' d e rho0 rho1 E /\
    (forall i k, (i < nb)%nat -> (k < n)%nat -> lift_of (product (block_of alpha i (firstn (levelQ + 1) Qs))) (A k) (d i k)) /\
    (forall k, (k < n)%nat -> 2 ^ 42 * (product Ps * Z.abs (E k))
       <= (2 ^ 42 + 1) * (Z.of_nat nb * (Z.of_nat n * (DQ * Be)) + product Ps * (1 + Z.of_nat n * Bs))).
Proof.
  intros fuel N Qs Ps Ts gamma p ks conv HS HF HK HC L EL levelQ a A key0 key1 pool0 pool1 poolT1 poolT2 poolT2' poolR poolR' poolQ poolQ' poolP poolP' c0 c1
    b0 b1 e s s' DQ DR Be Bs n alpha nb HlQ HA Hkey Hgk HDQ HDR Hsz HBe HBs He Hs.
  destruct (switch_key fuel N Qs Ps Ts gamma p ks conv HS HF HK HC L EL levelQ a A key0 key1 pool0 pool1 poolT1 poolT2 poolT2' poolR poolR' poolQ poolQ' poolP poolP'
    c0 c1 b0 b1 e s s' DQ DR HlQ HA Hkey Hgk HDQ HDR Hsz) as (c0' & c1' & C0 & C1 & d & rho0 & rho1 & E & X1 & X2 & X3 & X4 & X5 & X6 & X7).
  exists c0', c1', C0, C1, d, rho0, rho1, E.
  split; [exact X1|]. split; [exact X2|]. split; [exact X3|]. split; [exact X4|]. split; [exact X5|]. split; [exact X7|]. split; [exact X6|].
  pose proof (NewFParams_ok fuel N Qs Ps Ts gamma p HS HF) as Hp.
  assert (pos : forall q, In q (Ps ++ Qs) -> 0 < q).
  { intros x Hx. apply in_app_iff in Hx.
    assert (Px : prime x).
    { destruct Hx as [Hx|Hx]; [apply (sw_prime (fpP p)); [apply (fk_P _ _ _ _ _ _ Hp)|rewrite (fk_mP _ _ _ _ _ _ Hp); exact Hx]
                              |apply (sw_prime (fpQ p)); [apply (fk_Q _ _ _ _ _ _ Hp)|rewrite (fk_mQ _ _ _ _ _ _ Hp); exact Hx]]. }
    apply prime_ge_2 in Px. lia. }
  assert (posQ : forall i, 0 < product (block_of alpha i (firstn (levelQ + 1) Qs))).
  { intros i. apply block_product_pos. intros q Hq. apply pos. apply in_app_iff. right. apply firstn_in' in Hq. exact Hq. }
  assert (Hnb0 : (0 < nb)%nat) by (apply ceil_div_pos; [apply (fk_hP _ _ _ _ _ _ Hp)|lia]).
  apply (switched_bound n nb levelQ Qs Ps C0 C1 A s s' d e rho0 rho1 E DQ Be Bs); try assumption.
  - specialize (HDQ O Hnb0). specialize (posQ O). lia.
  - apply (CRT.prodZ_pos Ps). intros q Hq. apply pos. apply in_app_iff. left. exact Hq.
  - intros i k Hi Hk. apply (lift_bound (product (block_of alpha i (firstn (levelQ + 1) Qs))) (A k)); [apply posQ|apply HDQ; exact Hi|apply X6; assumption].
Qed.

(** A polynomial marked as being in the NTT domain is refused. *)
Lemma switch_key_refuses_ntt : forall ks levelQ a bg0 bg1 poolT1 poolT2 poolT2' poolR poolR' poolQ poolQ' poolP poolP' c0 c1,
  SwitchKey ks levelQ a true bg0 bg1 poolT1 poolT2 poolT2' poolR poolR' poolQ poolQ' poolP poolP' c0 c1 = None.
Proof. reflexivity. Qed.
