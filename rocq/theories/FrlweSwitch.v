(** Switching keys with the converted key of frlwe, end to end. *)
From Verif Require Import Word ModRed Arith Fermat ModRedProofs PolySpec PolyProofs Ring RingProofs NTT NTTProofs RingOps RNSSpec RowProofs OpsProofs OpsProps Repr BasisExt CRT BasisProps AutoProps Gadget AccumProofs GadgetSpec GadgetProofs Frlwe FrlweSetup FrlweProps.

Lemma finite_choice {A} (d : A) n (R : nat -> A -> Prop) : (forall i, (i < n)%nat -> exists x, R i x) -> exists f, forall i, (i < n)%nat -> R i (f i).
Proof.
  induction n as [|n IH]; intros H; [exists (fun _ => d); intros i Hi; lia|].
  destruct IH as [f Hf]; [intros i Hi; apply H; lia|]. destruct (H n ltac:(lia)) as [x Hx].
  exists (fun i => if Nat.eqb i n then x else f i). intros i Hi. destruct (Nat.eqb_spec i n) as [-> | Hn]; [exact Hx|apply Hf; lia].
Qed.

Lemma lift_dvd Q x x' q : 0 < Q -> (q | Q) -> lift_of Q x x' -> eqm q x' x.
Proof. intros HQ Hd (H & _). apply (eqm_dvd Q); [lia|exact Hd|exact H]. Qed.

Lemma lift_bound Q x x' B : 0 < Q -> Q <= B -> lift_of Q x x' -> 2 ^ 42 * Z.abs x' <= (2 ^ 42 + 1) * B.
Proof. intros HQ HB (_ & H1 & H2). lia. Qed.

(** The products accumulated modulo T do not wrap around. *)
Lemma product_fits n nb DQ DR T (d b : nat -> poly) : 0 <= DQ -> 0 <= DR -> 5 * (Z.of_nat nb * (Z.of_nat n * (DQ * DR))) <= T ->
  (forall i k, (i < nb)%nat -> (k < n)%nat -> 2 ^ 42 * Z.abs (d i k) <= (2 ^ 42 + 1) * DQ) ->
  (forall i k, (i < nb)%nat -> (k < n)%nat -> 2 ^ 42 * Z.abs (b i k) <= (2 ^ 42 + 1) * DR) ->
  forall k, (k < n)%nat -> 4 * Z.abs (psum nb (fun i => pmul n (d i) (b i)) k) <= T.
Proof.
  intros HD HR HT Hd Hb k Hk.
  set (d' := fun i k => 2 ^ 42 * d i k). set (b' := fun i k => 2 ^ 42 * b i k).
  assert (X : Z.abs (psum nb (fun i => pmul n (d' i) (b' i)) k) <= Z.of_nat nb * (Z.of_nat n * ((2 ^ 42 + 1) * DQ * ((2 ^ 42 + 1) * DR)))).
  { apply (psum_bound n nb _ (fun i => pmul n (d' i) (b' i))); [|exact Hk]. intros i Hi. apply pmul_bound; [lia|lia| |].
    - intros x Hx. unfold d'. rewrite Z.abs_mul. apply Hd; assumption.
    - intros x Hx. unfold b'. rewrite Z.abs_mul. apply Hb; assumption. }
  assert (Y : psum nb (fun i => pmul n (d' i) (b' i)) k = 2 ^ 84 * psum nb (fun i => pmul n (d i) (b i)) k).
  { unfold psum. rewrite <- bigsum_scale. apply bigsum_ext. intros i Hi. unfold pmul. rewrite <- bigsum_scale. apply bigsum_ext. intros x Hx.
    unfold d', b'. change (2 ^ 84) with (2 ^ 42 * 2 ^ 42). destruct (Nat.leb x k); ring. }
  rewrite Y, Z.abs_mul in X. change (Z.abs (2 ^ 84)) with (2 ^ 84) in X.
  set (M := Z.of_nat nb * (Z.of_nat n * (DQ * DR))) in *.
  assert (EM : Z.of_nat nb * (Z.of_nat n * ((2 ^ 42 + 1) * DQ * ((2 ^ 42 + 1) * DR))) = (2 ^ 42 + 1) * (2 ^ 42 + 1) * M) by (unfold M; ring).
  rewrite EM in X. assert (HM : 0 <= M) by (unfold M; repeat apply Z.mul_nonneg_nonneg; lia). clearbody M. set (z := Z.abs _) in *. clearbody z. clear - X HM HT. lia.
Qed.

Lemma sw_prime r q : built_ring 9 r -> In q (moduli r) -> prime q.
Proof. intros Hr Hq. destruct (built_ring_wf 9 r ltac:(lia) Hr) as (L & Hw & _). apply (moduli_prime L r Hw). exact Hq. Qed.

Lemma block_product_pos size i ms : (forall q, In q ms -> 0 < q) -> 0 < product (block_of size i ms).
Proof. intros H. apply (prodZ_pos (block_of size i ms)). intros q Hq. apply H. apply block_in in Hq. exact Hq. Qed.

Lemma block_product_dvd size ms idx : (0 < size)%nat -> (idx < length ms)%nat -> (nth idx ms 0 | product (block_of size (idx / size) ms)).
Proof.
  intros Hs Hi. apply (prodZ_divide _ (block_of size (idx / size) ms)).
  assert (Hdm := Nat.div_mod idx size ltac:(lia)). assert (Hm := Nat.mod_upper_bound idx size ltac:(lia)).
  replace (nth idx ms 0) with (nth (idx mod size) (block_of size (idx / size) ms) 0).
  - apply nth_In. rewrite block_length. set (x := (idx / size)%nat) in *. set (y := (idx mod size)%nat) in *. clearbody x y. nia.
  - rewrite block_nth by exact Hm. f_equal. rewrite Hdm at 3. rewrite Nat.mul_comm. reflexivity.
Qed.

Lemma ceil_div_mono a b c : (0 < c)%nat -> (a <= b)%nat -> (ceil_div a c <= ceil_div b c)%nat.
Proof. intros Hc H. unfold ceil_div. apply Nat.div_le_mono; lia. Qed.

Section Switch.
  Variables (fuel : nat) (N : Z) (Qs Ps Ts : list Z) (gamma : nat) (p : FParams) (ks : KeySwitcher) (conv : list BasisExtender).
  Hypothesis (HS : sizes_ok N Qs Ps Ts gamma) (HF : NewFParams fuel N Qs Ps Ts gamma = Some p).
  Hypothesis (HK : NewKeySwitcher fuel p = Some ks) (HC : NewConvRiT fuel p = Some conv).
  Variables (L : nat).
  Hypothesis (EL : rN (fpQ p) = (2 ^ L)%nat).
  Let n := rN (fpQ p).
  Let alpha := length Ps.
  Let Rs := Ps ++ Qs.
  Let T := fold_right Z.mul 1 Ts.
  Let levelT := (length (rmods (fpT p)) - 1)%nat.
  Let Hp : fp_ok p N Qs Ps Ts gamma := NewFParams_ok fuel N Qs Ps Ts gamma p HS HF.
  Let Hks : ks_ok Qs Ps Ts gamma p ks := NewKeySwitcher_ok fuel N Qs Ps Ts gamma p HS Hp ks HK.

  (** A polynomial of the key of rlwe: rows modulo Q and P in the NTT domain and Montgomery form. *)
  Definition key_poly (k : rows * rows) (b : poly) : Prop :=
    rns_ntt (fpQ p) L (length Qs - 1) canon (fst k) (pscale W b) /\ rns_ntt (fpP p) L (length Ps - 1) canon (snd k) (pscale W b).

  Lemma convert_poly key b polyTs : key_poly key b -> forall j, (j * gamma < length Rs)%nat ->
    exists beta, rns_ntt (fpT p) L levelT canon (nth j (convertPoly conv p (fst key) (snd key) polyTs) []) (pscale W beta) /\
      forall k, (k < n)%nat -> lift_of (product (block_of gamma j Rs)) (b k) (beta k).
  Proof.
    intros [H1 H2] j Hj. destruct (NewConvRiT_ok fuel N Qs Ps Ts gamma p HS Hp conv HC) as (lR & C1 & C2).
    assert (EP : rN (fpP p) = (2 ^ L)%nat) by (rewrite (fk_nP _ _ _ _ _ _ Hp); exact EL).
    pose proof (fk_hQ _ _ _ _ _ _ Hp) as hQ. pose proof (fk_hP _ _ _ _ _ _ Hp) as hP.
    assert (MQ : forall i, (i <= length Qs - 1)%nat -> 5 <= mq (rmod (fpQ p) i) /\ 9 * mq (rmod (fpQ p) i) <= W).
    { intros i Hi. destruct (built_mod 9 (fpQ p) i ltac:(lia) (fk_Q _ _ _ _ _ _ Hp)) as (Q5 & Q9 & _); [|split; assumption].
      rewrite moduli_length, (fk_mQ _ _ _ _ _ _ Hp). clear - Hi hQ. lia. }
    assert (MP : forall i, (i <= length Ps - 1)%nat -> 5 <= mq (rmod (fpP p) i) /\ 9 * mq (rmod (fpP p) i) <= W).
    { intros i Hi. destruct (built_mod 9 (fpP p) i ltac:(lia) (fk_P _ _ _ _ _ _ Hp)) as (Q5 & Q9 & _); [|split; assumption].
      rewrite moduli_length, (fk_mP _ _ _ _ _ _ Hp). clear - Hi hP. lia. }
    assert (B2 : built_ring 2 (fpQ p)) by (apply (built_le 9); [lia|apply (fk_Q _ _ _ _ _ _ Hp)]).
    assert (B2' : built_ring 2 (fpP p)) by (apply (built_le 9); [lia|apply (fk_P _ _ _ _ _ _ Hp)]).
    unfold convertPoly. rewrite (fp_alpha _ _ _ _ _ _ Hp).
    replace (fMaxLevel p) with (length Qs - 1)%nat by (pose proof (fp_maxlevel _ _ _ _ _ _ Hp); lia).
    apply (key_conversion N Qs Ps Ts gamma p HS Hp L EL conv lR); [exact C1|exact C2| | |exact Hj].
    - apply (t_invntt (fpQ p) L B2 EL); [intros i Hi; destruct (MQ i Hi); lia|].
      apply (ntt_weaken (fpQ p) L EL _ canon); [intros i Hi; destruct (MQ i Hi); unfold canon; lia|].
      revert H1. apply (n_invmform (fpQ p) L B2 EL); intros i Hi; destruct (MQ i Hi); unfold canon; lia.
    - apply (t_invntt (fpP p) L B2' EP); [intros i Hi; destruct (MP i Hi); lia|].
      apply (ntt_weaken (fpP p) L EP _ canon); [intros i Hi; destruct (MP i Hi); unfold canon; lia|].
      revert H2. apply (n_invmform (fpP p) L B2' EP); intros i Hi; destruct (MP i Hi); unfold canon; lia.
  Qed.

  (** C35. *)
  Lemma switch_key levelQ a A (key0 key1 : list (rows * rows)) pool0 pool1 poolT1 poolT2 poolT2' poolR poolR' poolQ poolQ' poolP poolP' c0 c1 b0 b1 e s s' DQ DR :
    let nb := ceil_div (levelQ + 1) alpha in
    (levelQ < length Qs)%nat -> rns_repr (fpQ p) levelQ canon a A ->
    (forall i, (i < nb)%nat -> key_poly (nth i key0 ([], [])) (b0 i) /\ key_poly (nth i key1 ([], [])) (b1 i)) ->
    gadget_key n alpha nb Qs Ps b0 b1 e s s' ->
    (forall i, (i < nb)%nat -> product (block_of alpha i (firstn (levelQ + 1) Qs)) <= DQ) ->
    (forall j, (j * gamma < alpha + levelQ + 1)%nat -> product (block_of gamma j Rs) <= DR) ->
    5 * (Z.of_nat nb * (Z.of_nat n * (DQ * DR))) <= product Ts ->
    exists c0' c1' C0 C1 d rho0 rho1 E,
      SwitchKey ks levelQ a false (convertKey conv p key0 pool0) (convertKey conv p key1 pool1)
        poolT1 poolT2 poolT2' poolR poolR' poolQ poolQ' poolP poolP' c0 c1 = Some (c0', c1') /\
      rns_repr (fpQ p) levelQ canon c0' C0 /\ rns_repr (fpQ p) levelQ canon c1' C1 /\
      kept levelQ c0 c0' /\ kept levelQ c1 c1' /\
      (forall i k, (i < nb)%nat -> (k < n)%nat -> lift_of (product (block_of alpha i (firstn (levelQ + 1) Qs))) (A k) (d i k)) /\
      switched n nb levelQ Qs Ps C0 C1 A s s' d e rho0 rho1 E.
  Proof.
    intros nb HlQ HA Hkey Hgk HDQ HDR Hsize.
    pose proof (fk_hQ _ _ _ _ _ _ Hp) as hQ. assert (Ha : (0 < alpha)%nat) by apply (fk_hP _ _ _ _ _ _ Hp).
    assert (Hg : (0 < gamma)%nat) by (exact (proj1 (proj1 (proj2 (proj2 HS))))).
    assert (pQ : forall q, In q Qs -> prime q) by (intros q Hq; apply (sw_prime (fpQ p)); [apply (fk_Q _ _ _ _ _ _ Hp)|rewrite (fk_mQ _ _ _ _ _ _ Hp); exact Hq]).
    assert (pP : forall q, In q Ps -> prime q) by (intros q Hq; apply (sw_prime (fpP p)); [apply (fk_P _ _ _ _ _ _ Hp)|rewrite (fk_mP _ _ _ _ _ _ Hp); exact Hq]).
    assert (posR : forall q, In q Rs -> 0 < q).
    { intros q Hq. unfold Rs in Hq. apply in_app_iff in Hq. assert (Hpr : prime q) by (destruct Hq; auto). apply prime_ge_2 in Hpr. lia. }
    assert (posQ : forall q, In q (firstn (levelQ + 1) Qs) -> 0 < q).
    { intros q Hq. apply posR. unfold Rs. apply in_app_iff. right. apply firstn_in' in Hq. exact Hq. }
    assert (Hnb0 : (0 < nb)%nat) by (apply ceil_div_pos; lia).
    assert (HD0 : 0 <= DQ) by (specialize (HDQ O Hnb0); pose proof (block_product_pos alpha O _ posQ); lia).
    assert (HR0 : 0 <= DR) by (specialize (HDR O ltac:(lia)); pose proof (block_product_pos gamma O _ posR); lia).
    assert (Hnb : (nb <= fBeta p)%nat).
    { unfold fBeta. rewrite (fp_alpha _ _ _ _ _ _ Hp), moduli_length, (fk_mQ _ _ _ _ _ _ Hp). apply ceil_div_mono; [exact Ha|lia]. }
    (* the digits *)
    destruct (finite_choice (pzero) nb (fun i d => rns_ntt (fpT p) L levelT digitB (digitT ks levelQ i a (nth i poolT1 [])) d /\
      forall k, (k < n)%nat -> lift_of (product (block_of alpha i (firstn (levelQ + 1) Qs))) (A k) (d k))) as [d Hd].
    { intros i Hi. apply (digit_spec N Qs Ps Ts gamma p ks HS Hp Hks L EL levelQ HlQ i a A); [|exact HA].
      apply ceil_div_lt in Hi; [exact Hi|exact Ha]. }
    (* the converted keys *)
    assert (CONV : forall (key : list (rows * rows)) pool b, (forall i, (i < nb)%nat -> key_poly (nth i key ([], [])) (b i)) ->
      exists beta, forall i, (i < nb)%nat -> forall j, (j < ceil_div (alpha + levelQ + 1) gamma)%nat ->
        rns_ntt (fpT p) L levelT canon (nth j (nth i (convertKey conv p key pool) []) []) (pscale W (beta i j)) /\
        forall k, (k < n)%nat -> lift_of (product (block_of gamma j Rs)) (b i k) (beta i j k)).
    { intros key pool b Hb. apply (finite_choice (fun _ => pzero) nb (fun i bj => forall j, (j < ceil_div (alpha + levelQ + 1) gamma)%nat ->
        rns_ntt (fpT p) L levelT canon (nth j (nth i (convertKey conv p key pool) []) []) (pscale W (bj j)) /\
        forall k, (k < n)%nat -> lift_of (product (block_of gamma j Rs)) (b i k) (bj j k))).
      intros i Hi. apply (finite_choice pzero (ceil_div (alpha + levelQ + 1) gamma) (fun j bb =>
        rns_ntt (fpT p) L levelT canon (nth j (nth i (convertKey conv p key pool) []) []) (pscale W bb) /\
        forall k, (k < n)%nat -> lift_of (product (block_of gamma j Rs)) (b i k) (bb k))).
      intros j Hj. apply ceil_div_lt in Hj; [|exact Hg].
      unfold convertKey.
      match goal with |- context [nth i (map ?f (seq 0 ?m)) []] => rewrite (nth_map_seq f m i [] ltac:(lia)) end.
      specialize (Hb i Hi). destruct (nth i key ([], [])) as [kQ kP].
      apply (convert_poly (kQ, kP) (b i) (nth i pool []) Hb j). unfold Rs. rewrite app_length. fold alpha. lia. }
    (* one external product *)
    assert (EXT : forall (key : list (rows * rows)) pool b poolT poolR poolQ poolP c, (forall i, (i < nb)%nat -> key_poly (nth i key ([], [])) (b i)) ->
      exists c' D, externalProduct ks levelQ (map (fun j => digitT ks levelQ j a (nth j poolT1 [])) (seq 0 nb)) (convertKey conv p key pool) poolT poolR poolQ poolP c = Some c' /\
        kept levelQ c c' /\ rns_repr (fpQ p) levelQ canon c' D /\
        forall k, (k < n)%nat -> lift_of (product Ps) (psum nb (fun i => pmul n (d i) (b i)) k) (psum nb (fun i => pmul n (d i) (b i)) k - product Ps * D k)).
    { intros key pool b poolT poolR0 poolQ0 poolP0 c Hb. destruct (CONV key pool b Hb) as [beta Hbeta].
      destruct (external_product N Qs Ps Ts gamma p ks HS Hp Hks L EL levelQ HlQ
        (map (fun j => digitT ks levelQ j a (nth j poolT1 [])) (seq 0 nb)) (convertKey conv p key pool) poolT poolR0 poolQ0 poolP0 c digitB d b beta)
        as (c' & D & X1 & X2 & X3 & X4).
      - intros i Hi. destruct (pf_T9 _ _ _ _ _ _ HS Hp L EL i Hi) as [T5 T9]. unfold digitB. assert (W99 : 9 * (W / 9) <= W) by (unfold Z.le; vm_compute; discriminate).
        assert (W98 : 16384 <= W / 9) by (unfold Z.le; vm_compute; discriminate).
        assert (T9' : mq (rmod (fpT p) i) <= W / 9) by (apply Z.div_le_lower_bound; lia).
        clear - T5 T9 T9' W99 W98. lia.
      - intros i Hi. match goal with |- rns_ntt _ _ _ _ ?t _ => replace t with (digitT ks levelQ i a (nth i poolT1 [])) end; [apply (proj1 (Hd i Hi))|]. symmetry. exact (nth_map_seq (fun j => digitT ks levelQ j a (nth j poolT1 [])) nb i [] Hi).
      - intros i j Hi Hj. apply (proj1 (Hbeta i Hi j (proj2 (ceil_div_lt _ _ _ Hg) Hj))).
      - intros i idx Hi Hidx k Hk. assert (Hj : (idx / gamma < ceil_div (alpha + levelQ + 1) gamma)%nat) by (apply ceil_div_idx; assumption).
        apply (lift_dvd (product (block_of gamma (idx / gamma) Rs))); [apply block_product_pos; exact posR| |apply (proj2 (Hbeta i Hi _ Hj)); exact Hk].
        apply block_product_dvd; [exact Hg|]. unfold Rs. rewrite app_length. fold alpha. clear - Hidx HlQ. fold alpha in Hidx. lia.
      - intros j k Hj Hk. assert (Hj' := proj2 (ceil_div_lt _ _ _ Hg) Hj). fold alpha nb in Hj' |- *.
        apply (product_fits n nb DQ DR); [exact HD0|exact HR0|exact Hsize| | |exact Hk].
        + intros i x Hi Hx. apply (lift_bound (product (block_of alpha i (firstn (levelQ + 1) Qs))) (A x)); [apply block_product_pos; exact posQ|apply HDQ; exact Hi|apply (proj2 (Hd i Hi)); exact Hx].
        + intros i x Hi Hx. apply (lift_bound (product (block_of gamma j Rs)) (b i x)); [apply block_product_pos; exact posR|apply HDR; exact Hj|apply (proj2 (Hbeta i Hi j Hj')); exact Hx].
      - exists c', D. split; [exact X1|]. split; [exact X2|]. split; [exact X3|]. intros k Hk. apply (X4 k Hk). }
    destruct (EXT key0 pool0 b0 poolT2 poolR poolQ poolP c0 (fun i Hi => proj1 (Hkey i Hi))) as (c0' & D0 & X1 & X2 & X3 & X4).
    destruct (EXT key1 pool1 b1 poolT2' poolR' poolQ' poolP' c1 (fun i Hi => proj2 (Hkey i Hi))) as (c1' & D1 & Y1 & Y2 & Y3 & Y4).
    destruct (gadget_switch n alpha nb levelQ Qs Ps A s s' d b0 b1 e D0 D1 pzero pzero pP) as (rho0 & rho1 & E & HE).
    - pose proof (fk_nodup _ _ _ _ _ _ Hp) as ND. revert ND. clear. induction Ps as [|x l IH]; intros H; [constructor|]. cbn in H. inversion H; subst.
      constructor; [intros Hx; apply H2; apply in_app_iff; left; exact Hx|apply IH; exact H3].
    - exact pQ.
    - intros q H1 H2. apply (nodup_app_disjoint _ _ q (fk_nodup _ _ _ _ _ _ Hp)); assumption.
    - exact Ha.
    - exact HlQ.
    - apply ceil_div_idx; [exact Ha|lia].
    - intros j Hj k Hk. assert (Hi : (j / alpha < nb)%nat) by (apply ceil_div_idx; [exact Ha|lia]).
      assert (Hlen : length (firstn (levelQ + 1) Qs) = (levelQ + 1)%nat) by (rewrite firstn_length; lia).
      assert (Ej : nth j Qs 0 = nth j (firstn (levelQ + 1) Qs) 0) by (rewrite nth_firstn by lia; reflexivity).
      apply (lift_dvd (product (block_of alpha (j / alpha) (firstn (levelQ + 1) Qs)))); [apply block_product_pos; exact posQ| |apply (proj2 (Hd _ Hi)); exact Hk].
      rewrite Ej. apply block_product_dvd; [exact Ha|lia].
    - exact Hgk.
    - exact X4.
    - exact Y4.
    - exists c0', c1', D0, D1, d, rho0, rho1, E.
      split.
      { unfold SwitchKey. rewrite (kk_p _ _ _ _ _ _ Hks), (fp_alpha _ _ _ _ _ _ Hp). fold alpha nb. rewrite X1, Y1. reflexivity. }
      split; [exact X3|]. split; [exact Y3|]. split; [exact X2|]. split; [exact Y2|]. split; [|exact HE].
      intros i k Hi Hk. apply (proj2 (Hd i Hi)). exact Hk.
  Qed.
End Switch.
