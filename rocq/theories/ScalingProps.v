(** Division by the last modulus. *)
From Verif Require Import Word ModRed Arith ModRedProofs Fermat PolySpec PolyProofs Ring RingProofs NTT NTTProofs RingOps RNSSpec RowProofs OpsProofs CRT BasisExt BasisProps ScalingSpec Scaling.
Open Scope Z_scope.

Lemma nth_map_gen {A B} (f : A -> B) l i d d' : (i < length l)%nat -> nth i (map f l) d' = f (nth i l d).
Proof. intros H. rewrite (nth_indep _ d' (f d)) by (rewrite map_length; exact H). apply map_nth. Qed.

(** ** The stored constant: minus the inverse of the last modulus, in Montgomery form *)
Section Last.
  Variables (L : nat) (r : Ring) (Hw : wf_ring L L r).
  Variables (level i : nat) (Hi : (i < level)%nat) (Hl : (level < length (rmods r))%nat).
  Let q := mq (rmod r i).
  Let ql := mq (rmod r level).

  Lemma last_ndiv : ~ (q | ql).
  Proof.
    pose proof (wf_ring_mod _ _ _ i Hw ltac:(lia)) as Hwi. pose proof (wf_ring_mod _ _ _ level Hw Hl) as Hwl.
    intros D. assert (E : q = ql) by (apply prime_div_prime; [apply (wf_prime _ _ Hwi)|apply (wf_prime _ _ Hwl)|exact D]).
    unfold q, ql in E. rewrite <- !nth_moduli in E by lia.
    pose proof (wfr_distinct _ _ _ Hw) as Hnd. rewrite NoDup_nth in Hnd.
    assert (i = level); [|lia]. apply (Hnd i level); [| |exact E]; unfold moduli; rewrite map_length; lia.
  Qed.

  Lemma rescaleConst_spec : exists c, 0 <= c < q /\ eqm q (c * ql) W /\ rescaleConst r level i = wsub q c.
  Proof.
    pose proof (wf_ring_mod _ _ _ i Hw ltac:(lia)) as Hwi. pose proof (wf_ring_mod _ _ _ level Hw Hl) as Hwl.
    pose proof (wf_ge _ _ Hwi) as G. pose proof (wf_W _ _ Hwi) as G2. pose proof (wf_ge _ _ Hwl) as Gl. pose proof (wf_W _ _ Hwl) as Gl2.
    fold q in G, G2. fold ql in Gl, Gl2. assert (W1 : 1 < W) by reflexivity.
    assert (E : rescaleConst r level i = ((q - (ql ^ (q - 2)) mod q) * W) mod q).
    { unfold rescaleConst. rewrite (wfr_rescale _ _ _ Hw). unfold rescale_params.
      rewrite (nth_map_gen _ _ _ O) by (rewrite seq_length; unfold moduli; rewrite map_length; lia).
      rewrite seq_nth by (unfold moduli; rewrite map_length; lia). replace (1 + (level - 1))%nat with level by lia.
      rewrite (nth_map_gen _ _ _ 0) by (rewrite firstn_length; unfold moduli; rewrite map_length; lia).
      rewrite nth_firstn by lia. rewrite !nth_moduli by lia. fold q ql.
      rewrite ModExp_correct by lia. pose proof (Z.mod_pos_bound (ql ^ (q - 2)) q ltac:(lia)) as B.
      rewrite MForm_correct by lia. reflexivity. }
    set (s := rescaleConst r level i) in *.
    assert (Rs : 0 <= s < q) by (rewrite E; apply Z.mod_pos_bound; lia).
    assert (Es : eqm q (s * ql) (- W)).
    { rewrite E, eqm_mod. transitivity (- (W * (ql * ql ^ (q - 2)))).
      { apply (eqm_trans _ _ ((q - ql ^ (q - 2)) * W * ql)).
        - apply eqm_mul; [|reflexivity]. apply eqm_mul; [|reflexivity]. apply eqm_sub; [reflexivity|]. apply eqm_mod.
        - apply (eqm_intro _ _ _ (W * ql)). ring. }
      rewrite (fermat_inv q ql (wf_prime _ _ Hwi) last_ndiv). apply eqm_eq. ring. }
    assert (Hs : s <> 0).
    { intros Z0. rewrite Z0 in Es.
      assert (E1 : eqm q (1 * W) (0 * W)).
      { transitivity (- (- W)); [apply eqm_eq; ring|]. rewrite <- Es. apply eqm_eq. ring. }
      apply odd_cancel_W in E1; [|lia|apply (wf_odd _ _ Hwi)].
      unfold eqm in E1. rewrite !Z.mod_small in E1 by lia. lia. }
    exists (q - s). split; [lia|]. split.
    - apply (eqm_trans _ _ (- (s * ql))); [apply (eqm_intro _ _ _ ql); ring|]. rewrite Es. apply eqm_eq. ring.
    - unfold wsub. rewrite w64_small by lia. lia.
  Qed.
End Last.

(** ** The inverse transform is within a third of q of being reduced *)
Lemma invnttlazy_tight L m row X : (4 <= L <= 60)%nat -> wf_modp L m -> 6 * mq m <= W -> ntt_repr L m (2 * mq m) row X ->
  length (invnttlazy_row (2 ^ L) m row) = (2 ^ L)%nat /\
  forall k, (k < 2 ^ L)%nat -> let x := nth k (invnttlazy_row (2 ^ L) m row) 0 in
    0 < x /\ 3 * x <= 4 * mq m /\ eqm (mq m) x (X k).
Proof.
  intros HL Hwf H6 HX. pose proof (invnttlazy_row_repr L m ltac:(lia) Hwf row X H6 HX) as HR.
  split; [apply HR|]. intros k Hk x. destruct HR as [Hlen HR]. destruct (HR k Hk) as [_ E]. fold x in E.
  assert (V := inv_value L m ltac:(lia) Hwf row X H6 HX k Hk). destruct V as [Vb _].
  set (core := invNTTCore row (2 ^ L) (mpsiInv m) (mq m) (mqinv m)) in *.
  assert (Ex : x = MRedConstant (nth k core 0) (mninv m) (mq m) (mqinv m)).
  { unfold x, invnttlazy_row, InvNTTLazy, MulScalarMontgomeryConstantVec. fold core.
    rewrite (nth_map_gen _ _ _ 0); [reflexivity|].
    revert Hlen. unfold invnttlazy_row, InvNTTLazy, MulScalarMontgomeryConstantVec. rewrite map_length. fold core. lia. }
  pose proof (wf_ge _ _ Hwf) as G. pose proof (wf_ninv_range L m Hwf) as Hn. pose proof (wf_inv _ _ Hwf) as Hinv.
  assert (W1 : 1 < W) by reflexivity.
  set (y := nth k core 0) in *. set (q := mq m) in *. set (n := mninv m) in *.
  assert (P1 : y * n <= 2 * q * q) by (apply Z.mul_le_mono_nonneg; lia).
  assert (P2 : 2 * q * q * 3 <= q * W) by (replace (2 * q * q * 3) with (q * (6 * q)) by ring; apply Z.mul_le_mono_nonneg_l; lia).
  assert (P3 : y * n < q * W) by (pose proof (Z.mul_pos_pos q W); lia).
  destruct (MRedConstant_spec y n q (mqinv m) ltac:(lia) ltac:(lia) Hinv ltac:(lia) ltac:(lia) P3) as (kk & Hkk & _ & R & S).
  rewrite <- Ex in R, S. split; [lia|]. split; [|exact E].
  assert (S2 : x * W * 3 <= 4 * q * W).
  { rewrite S. assert (0 <= kk * q) by (apply Z.mul_nonneg_nonneg; lia). lia. }
  assert (x * 3 * W <= 4 * q * W) by lia. apply Z.mul_le_mono_pos_r in H; lia.
Qed.

(** ** Floor *)
Lemma wf_bound c r level : 2 <= c -> built_ring c r -> (level < length (rmods r))%nat ->
  exists L, wf_ring L L r /\ forall i, (i <= level)%nat -> wf_modp L (rmod r i) /\ 5 <= mq (rmod r i) /\ c * mq (rmod r i) <= W.
Proof.
  intros Hc HB Hl. destruct (built_ring_wf c r Hc HB) as (L & Hw & HW). exists L. split; [exact Hw|].
  intros i Hi. pose proof (wf_ring_mod _ _ _ i Hw ltac:(lia)) as Hwi. split; [exact Hwi|].
  split; [apply (wf_ge _ _ Hwi)|apply HW; lia].
Qed.

Lemma kept_lvl cnt f old : (0 < cnt)%nat -> kept (cnt - 1) old (lvl cnt f old).
Proof. intros H. split; [rewrite lvl_length; lia|]. intros i Hi. apply lvl_nth_ge. lia. Qed.

Lemma divfloor : forall r, built_ring 3 r -> forall level p0 p1 A, (0 < level)%nat ->
  rns_repr r level canon p0 A ->
  let out := DivFloorByLastModulusLvl r level p0 p1 in
  rns_repr r (level - 1) canon out (fun k => A k / mq (rmod r level)) /\ kept (level - 1) p1 out.
Proof.
  intros r HB level p0 p1 A H0 (Hl & Hp & HA) out.
  destruct (wf_bound 3 r level ltac:(lia) HB Hl) as (L & Hw & HW).
  assert (Hk : kept (level - 1) p1 out) by (apply kept_lvl; exact H0).
  split; [|exact Hk]. split; [lia|]. split; [destruct Hk; lia|].
  intros i Hi. unfold out, DivFloorByLastModulusLvl. rewrite lvl_nth_lt by lia.
  destruct (rescaleConst_spec L r Hw level i ltac:(lia) Hl) as (c & Rc & Ec & ->).
  destruct (HW i ltac:(lia)) as (Hwi & G & G3). destruct (HW level ltac:(lia)) as (Hwl & Gl & Gl3).
  set (ql := mq (rmod r level)) in *.
  assert (Hlast : forall k, (k < rN r)%nat -> nth k (nth level p0 []) 0 = A k mod ql).
  { intros k Hk'. destruct (HA level ltac:(lia)) as [_ H]. destruct (H k Hk') as [R E]. fold ql in R, E. unfold canon in R.
    rewrite <- E. symmetry. apply Z.mod_small. exact R. }
  unfold canon. apply (down_row L _ _ ql _ _ c ql A (fun k => A k mod ql)).
  - exact Hwi.
  - lia.
  - exact Rc.
  - exact Ec.
  - intros k Hk'. apply eqm_eq. pose proof (Z.div_mod (A k) ql ltac:(lia)). lia.
  - unfold prow. split; [apply (HA level); lia|]. intros k Hk'. rewrite (Hlast k Hk').
    split; [apply Z.mod_pos_bound; lia|reflexivity].
  - apply (row_repr_weaken _ _ (mq (rmod r i))); [lia|]. apply HA. lia.
Qed.

(** In the NTT domain the last row is only lazily reduced, so the quotient can be one too small. *)
Lemma divfloor_ntt : forall r, built_ring 8 r -> forall L, rN r = (2 ^ L)%nat -> forall level p0 p1 A, (0 < level)%nat ->
  rns_ntt r L level (fun q => 2 * q) p0 A ->
  let out := DivFloorByLastModulusNTTLvl r level p0 p1 in
  let ql := mq (rmod r level) in
  exists D, rns_ntt r L (level - 1) canon out D /\ kept (level - 1) p1 out /\
    forall k, (k < rN r)%nat ->
      (D k = A k / ql \/ D k = A k / ql - 1 /\ 3 * (A k mod ql) <= ql) /\
      (A k mod ql = 0 -> D k = A k / ql - 1).
Proof.
  intros r HB L EL level p0 p1 A H0 (Hl & Hp & HA) out ql.
  destruct (wf_bound 8 r level ltac:(lia) HB Hl) as (L' & Hw & HW).
  assert (L' = L) by (rewrite (wfr_N _ _ _ Hw) in EL; apply Nat.pow_inj_r in EL; lia). subst L'.
  assert (HL := wfr_logN _ _ _ Hw).
  assert (Hk : kept (level - 1) p1 out) by (apply kept_lvl; exact H0).
  destruct (HW level ltac:(lia)) as (Hwl & Gl & Gl8). fold ql in Gl, Gl8.
  destruct (invnttlazy_tight L _ _ A HL Hwl ltac:(fold ql; lia) (HA level ltac:(lia))) as [Hlen HX].
  set (pool := invnttlazy_row (2 ^ L) (rmod r level) (nth level p0 [])) in *. fold ql in HX.
  set (x := fun k => nth k pool 0).
  assert (HD : forall k, (k < 2 ^ L)%nat -> A k - x k = ql * ((A k - x k) / ql)).
  { intros k Hk'. destruct (HX k Hk') as (_ & _ & E). apply Z_div_exact_full_2; [lia|].
    apply eqm_elim in E; [|lia]. destruct E as [n En]. unfold x. cbv zeta in En. rewrite En.
    replace (A k - (A k + n * ql)) with ((- n) * ql) by ring. apply Z.mod_mul. lia. }
  exists (fun k => (A k - x k) / ql). split; [|split; [exact Hk|]].
  - split; [lia|]. split; [destruct Hk; lia|].
    intros i Hi. unfold out, DivFloorByLastModulusNTTLvl. rewrite lvl_nth_lt by lia. rewrite EL. unfold prow. fold pool.
    destruct (rescaleConst_spec L r Hw level i ltac:(lia) Hl) as (c & Rc & Ec & ->).
    destruct (HW i ltac:(lia)) as (Hwi & G & G8).
    set (B := Z.max (4 * mq (rmod r i)) (2 * ql)).
    apply (down_row L _ _ (B + 2 * mq (rmod r i)) _ _ c ql (values (rmod r i) L A) (values (rmod r i) L x)).
    + exact Hwi.
    + unfold B; lia.
    + exact Rc.
    + exact Ec.
    + intros k Hk'. rewrite <- values_sub, <- values_scale. apply values_peq.
      intros u Hu. apply eqm_eq. unfold psub, pscale. apply HD. exact Hu.
    + apply (nttlazy_row_repr L _ ltac:(lia) Hwi); [unfold B; lia|unfold B; lia|].
      split; [exact Hlen|]. intros k Hk'. destruct (HX k Hk') as (X1 & X2 & _). split; [|reflexivity]. unfold B. lia.
    + apply HA. lia.
  - intros k Hk'. rewrite EL in Hk'. destruct (HX k Hk') as (X1 & X2 & E). cbv zeta in X1, X2, E. fold (x k) in X1, X2, E.
    specialize (HD k Hk'). set (d := (A k - x k) / ql) in *.
    assert (Ed : A k = ql * d + x k) by lia.
    pose proof (Z.div_mod (A k) ql ltac:(lia)) as DM. pose proof (Z.mod_pos_bound (A k) ql ltac:(lia)) as MB.
    set (f := A k / ql) in *. set (m := A k mod ql) in *.
    assert (C : d = f /\ x k = m \/ d = f - 1 /\ x k = m + ql).
    { destruct (Z.lt_ge_cases (x k) ql).
      - left. assert (d = f) by (revert Ed DM MB X1 H Gl; clear; intros; nia). split; [assumption|]. subst d. lia.
      - right. assert (d = f - 1) by (revert Ed DM MB X2 H Gl; clear; intros; nia). split; [assumption|].
        replace d with (f - 1) in Ed by lia. lia. }
    destruct C as [[C1 C2] | [C1 C2]]; split; try lia.
Qed.

(** ** Rounding *)
Lemma pHalf_val L r level : wf_ring L L r -> (level < length (rmods r))%nat ->
  2 * pHalf r level + 1 = mq (rmod r level) /\ 2 <= pHalf r level.
Proof.
  intros Hw Hl. pose proof (wf_ring_mod _ _ _ level Hw Hl) as Hwl. pose proof (wf_ge _ _ Hwl). pose proof (wf_W _ _ Hwl).
  unfold pHalf, wshr, wsub. rewrite w64_small by lia. change (2 ^ 1) with 2.
  pose proof (wf_odd _ _ Hwl) as O. apply Z.odd_spec in O. destruct O as [n E].
  replace (mq (rmod r level) - 1) with (n * 2) by lia. rewrite Z.div_mul; lia.
Qed.

Lemma nearest_half q h a : 2 * h + 1 = q -> 0 < q -> nearest q a = (a + h) / q.
Proof.
  intros E Hq. unfold nearest.
  symmetry. apply (Z.div_unique_pos (2 * a + q) (2 * q) ((a + h) / q) (2 * ((a + h) mod q) + 1)).
  - pose proof (Z.mod_pos_bound (a + h) q Hq). lia.
  - pose proof (Z.div_mod (a + h) q ltac:(lia)). lia.
Qed.

Lemma nearest_spec q a : 0 < q -> Z.odd q = true -> 2 * Z.abs (a - q * nearest q a) < q.
Proof.
  intros Hq Ho. apply Z.odd_spec in Ho. destruct Ho as [h E]. rewrite (nearest_half q h) by lia.
  pose proof (Z.div_mod (a + h) q ltac:(lia)). pose proof (Z.mod_pos_bound (a + h) q Hq). lia.
Qed.

(** The centred last row. *)
Lemma centre_word q h x : 5 <= q -> 2 * q <= W -> 2 * h + 1 = q -> 0 <= x -> 3 * x <= 4 * q ->
  CRed (wadd x h) q = (x + h) mod q.
Proof.
  intros H5 HW E Hx Hb. assert (W1 : 1 < W) by reflexivity. unfold wadd. rewrite w64_small by lia.
  apply CRed_correct; lia.
Qed.

(** [c_i] = q_i - (pHalf mod q_i). *)
Lemma halfneg_spec L r level i : wf_ring L L r -> (level < length (rmods r))%nat -> (i < length (rmods r))%nat ->
  let m := rmod r i in let s := wsub (mq m) (BRedAdd (pHalf r level) (mq m) (mbred m)) in
  0 < s <= mq m /\ eqm (mq m) s (- pHalf r level).
Proof.
  intros Hw Hl Hi m s. destruct (pHalf_val L r level Hw Hl) as [P1 P2].
  pose proof (wf_ring_mod _ _ _ level Hw Hl) as Hwl. pose proof (wf_W _ _ Hwl).
  pose proof (wf_ring_mod _ _ _ i Hw Hi) as Hwi. pose proof (wf_ge _ _ Hwi) as G. pose proof (wf_W _ _ Hwi) as G2. fold m in Hwi, G, G2.
  unfold s. rewrite (wf_bred _ _ Hwi). rewrite BRedAdd_correct by lia.
  pose proof (Z.mod_pos_bound (pHalf r level) (mq m) ltac:(lia)) as B.
  unfold wsub. rewrite w64_small by lia. split; [lia|].
  transitivity (mq m - pHalf r level).
  - apply eqm_sub; [reflexivity|apply eqm_mod].
  - apply (eqm_intro _ _ _ 1). ring.
Qed.

Lemma divround_ntt : forall r, built_ring 8 r -> forall L, rN r = (2 ^ L)%nat -> forall level p0 p1 A, (0 < level)%nat ->
  rns_ntt r L level (fun q => 2 * q) p0 A ->
  let out := DivRoundByLastModulusNTTLvl r level p0 p1 in
  rns_ntt r L (level - 1) canon out (fun k => nearest (mq (rmod r level)) (A k)) /\ kept (level - 1) p1 out.
Proof.
  intros r HB L EL level p0 p1 A H0 (Hl & Hp & HA) out.
  destruct (wf_bound 8 r level ltac:(lia) HB Hl) as (L' & Hw & HW).
  assert (L' = L) by (rewrite (wfr_N _ _ _ Hw) in EL; apply Nat.pow_inj_r in EL; lia). subst L'.
  assert (HL := wfr_logN _ _ _ Hw).
  assert (Hk : kept (level - 1) p1 out) by (apply kept_lvl; exact H0).
  split; [|exact Hk]. set (ql := mq (rmod r level)).
  destruct (HW level ltac:(lia)) as (Hwl & Gl & Gl8). fold ql in Gl, Gl8.
  destruct (pHalf_val L r level Hw Hl) as [P1 P2]. fold ql in P1. set (h := pHalf r level) in *.
  destruct (invnttlazy_tight L _ _ A HL Hwl ltac:(fold ql; lia) (HA level ltac:(lia))) as [Hlen HX].
  set (pool := invnttlazy_row (2 ^ L) (rmod r level) (nth level p0 [])) in *. fold ql in HX.
  set (w := fun k => (A k + h) mod ql).
  set (poolL := map (fun x => CRed (wadd x h) ql) pool).
  assert (HP : length poolL = (2 ^ L)%nat /\ forall k, (k < 2 ^ L)%nat -> nth k poolL 0 = w k).
  { unfold poolL. split; [rewrite map_length; exact Hlen|]. intros k Hk'.
    rewrite (nth_map_gen _ _ _ 0) by lia.
    destruct (HX k Hk') as (X1 & X2 & E). rewrite centre_word by lia. unfold w.
    change (eqm ql (nth k pool 0 + h) (A k + h)). apply eqm_add; [exact E|reflexivity]. }
  split; [lia|]. split; [destruct Hk; lia|].
  intros i Hi. unfold out, DivRoundByLastModulusNTTLvl. rewrite lvl_nth_lt by lia. rewrite EL. unfold prow. fold h pool. fold ql. fold poolL.
  destruct (rescaleConst_spec L r Hw level i ltac:(lia) Hl) as (c & Rc & Ec & ->).
  destruct (halfneg_spec L r level i Hw Hl ltac:(lia)) as [S1 S2]. cbv zeta in S1, S2. fold h in S1, S2.
  set (s := wsub (mq (rmod r i)) (BRedAdd h (mq (rmod r i)) (mbred (rmod r i)))) in *.
  destruct (HW i ltac:(lia)) as (Hwi & G & G8).
  set (B := Z.max (4 * mq (rmod r i)) (2 * ql + mq (rmod r i))).
  apply (down_row L _ _ (B + 2 * mq (rmod r i)) _ _ c ql (values (rmod r i) L A) (values (rmod r i) L (fun k => w k - h))).
  - exact Hwi.
  - unfold B; lia.
  - exact Rc.
  - exact Ec.
  - intros k Hk'. rewrite <- values_sub, <- values_scale. apply values_peq.
    intros u Hu. apply eqm_eq. unfold psub, pscale. rewrite (nearest_half ql h) by lia. unfold w.
    pose proof (Z.div_mod (A u + h) ql ltac:(lia)). lia.
  - apply (nttlazy_row_repr L _ ltac:(lia) Hwi); [unfold B; lia|unfold B; lia|].
    destruct HP as [HP1 HP2]. apply (row_map _ _ ql _ _ _ w).
    + intros k x Hk' Hx Ex. unfold wadd. rewrite w64_small by lia. split; [unfold B; lia|].
      transitivity (w k + - h); [|apply eqm_eq; ring]. apply eqm_add; [exact Ex|exact S2].
    + split; [exact HP1|]. intros k Hk'. rewrite (HP2 k Hk'). split; [apply Z.mod_pos_bound; lia|reflexivity].
  - apply HA. lia.
Qed.

(** The coefficient version. *)
Lemma round_input_spec r level p0 A L : wf_ring L L r -> (forall i, (i <= level)%nat -> 4 * mq (rmod r i) <= W) ->
  rns_repr r level canon p0 A ->
  let h := pHalf r level in let ql := mq (rmod r level) in let p := round_input r level p0 in
  (level < length p)%nat /\ (length p = length p0) /\ (forall i, (level < i)%nat -> nth i p [] = nth i p0 []) /\
  (length (nth level p []) = rN r /\ forall k, (k < rN r)%nat -> nth k (nth level p []) 0 = (A k + h) mod ql) /\
  forall i, (i < level)%nat -> row_repr (rN r) (mq (rmod r i)) (3 * mq (rmod r i) + 1) (nth i p []) (fun k => - h - A k).
Proof.
  intros Hw HW (Hl & Hp & HA) h ql p. assert (W1 : 1 < W) by reflexivity.
  destruct (pHalf_val L r level Hw Hl) as [P1 P2]. fold ql in P1. fold h in P1, P2.
  pose proof (wf_ring_mod _ _ _ level Hw Hl) as Hwl. pose proof (wf_ge _ _ Hwl) as Gl. fold ql in Gl.
  pose proof (HW level ltac:(lia)) as Gl4. fold ql in Gl4.
  assert (Hlen : length p = length p0) by (unfold p, round_input; rewrite lvl_length; lia).
  split; [lia|]. split; [exact Hlen|]. split; [|split].
  - intros i Hi. unfold p, round_input. apply lvl_nth_ge. lia.
  - destruct (HA level ltac:(lia)) as [Hlen' H]. fold ql in H. unfold canon in H.
    unfold p, round_input. rewrite lvl_nth_lt by lia. rewrite Nat.eqb_refl. unfold prow. fold h. cbv zeta. fold ql.
    split; [rewrite map_length; exact Hlen'|]. intros k Hk.
    rewrite (nth_map_gen _ _ _ 0) by lia.
    destruct (H k Hk) as [R E]. rewrite centre_word by lia.
    change (eqm ql (nth k (nth level p0 []) 0 + h) (A k + h)). apply eqm_add; [exact E|reflexivity].
  - intros i Hi. unfold p, round_input. rewrite lvl_nth_lt by lia. cbv zeta. fold h.
    assert (Hne : Nat.eqb i level = false) by (apply Nat.eqb_neq; lia). rewrite Hne. unfold prow.
    destruct (halfneg_spec L r level i Hw Hl ltac:(lia)) as [S1 S2]. cbv zeta in S1, S2. fold h in S1, S2.
    set (s := wsub (mq (rmod r i)) (BRedAdd h (mq (rmod r i)) (mbred (rmod r i)))) in *.
    pose proof (HW i ltac:(lia)) as G4. pose proof (wf_ge _ _ (wf_ring_mod _ _ _ i Hw ltac:(lia))) as G.
    apply (row_map _ _ (mq (rmod r i)) _ _ _ A); [|apply HA; lia].
    intros k x Hk Hx Ex. assert (E1 : wshl (mq (rmod r i)) 1 = 2 * mq (rmod r i)).
    { unfold wshl. change (2 ^ 1) with 2. rewrite w64_small by lia. lia. }
    rewrite E1. assert (E2 : wsub (wadd s (2 * mq (rmod r i))) x = s + 2 * mq (rmod r i) - x).
    { unfold wsub, wadd. rewrite (w64_small (s + _)) by lia. apply w64_small. lia. }
    rewrite E2. split; [lia|]. transitivity (- h + 0 - A k); [|apply eqm_eq; ring].
    apply eqm_sub; [|exact Ex]. apply eqm_add; [exact S2|]. apply (eqm_intro _ _ _ 2). ring.
Qed.

Lemma round_row L r level i N x y A h : wf_ring L L r -> (i < level)%nat -> (level < length (rmods r))%nat ->
  2 * h + 1 = mq (rmod r level) -> 3 * mq (rmod r i) + 1 + mq (rmod r level) <= W ->
  (length x = N /\ forall k, (k < N)%nat -> nth k x 0 = (A k + h) mod mq (rmod r level)) ->
  row_repr N (mq (rmod r i)) (3 * mq (rmod r i) + 1) y (fun k => - h - A k) ->
  row_repr N (mq (rmod r i)) (mq (rmod r i))
    (map2 (fun x y => MRed (wadd x y) (rescaleConst r level i) (mq (rmod r i)) (mqinv (rmod r i))) x y)
    (fun k => nearest (mq (rmod r level)) (A k)).
Proof.
  intros Hw Hi Hl Eh HW [Lx Hx] Hy.
  destruct (rescaleConst_spec L r Hw level i Hi Hl) as (c & Rc & Ec & ->).
  pose proof (wf_ring_mod _ _ _ i Hw ltac:(lia)) as Hwi. pose proof (wf_ring_mod _ _ _ level Hw Hl) as Hwl.
  pose proof (wf_ge _ _ Hwi) as G. pose proof (wf_W _ _ Hwi) as G2. pose proof (wf_ge _ _ Hwl) as Gl.
  set (q := mq (rmod r i)) in *. set (ql := mq (rmod r level)) in *. assert (W1 : 1 < W) by reflexivity.
  apply (row_map2 _ _ ql (3 * q + 1) _ _ _ _ (fun k => (A k + h) mod ql) (fun k => - h - A k)); [| |exact Hy].
  2: { split; [exact Lx|]. intros k Hk. rewrite (Hx k Hk). split; [apply Z.mod_pos_bound; lia|reflexivity]. }
  intros k a b Hk Ha Hb Ea Eb. unfold wadd. rewrite w64_small by lia.
  assert (E3 : wsub q c = q - c) by (apply w64_small; lia). rewrite E3.
  pose proof (wf_inv _ _ Hwi) as Hinv. fold q in Hinv.
  assert (HP : (a + b) * (q - c) < q * W).
  { assert (H : 0 <= a + b < W) by lia. assert (H' : 0 < q - c <= q) by lia. revert H H' W1. clear. nia. }
  split; [apply MRed_range; try assumption; lia|].
  apply odd_cancel_W; [lia|apply (wf_odd _ _ Hwi)|].
  rewrite MRed_eqm; try assumption; try lia.
  set (d := nearest ql (A k)). assert (Ed : (A k + h) mod ql - h - A k = - (ql * d)).
  { unfold d. rewrite (nearest_half ql h) by lia. pose proof (Z.div_mod (A k + h) ql ltac:(lia)). lia. }
  transitivity (((A k + h) mod ql + (- h - A k)) * (0 - c)).
  { apply eqm_mul; [apply eqm_add; assumption|]. apply eqm_sub; [|reflexivity]. apply (eqm_intro _ _ _ 1). ring. }
  replace ((A k + h) mod ql + (- h - A k)) with (- (ql * d)) by lia.
  transitivity (d * (c * ql)); [apply eqm_eq; ring|]. rewrite Ec. reflexivity.
Qed.

Lemma divround : forall r, built_ring 5 r -> forall level p0 p1 A, (0 < level)%nat ->
  rns_repr r level canon p0 A ->
  let out := snd (DivRoundByLastModulusLvl r level p0 p1) in
  rns_repr r (level - 1) canon out (fun k => nearest (mq (rmod r level)) (A k)) /\ kept (level - 1) p1 out.
Proof.
  intros r HB level p0 p1 A H0 HA out. assert (Hl := proj1 HA).
  destruct (wf_bound 5 r level ltac:(lia) HB Hl) as (L & Hw & HW).
  destruct (round_input_spec r level p0 A L Hw ltac:(intros i Hi; destruct (HW i Hi); lia) HA) as (I1 & I2 & I3 & I4 & I5).
  destruct (pHalf_val L r level Hw Hl) as [P1 P2].
  assert (Hk : kept (level - 1) p1 out) by (apply kept_lvl; exact H0).
  split; [|exact Hk]. split; [lia|]. split; [destruct Hk; lia|].
  intros i Hi. unfold out, DivRoundByLastModulusLvl, canon. cbv zeta. cbn [snd]. rewrite lvl_nth_lt by lia.
  apply (round_row L r level i _ _ _ A (pHalf r level)); try assumption; try lia.
  - destruct (HW i ltac:(lia)) as (_ & ? & ?), (HW level ltac:(lia)) as (_ & ? & ?). lia.
  - apply I5. lia.
Qed.

Lemma divround_inplace : forall r, built_ring 5 r -> forall level p A, (0 < level)%nat ->
  rns_repr r level canon p A ->
  rns_repr r (level - 1) canon (DivRoundByLastModulusLvl_inplace r level p) (fun k => nearest (mq (rmod r level)) (A k)).
Proof.
  intros r HB level p A H0 HA. assert (Hl := proj1 HA).
  destruct (wf_bound 5 r level ltac:(lia) HB Hl) as (L & Hw & HW).
  destruct (round_input_spec r level p A L Hw ltac:(intros i Hi; destruct (HW i Hi); lia) HA) as (I1 & I2 & I3 & I4 & I5).
  destruct (pHalf_val L r level Hw Hl) as [P1 P2].
  split; [lia|]. split; [unfold DivRoundByLastModulusLvl_inplace; cbv zeta; rewrite lvl_length; lia|].
  intros i Hi. unfold DivRoundByLastModulusLvl_inplace, canon. cbv zeta. rewrite lvl_nth_lt by lia.
  apply (round_row L r level i _ _ _ A (pHalf r level)); try assumption; try lia.
  - destruct (HW i ltac:(lia)) as (_ & ? & ?), (HW level ltac:(lia)) as (_ & ? & ?). lia.
  - apply I5. lia.
Qed.
