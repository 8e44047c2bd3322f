(** Encoding and decoding of coefficients. *)
From Coq Require Import ZArith Reals Lra Lia List.
From Flocq Require Import Core.Core IEEE754.BinarySingleNaN.
From Verif Require Import Word ModRed Arith PolySpec PolyProofs Ring RingProofs NTT NTTProofs RingOps RNSSpec Repr RowProofs OpsProofs CRT Scaling ScalingMore Float64 FloatProofs
  Rlwe RlweSpec Ckks CkksSpec CkksFloat Encoder EncSpec EncFloat EncNtt.
Import ListNotations.
Open Scope Z_scope.

Lemma built_2 r : built_ring 8 r -> built_ring 2 r.
Proof.
  intros (f & N & ms & E1 & E2 & E3). exists f, N, ms. split; [exact E1|]. split; [exact E2|]. intros q Hq. specialize (E3 q Hq).
  assert (0 < W) by reflexivity. lia.
Qed.
Lemma built_8 r : built_ring 8 r -> forall i, (i < length (rmods r))%nat -> 5 <= mq (rmod r i) /\ 8 * mq (rmod r i) < W.
Proof.
  intros Hr i Hi. destruct (built_ring_wf 8 r ltac:(lia) Hr) as (L' & Hw & H8). pose proof (wf_ring_mod _ _ _ i Hw Hi) as M.
  split; [apply (wf_ge _ _ M)|]. specialize (H8 i Hi). assert (O := wf_odd _ _ M).
  destruct (Z.eq_dec (8 * mq (rmod r i)) W) as [E|E]; [|lia]. exfalso. assert (E' : mq (rmod r i) = 2 ^ 61) by (change W with (8 * 2 ^ 61) in E; lia).
  rewrite E' in O. discriminate O.
Qed.
Lemma word_bound_ok r : built_ring 8 r -> forall i, (i < length (rmods r))%nat -> word_bound (mq (rmod r i)) + 4 * mq (rmod r i) <= W.
Proof.
  intros Hr i Hi. destruct (built_8 r Hr i Hi). unfold word_bound. change W with (8 * 2 ^ 61) in *. assert (0 < 2 ^ 61) by reflexivity. lia.
Qed.

Lemma set_prefix_length new old : (length new <= length old)%nat -> length (set_prefix new old) = length old.
Proof. intros H. unfold set_prefix. rewrite app_length, skipn_length. lia. Qed.
Lemma set_prefix_nth new old k : (length new <= length old)%nat ->
  nth k (set_prefix new old) 0 = if Nat.ltb k (length new) then nth k new 0 else nth k old 0.
Proof.
  intros H. unfold set_prefix. destruct (Nat.ltb_spec k (length new)); [apply app_nth1; assumption|].
  rewrite app_nth2 by assumption. rewrite nth_skipn_Z. f_equal. lia.
Qed.
Lemma nth_map_f (f : float64 -> Z) l k d : (k < length l)%nat -> nth k (map f l) 0 = f (nth k l d).
Proof. intros. rewrite (nth_indep _ 0 (f d)) by (rewrite map_length; lia). apply map_nth. Qed.

(** ** Writing *)
Section Write.
  Variables (r : Ring) (L level : nat) (vals : list float64) (s : float64) (p : rows).
  Hypothesis (Hr : built_ring 8 r) (EL : rN r = (2 ^ L)%nat) (Hl : (level < length (rmods r))%nat) (Hp : (level < length p)%nat).
  Hypothesis (Hrow : forall i, (i <= level)%nat -> length (nth i p []) = rN r) (HN : (length vals <= rN r)%nat).
  Hypothesis (Fs : is_finite s = true) (Ps : (0 <= B2R s)%R) (HE : forall x, In x vals -> encodable x s).
  Let out := floatToFixedPointCRT r level vals s p.
  Let X := fun k => fixed_int (nth k vals f64_zero) s.

  Lemma fixed_rows i : (i <= level)%nat -> length (nth i out []) = rN r /\
    (forall k, (k < length vals)%nat -> 0 <= nth k (nth i out []) 0 < word_bound (mq (rmod r i)) /\ eqm (mq (rmod r i)) (nth k (nth i out []) 0) (X k)) /\
    (forall k, (length vals <= k)%nat -> nth k (nth i out []) 0 = nth k (nth i p []) 0).
  Proof.
    intros Hi. unfold out, floatToFixedPointCRT. rewrite lvl_nth_lt by lia. unfold prow.
    assert (E : (length (map (fun x => fixed_word x s (rmod r i)) vals) <= length (nth i p []))%nat) by (rewrite map_length, Hrow by exact Hi; exact HN).
    split; [rewrite set_prefix_length by exact E; apply Hrow; exact Hi|]. rewrite map_length in E. split; intros k Hk; rewrite set_prefix_nth by (rewrite map_length; exact E); rewrite map_length.
    - rewrite (proj2 (Nat.ltb_lt _ _) Hk). rewrite (nth_map_f _ _ _ f64_zero) by exact Hk.
      apply (fixed_word_ok L); [apply (built_wf r L (built_2 r Hr) EL); lia|exact Fs|exact Ps|apply HE; apply nth_In; exact Hk].
    - rewrite (proj2 (Nat.ltb_ge _ _) Hk). reflexivity.
  Qed.
  Lemma fixed_prefix : prefix_repr r (length vals) level word_bound out X.
  Proof.
    split; [exact Hl|]. split; [unfold out, floatToFixedPointCRT; rewrite lvl_length; lia|]. intros i Hi. destruct (fixed_rows i Hi) as (F1 & F2 & _).
    split; [exact F1|]. split; [rewrite firstn_length, F1; lia|]. intros k Hk. rewrite nth_firstn_Z by exact Hk. apply F2. exact Hk.
  Qed.
  Lemma fixed_accurate k : (k < length vals)%nat -> near_product (nth k vals f64_zero) s (X k).
  Proof.
    intros Hk. destruct (HE (nth k vals f64_zero) (nth_In _ _ Hk)) as (E1 & E2 & _). apply fixed_accuracy; try assumption.
  Qed.
  (** With zeros beyond the values. *)
  Lemma fixed_full : (forall i k, (i <= level)%nat -> (length vals <= k < rN r)%nat -> nth k (nth i p []) 0 = 0) ->
    rns_repr r level word_bound out (fun k => if Nat.ltb k (length vals) then X k else 0).
  Proof.
    intros H0. split; [exact Hl|]. split; [unfold out, floatToFixedPointCRT; rewrite lvl_length; lia|]. intros i Hi. destruct (fixed_rows i Hi) as (F1 & F2 & F3).
    split; [exact F1|]. intros k Hk. destruct (Nat.ltb_spec k (length vals)) as [H|H]; [apply F2; exact H|].
    rewrite F3 by exact H. rewrite H0 by (try exact Hi; split; assumption). split; [|reflexivity]. unfold word_bound. assert (0 < 2 ^ 61) by reflexivity. lia.
  Qed.
End Write.

Lemma encode_coeffs r L level vals pt : built_ring 8 r -> rN r = (2 ^ L)%nat -> pt_shape r level pt -> scale_ok (ptScale pt) ->
  (length vals <= rN r)%nat -> (forall x, In x vals -> encodable x (ptScale pt)) ->
  (forall i k, (i <= level)%nat -> (length vals <= k < rN r)%nat -> coeff (ptV pt) i k = 0) ->
  exists pt' M, EncodeCoeffs r vals pt = Some pt' /\ ptNTT pt' = true /\ ptScale pt' = ptScale pt /\ pt_shape r level pt' /\
    rns_ntt r L level canon (ptV pt') M /\
    (forall k, (k < length vals)%nat -> near_product (nth k vals f64_zero) (ptScale pt) (M k)) /\ (forall k, (length vals <= k)%nat -> M k = 0).
Proof.
  intros Hr EL (S1 & S2 & S3) [Fs Ps] HN HE H0. unfold EncodeCoeffs. rewrite (proj2 (Nat.ltb_ge _ _) HN).
  assert (LV : ptLevel pt = level) by (unfold ptLevel; lia). rewrite LV. eexists. exists (fun k => if Nat.ltb k (length vals) then fixed_int (nth k vals f64_zero) (ptScale pt) else 0).
  split; [reflexivity|]. cbn [ptNTT ptScale ptV].
  assert (F := fixed_full r L level vals (ptScale pt) (ptV pt) Hr EL S1 ltac:(lia) S3 HN Fs (Rlt_le _ _ Ps) HE H0).
  assert (T := t_ntt r L (built_2 r Hr) EL level word_bound (floatToFixedPointCRT r level vals (ptScale pt) (ptV pt)) (floatToFixedPointCRT r level vals (ptScale pt) (ptV pt))
    _ ltac:(intros i Hi; split; [apply (word_bound_ok r Hr); lia|destruct (built_8 r Hr i ltac:(lia)); lia]) F).
  split; [reflexivity|]. split; [reflexivity|]. split.
  { split; [exact S1|]. cbn [ptV]. split; [unfold NTTLvl, floatToFixedPointCRT; rewrite !lvl_length; lia|]. intros i Hi. destruct T as (_ & _ & T). destruct (T i Hi) as [T' _]. rewrite T'. symmetry. exact EL. }
  split; [exact T|]. split.
  - intros k Hk. rewrite (proj2 (Nat.ltb_lt _ _) Hk). apply fixed_accurate; try assumption. apply Rlt_le. exact Ps.
  - intros k Hk. rewrite (proj2 (Nat.ltb_ge _ _) Hk). reflexivity.
Qed.

Lemma coeff_zero N cnt i k : coeff (zero_rows N cnt) i k = 0.
Proof.
  unfold coeff, zero_rows. destruct (Nat.lt_ge_cases i cnt) as [H|H].
  - rewrite (nth_indep _ [] (repeat 0 N)) by (rewrite repeat_length; exact H). rewrite nth_repeat. apply nth_repeat.
  - rewrite (nth_overflow (repeat (repeat 0 N) cnt)) by (rewrite repeat_length; exact H). destruct k; reflexivity.
Qed.
Lemma new_shape r level s : (level < length (rmods r))%nat -> pt_shape r level (NewPlaintext r level s).
Proof.
  intros H. split; [exact H|]. unfold NewPlaintext, zero_rows. cbn [ptV]. split; [apply repeat_length|]. intros i Hi.
  rewrite (nth_indep _ [] (repeat 0 (rN r))) by (rewrite repeat_length; lia). rewrite nth_repeat. apply repeat_length.
Qed.

(** ** Reading *)
Lemma pt_level r level pt : pt_shape r level pt -> ptLevel pt = level.
Proof. intros (_ & S2 & _). unfold ptLevel. lia. Qed.
  Lemma shift_half Q : Z.odd Q = true -> exists h, Q = 2 * h + 1 /\ Z.shiftr Q 1 = h.
  Proof.
    intros O. apply Z.odd_spec in O. destruct O as [h Eh]. exists h. split; [exact Eh|].
    rewrite Z.shiftr_div_pow2 by lia. change (2 ^ 1) with 2. rewrite Eh. replace (2 * h + 1) with (1 + h * 2) by ring. rewrite Z.div_add by lia. reflexivity.
  Qed.
  Lemma centred_spec Q c a : 0 < Q -> Z.odd Q = true -> eqm Q c a -> - Q < 2 * a < Q - 1 -> centred Q c = a.
  Proof.
    intros HQ O E R. destruct (shift_half Q O) as (h & Eh & Es). unfold centred. cbv zeta. rewrite Es.
    assert (E' : c mod Q = a mod Q) by exact E. rewrite E'. clear E E' Es.
    destruct (Z.lt_ge_cases a 0) as [N|N].
    - replace (a mod Q) with (a + Q); [destruct (Z.leb_spec h (a + Q)); lia|]. apply (Z.mod_unique_pos _ _ (-1)); lia.
    - rewrite Z.mod_small by lia. destruct (Z.leb_spec h a); lia.
  Qed.
Section Read.
  Variables (r : Ring) (L level : nat) (pt : Pt) (pool : rows) (M : poly).
  Hypothesis (Hr : built_ring 8 r) (EL : rN r = (2 ^ L)%nat) (Sh : pt_shape r level pt) (Pl : pool_shape r pool).
  Hypothesis HM : rns_dom r L level (ptNTT pt) (ptV pt) M.
  Let p := to_pool r pt pool.

  Lemma pool_repr : rns_repr r level canon p M /\ length p = length (rmods r).
  Proof.
    destruct Sh as (S1 & S2 & S3). unfold p, to_pool. rewrite (pt_level r level pt Sh). unfold pool_shape in Pl. unfold rns_dom in HM. destruct (ptNTT pt).
    - split; [|unfold InvNTTLvl; rewrite lvl_length; lia]. apply (t_invntt r L (built_2 r Hr) EL).
      + intros i Hi. destruct (built_8 r Hr i ltac:(lia)). lia.
      + revert HM. apply (ntt_weaken r L EL). intros i Hi. unfold canon. destruct (built_8 r Hr i ltac:(lia)). lia.
    - split; [|rewrite lvl_length; lia]. destruct HM as (H1 & H2 & H3). split; [exact S1|]. split; [rewrite lvl_length; lia|].
      intros i Hi. rewrite lvl_nth_lt by lia. apply H3. exact Hi.
  Qed.

  Lemma crt_pool j : (j < rN r)%nat -> eqm (lprod r level) (crt_value r (Level p) p j) (M j).
  Proof.
    intros Hj. destruct pool_repr as [(Hl & Hp & HX) LP]. destruct (built_L r L (built_2 r Hr) EL) as [Hw _].
    apply (lprod_eqm L r Hw level _ _ Hl). intros i Hi. unfold crt_value, Level. rewrite LP. set (full := (length (rmods r) - 1)%nat).
    assert (Hf : (full < length (rmods r))%nat) by (unfold full; lia). rewrite level_modulus_spec by exact Hf. rewrite fold_left_add_bigsum.
    transitivity (bigsum (S full) (fun k => nth j (prow p k) 0 * crt_coeff r k)).
    { apply (lprod_eqm L r Hw full); [exact Hf|apply eqm_mod|unfold full; lia]. }
    transitivity (bigsum (S full) (fun k => if Nat.eqb k i then nth j (prow p i) 0 else 0)).
    - apply bigsum_eqm. intros k Hk. rewrite (crt_coeff_spec L r k i Hw) by (unfold full in *; lia).
      destruct (Nat.eqb_spec k i) as [->|_]; apply eqm_eq; ring.
    - rewrite (bigsum_single _ i); [|unfold full; lia|intros k Hk Hn; destruct (Nat.eqb_spec k i); [contradiction|reflexivity]].
      rewrite Nat.eqb_refl. unfold prow. apply (HX i Hi). exact Hj.
  Qed.

  Lemma lprod_odd : Z.odd (lprod r level) = true /\ 0 < lprod r level.
  Proof.
    destruct (built_L r L (built_2 r Hr) EL) as [Hw _]. split; [apply (odd_lprod L); exact Hw|apply (lprod_pos L r Hw)].
  Qed.
  Lemma centred_value j : (j < rN r)%nat -> - lprod r level < 2 * M j < lprod r level - 1 ->
    centred (level_modulus r level) (crt_value r (Level p) p j) = M j.
  Proof.
    intros Hj R. destruct Sh as (S1 & _). rewrite level_modulus_spec by exact S1. destruct lprod_odd as [O P]. apply centred_spec; [exact P|exact O|apply crt_pool; exact Hj|exact R].
  Qed.
End Read.

Lemma near_div (x s : float64) a : scale_ok s -> is_finite x = true -> B2R x = rnd (IZR a) ->
  (Rabs (IZR a) <= IZR (2 ^ 1000))%R -> (Rabs (IZR a / B2R s) <= IZR (2 ^ 1000))%R -> near_quotient a s (f64_div x s).
Proof.
  intros [Fs Ps] Fx Ex Ha Hq. rewrite big_Z in *. set (t := B2R s) in *.
  assert (X1 := rnd_err (IZR a)).
  assert (E1 : (Rabs (B2R x - IZR a) <= u64f * Rabs (IZR a))%R).
  { rewrite Ex. destruct (Z.eq_dec a 0) as [->|Na]; [rewrite round_0 by apply _; rewrite Rminus_0_r, Rabs_R0; lra|].
    apply X1. apply Rle_trans with 1%R; [change 1%R with (bpow radix2 0); apply bpow_le; lia|]. rewrite <- abs_IZR. apply IZR_le. lia. }
  clear X1. assert (Pt : (0 < / t)%R) by (apply Rinv_0_lt_compat; exact Ps).
  assert (E2 : (Rabs (B2R x / t - IZR a / t) <= u64f * Rabs (IZR a / t))%R).
  { replace (B2R x / t - IZR a / t)%R with ((B2R x - IZR a) * / t)%R by (unfold Rdiv; ring). unfold Rdiv. rewrite !Rabs_mult, (Rabs_pos_eq (/ t)) by lra.
    rewrite <- Rmult_assoc. apply Rmult_le_compat_r; [lra|exact E1]. }
  set (v := (IZR a / t)%R) in *. pose proof u64f_val as U. assert (Rv := Rabs_pos v).
  assert (T : (Rabs (B2R x / t) <= 2 * Rabs v)%R).
  { replace (B2R x / t)%R with (v + (B2R x / t - v))%R by ring. apply Rle_trans with (1 := Rabs_triang _ _). rewrite U in E2. lra. }
  destruct (div_big x s Fx) as [E3 F3]; [fold t; lra|fold t; change 1001%Z with (1 + 1000)%Z; rewrite bpow_plus; change (bpow radix2 1) with 2%R; lra|]. fold t in E3.
  split; [exact F3|]. cbv zeta. fold t v. rewrite E3. pose proof (rnd_abs_err (B2R x / t)) as X2.
  assert (E51 : (/ 2 ^ 51 = / 2251799813685248)%R) by (rewrite (pow_IZR 2 51); reflexivity). rewrite E51.
  assert (E1000 : (/ IZR (2 ^ 1000) = bpow radix2 (-1000))%R) by (rewrite big_Z; symmetry; apply (bpow_opp radix2 1000)). rewrite E1000.
  replace (rnd (B2R x / t) - v)%R with ((rnd (B2R x / t) - B2R x / t) + (B2R x / t - v))%R by ring.
  apply Rle_trans with (1 := Rabs_triang _ _). rewrite U in E2, X2. lra.
Qed.
Lemma near_scale_down s a : scale_ok s -> (Rabs (IZR a) <= IZR (2 ^ 1000))%R -> (Rabs (IZR a / B2R s) <= IZR (2 ^ 1000))%R -> near_quotient a s (scaleDown a s).
Proof.
  intros Hs Ha Hq. destruct (of_Z_big a) as [E F]; [rewrite big_Z in Ha; pose proof big_le_1001; lra|]. apply near_div; assumption.
Qed.
Lemma word_float_spec Q c a : 0 < Q <= W -> Z.odd Q = true -> 0 <= c < Q -> eqm Q c a -> - Q < 2 * a < Q - 1 ->
  is_finite (word_float Q c) = true /\ B2R (word_float Q c) = rnd (IZR a).
Proof.
  intros HQ O Hc E R. destruct (shift_half Q O) as (h & Eh & Es). unfold word_float. rewrite Es.
  assert (BND : forall z, Z.abs z <= 2 ^ 64 -> (Rabs (IZR z) <= bpow radix2 1001)%R).
  { intros z Hz. rewrite <- abs_IZR. apply Rle_trans with (bpow radix2 64); [change (bpow radix2 64) with (IZR (2 ^ 64)); apply IZR_le; exact Hz|apply bpow_le; lia]. }
  assert (E' : c = a mod Q) by (rewrite <- (Z.mod_small c Q Hc); exact E). change W with (2 ^ 64) in HQ.
  destruct (Z.lt_ge_cases a 0) as [N|N].
  - assert (E2 : a mod Q = a + Q) by (symmetry; apply (Z.mod_unique_pos _ _ (-1)); lia). rewrite E2 in E'. clear E E2.
    destruct (Z.leb_spec h c); [|lia]. unfold wsub. rewrite w64_small by (change W with (2 ^ 64); lia). replace (Q - c) with (- a) by lia.
    destruct (of_Z_big (- a) (BND (- a) ltac:(lia))) as [E3 F3]. unfold f64_opp. rewrite is_finite_Bopp, B2R_Bopp, E3, opp_IZR. split; [exact F3|].
    rewrite round_NE_opp, Ropp_involutive. reflexivity.
  - rewrite Z.mod_small in E' by lia. subst c. clear E. destruct (Z.leb_spec h a); [lia|].
    destruct (of_Z_big a (BND a ltac:(lia))) as [E3 F3]. split; assumption.
Qed.

Lemma nth_map_gen' {A B} (f : A -> B) l k d e : (k < length l)%nat -> nth k (map f l) e = f (nth k l d).
Proof. intros H. rewrite (nth_indep _ e (f d)) by (rewrite map_length; exact H). apply map_nth. Qed.
Lemma lprod_0 r : (0 < length (rmods r))%nat -> lprod r 0 = mq (rmod r 0).
Proof. intros H. unfold lprod, moduli, rmod. destruct (rmods r) as [|m l]; [cbn in H; lia|]. cbn. lia. Qed.

Lemma decode_coeffs r L level pt pool M : built_ring 8 r -> rN r = (2 ^ L)%nat -> pt_shape r level pt -> pool_shape r pool ->
  rns_dom r L level (ptNTT pt) (ptV pt) M -> scale_ok (ptScale pt) -> (forall k, (k < rN r)%nat -> decodable (lprod r level) (M k) (ptScale pt)) ->
  let out := DecodeCoeffs r pt pool in length out = rN r /\ forall k, (k < rN r)%nat -> near_quotient (M k) (ptScale pt) (nth k out f64_zero).
Proof.
  intros Hr EL Sh Pl HM Hs HD out. unfold out, DecodeCoeffs. cbv zeta. rewrite (pt_level r level pt Sh).
  destruct level as [|lev].
  - rewrite map_length, seq_length. split; [reflexivity|]. intros k Hk. destruct (HD k Hk) as (D1 & D2 & D3).
    rewrite (nth_indep _ f64_zero (f64_div (word_float (mq (rmod r 0)) (nth 0 (prow (to_pool r pt pool) 0) 0)) (ptScale pt))) by (rewrite map_length, seq_length; exact Hk).
    rewrite (map_nth (fun k => f64_div (word_float (mq (rmod r 0)) (nth k (prow (to_pool r pt pool) 0) 0)) (ptScale pt))). rewrite seq_nth by exact Hk. cbn [Nat.add].
    destruct (pool_repr r L 0 pt pool M Hr EL Sh Pl HM) as [(_ & _ & P) _]. destruct (P 0%nat ltac:(lia)) as [_ P']. destruct (P' k Hk) as [P1 P2]. unfold canon in P1.
    destruct Sh as (S1 & _). rewrite lprod_0 in D1 by exact S1. destruct (built_8 r Hr 0 S1) as [Q1 Q2].
    assert (O : Z.odd (mq (rmod r 0)) = true) by (apply (wf_odd L); apply (built_wf r L (built_2 r Hr) EL); exact S1).
    destruct (word_float_spec (mq (rmod r 0)) (nth k (prow (to_pool r pt pool) 0) 0) (M k) ltac:(lia) O P1 P2 D1) as [W1 W2].
    apply near_div; assumption.
  - rewrite map_length. unfold PolyToBigintLvl. rewrite map_length. destruct (gap_indices_spec (rN r) 1 ltac:(lia)) as [G1 G2].
    set (g := gap_indices (rN r) 1) in *. assert (LG : length g = rN r).
    { destruct (Nat.lt_ge_cases (rN r) (length g)) as [H|H]; [|lia]. destruct (G1 (rN r) H). lia. }
    split; [exact LG|]. intros k Hk. destruct (HD k Hk) as (D1 & D2 & D3). rewrite map_map.
    rewrite (nth_map_gen' _ _ _ O) by lia. rewrite (proj1 (G1 k ltac:(lia))), Nat.mul_1_r.
    rewrite (centred_value r L (S lev) pt pool M Hr EL Sh Pl HM k Hk D1). apply near_scale_down; assumption.
Qed.

(** ** Both ways *)
Lemma recover Q x s a : scale_ok s -> (1 <= B2R s)%R -> recoverable Q x s -> near_product x s a ->
  decodable Q a s /\ forall y, near_quotient a s y -> (Rabs (B2R y - B2R x) <= / B2R s + Rabs (B2R x) * / 2 ^ 49 + / IZR (2 ^ 1000))%R.
Proof.
  intros [Fs Ps] S1 (R1 & R2 & R3) HP. unfold near_product in HP. cbv zeta in HP.
  assert (E49 : (/ 2 ^ 49 = / 562949953421312)%R) by (rewrite (pow_IZR 2 49); reflexivity).
  assert (E51 : (/ 2 ^ 51 = / 2251799813685248)%R) by (rewrite (pow_IZR 2 51); reflexivity).
  assert (E999 : (1 <= IZR (2 ^ 999) /\ IZR (2 ^ 1000) = 2 * IZR (2 ^ 999))%R).
  { split; [apply IZR_le; apply Z.pow_le_mono_r with (a := 2) (b := 0) (c := 999); lia|]. rewrite <- mult_IZR. f_equal. }
  assert (P1000 : (0 < / IZR (2 ^ 1000))%R) by (apply Rinv_0_lt_compat; lra).
  rewrite E51 in HP. unfold near_quotient, decodable. rewrite E49, E51. destruct E999 as [G1 G2]. set (Y := (/ IZR (2 ^ 1000))%R) in *. clearbody Y. rewrite G2. generalize dependent (IZR (2 ^ 999)). intros G R2 R3 G1 G2. clear G2 E49 E51.
  set (xv := B2R x) in *. set (s' := B2R s) in *. set (t := Rabs (xv * s')) in *. assert (T0 : (0 <= t)%R) by apply Rabs_pos.
  assert (IS : (0 < / s' <= 1)%R) by (split; [apply Rinv_0_lt_compat; exact Ps|rewrite <- Rinv_1; apply Rinv_le; lra]).
  assert (A : (Rabs (IZR a) <= t + (/ 2 + (t + 1) * / 2251799813685248))%R).
  { replace (IZR a) with (xv * s' + (IZR a - xv * s'))%R by ring. apply Rle_trans with (1 := Rabs_triang _ _). fold t. apply Rplus_le_compat_l.
    apply Rle_trans with (1 := HP). lra. }
  assert (D : (Rabs (IZR a / s' - xv) <= / 2 * / s' + (Rabs xv + / s') * / 2251799813685248)%R).
  { replace (IZR a / s' - xv)%R with ((IZR a - xv * s') * / s')%R by (field; lra). rewrite Rabs_mult, (Rabs_pos_eq (/ s')) by lra.
    apply Rle_trans with ((/ 2 + (t + 1) * / 2251799813685248) * / s')%R; [apply Rmult_le_compat_r; [lra|]; apply Rle_trans with (1 := HP); lra|].
    assert (TX : (t * / s' = Rabs xv)%R). { unfold t. rewrite Rabs_mult, (Rabs_pos_eq s') by lra. field. lra. }
    rewrite <- TX. apply Req_le. field. lra. }
  assert (V : (Rabs (IZR a / s') <= Rabs xv + (/ 2 * / s' + (Rabs xv + / s') * / 2251799813685248))%R).
  { replace (IZR a / s')%R with (xv + (IZR a / s' - xv))%R by ring. apply Rle_trans with (1 := Rabs_triang _ _). lra. }
  assert (X0 := Rabs_pos xv). split.
  - split; [|split; lra]. assert (Q1 : (2 * Rabs (IZR a) < IZR Q - 1)%R) by lra. rewrite <- abs_IZR in Q1.
    assert (2 * Z.abs a < Q - 1); [|lia]. apply lt_IZR. rewrite mult_IZR, minus_IZR. exact Q1.
  - intros y [_ Hy]. cbv zeta in Hy. fold s' in Hy.
    replace (B2R y - xv)%R with ((B2R y - IZR a / s') + (IZR a / s' - xv))%R by ring. apply Rle_trans with (1 := Rabs_triang _ _). lra.
Qed.
Lemma decodable_zero Q s : 3 <= Q -> scale_ok s -> decodable Q 0 s.
Proof.
  intros HQ [_ Hs]. unfold decodable. split; [lia|]. replace (0 / B2R s)%R with 0%R by (field; lra). rewrite Rabs_R0.
  split; apply IZR_le; apply Z.pow_nonneg; lia.
Qed.
Lemma lprod_ge r L level : built_ring 8 r -> rN r = (2 ^ L)%nat -> (level < length (rmods r))%nat -> 3 <= lprod r level.
Proof.
  intros Hr EL Hl. destruct (built_L r L (built_2 r Hr) EL) as [Hw _]. destruct (built_8 r Hr 0 ltac:(lia)) as [Q0 _].
  assert (D : (mq (rmod r 0) | lprod r level)).
  { assert (E : eqm (mq (rmod r 0)) (lprod r level) 0).
    { apply (proj1 (lprod_eqm L r Hw level (lprod r level) 0 Hl)); [unfold eqm; rewrite Z.mod_same by (pose proof (lprod_pos L r Hw level); lia); reflexivity|lia]. }
    unfold eqm in E. rewrite Zmod_0_l in E. apply Z.mod_divide; [lia|exact E]. }
  pose proof (lprod_pos L r Hw level) as P. apply Z.divide_pos_le in D; lia.
Qed.
Lemma coeffs_round_trip r L level vals s pool : built_ring 8 r -> rN r = (2 ^ L)%nat -> (level < length (rmods r))%nat -> pool_shape r pool ->
  scale_ok s -> (1 <= B2R s)%R -> (length vals <= rN r)%nat -> (forall x, In x vals -> encodable x s /\ recoverable (lprod r level) x s) ->
  exists pt, EncodeCoeffsNew r vals level s = Some pt /\ let out := DecodeCoeffs r pt pool in length out = rN r /\
    (forall k, (k < length vals)%nat -> ffinite (nth k out f64_zero) /\
      (Rabs (B2R (nth k out f64_zero) - B2R (nth k vals f64_zero)) <= / B2R s + Rabs (B2R (nth k vals f64_zero)) * / 2 ^ 49 + / IZR (2 ^ 1000))%R) /\
    (forall k, (length vals <= k < rN r)%nat -> (Rabs (B2R (nth k out f64_zero)) <= / IZR (2 ^ 1000))%R).
Proof.
  intros Hr EL Hl Pl Hs S1 HN HE.
  destruct (encode_coeffs r L level vals (NewPlaintext r level s) Hr EL (new_shape r level s Hl) Hs HN (fun x Hx => proj1 (HE x Hx))
    ltac:(intros; apply coeff_zero)) as (pt & M & E1 & E2 & E3 & E4 & E5 & E6 & E7).
  exists pt. split; [exact E1|]. cbv zeta. unfold NewPlaintext in E3, E6. cbn [ptScale] in E3, E6.
  destruct (decode_coeffs r L level pt pool M Hr EL E4 Pl) as [D1 D2].
  - rewrite E2. exact E5.
  - rewrite E3. exact Hs.
  - intros k Hk. rewrite E3. destruct (Nat.lt_ge_cases k (length vals)) as [H|H].
    + destruct (HE (nth k vals f64_zero) (nth_In _ _ H)) as [_ H2]. exact (proj1 (recover _ _ _ _ Hs S1 H2 (E6 k H))).
    + rewrite E7 by exact H. apply decodable_zero; [apply (lprod_ge r L); assumption|exact Hs].
  - rewrite E3 in D2. split; [exact D1|]. split.
    + intros k Hk. destruct (HE (nth k vals f64_zero) (nth_In _ _ Hk)) as [_ H2]. specialize (D2 k ltac:(lia)). split; [exact (proj1 D2)|].
      exact (proj2 (recover _ _ _ _ Hs S1 H2 (E6 k Hk)) _ D2).
    + intros k [K1 K2]. specialize (D2 k K2). rewrite E7 in D2 by exact K1. destruct D2 as [_ D2]. cbv zeta in D2.
      replace (0 / B2R s)%R with 0%R in D2 by (unfold Rdiv; ring). rewrite Rminus_0_r, Rabs_R0, Rmult_0_l, Rplus_0_l in D2. exact D2.
Qed.
