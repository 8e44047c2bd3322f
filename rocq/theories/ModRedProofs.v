(** Correctness of the word-level modular arithmetic. *)
From Verif Require Import Word ModRed Arith.

(** ** MRedParams *)
Lemma wmul_eqm x y : eqm W (wmul x y) (x * y).
Proof. apply w64_eqm. Qed.

(** The loop multiplies the powers q, q^2, q^4, ...: its value is
    a * q^(2^n - 1) modulo 2^64. *)
Lemma MRedParams_loop_pow n a q :
  eqm W (MRedParams_loop n a q) (a * q ^ (2 ^ Z.of_nat n - 1)).
Proof.
  revert a q. induction n as [|n IH]; intros a q; cbn [MRedParams_loop].
  - change (2 ^ Z.of_nat 0 - 1) with 0. rewrite Z.pow_0_r, Z.mul_1_r. reflexivity.
  - assert (Hpos : 0 < 2 ^ Z.of_nat n) by (apply Z.pow_pos_nonneg; lia).
    rewrite IH, wmul_eqm.
    rewrite (eqm_pow W _ _ _ (wmul_eqm q q)).
    apply eqm_eq. replace (q * q) with (q ^ 2) by ring.
    rewrite <- Z.pow_mul_r by lia.
    rewrite Nat2Z.inj_succ, Z.pow_succ_r by lia.
    replace (2 * 2 ^ Z.of_nat n - 1) with (1 + 2 * (2 ^ Z.of_nat n - 1)) by ring.
    rewrite (Z.pow_add_r q 1) by lia. rewrite Z.pow_1_r. ring.
Qed.

(** Odd numbers raised to 2^k are 1 modulo 2^(k+1) (indeed 2^(k+2)). *)
Lemma odd_pow2_one q n : Z.odd q = true -> eqm (2 ^ (Z.of_nat n + 1)) (q ^ (2 ^ Z.of_nat n)) 1.
Proof.
  intros Ho. induction n as [|n IH].
  - change (2 ^ (Z.of_nat 0 + 1)) with 2. change (2 ^ Z.of_nat 0) with 1.
    rewrite Z.pow_1_r. unfold eqm. rewrite Zmod_odd, Ho. reflexivity.
  - assert (H2 : 0 < 2 ^ (Z.of_nat n + 1)) by (apply Z.pow_pos_nonneg; lia).
    apply eqm_elim in IH; [|lia]. destruct IH as [k Hk].
    rewrite Nat2Z.inj_succ. rewrite (Z.pow_succ_r 2 (Z.of_nat n)) by lia.
    rewrite (Z.mul_comm 2), Z.pow_mul_r by lia.
    rewrite Hk. replace (Z.succ (Z.of_nat n) + 1) with (1 + (Z.of_nat n + 1)) by lia.
    rewrite Z.pow_add_r by lia.
    apply (eqm_intro _ _ _ (k + k * k * 2 ^ (Z.of_nat n))).
    replace (2 ^ (Z.of_nat n + 1)) with (2 * 2 ^ Z.of_nat n)
      by (rewrite Z.pow_add_r by lia; ring).
    ring.
Qed.

Lemma MRedParams_range q : 0 <= MRedParams q < W.
Proof.
  unfold MRedParams.
  assert (G : forall n a b, 0 <= a < W -> 0 <= MRedParams_loop n a b < W).
  { induction n as [|n IH]; intros a b Ha; cbn [MRedParams_loop]; [assumption|].
    apply IH. apply w64_range. }
  apply G. split; [lia|reflexivity].
Qed.

Lemma MRedParams_inv q : Z.odd q = true -> eqm W (q * MRedParams q) 1.
Proof.
  intros Ho. unfold MRedParams. rewrite (MRedParams_loop_pow 63 1 q).
  rewrite Z.mul_1_l.
  assert (E : q * q ^ (2 ^ Z.of_nat 63 - 1) = q ^ (2 ^ Z.of_nat 63)).
  { rewrite <- Z.pow_succ_r by (vm_compute; discriminate). f_equal. }
  rewrite E. exact (odd_pow2_one q 63 Ho).
Qed.

(** ** Montgomery product *)
(** [hhi] is such that x*y = k*q + (mhi - hhi)*2^64. *)
Lemma mont_core lo q qInv :
  0 <= lo < W -> eqm W (q * qInv) 1 ->
  wmul lo qInv * q = mul_hi (wmul lo qInv) q * W + lo.
Proof.
  intros Hlo Hinv. set (k := wmul lo qInv).
  rewrite (mul_hi_lo k q) at 1. f_equal.
  assert (E : eqm W (mul_lo k q) lo).
  { unfold mul_lo. rewrite eqm_mod. unfold k. rewrite wmul_eqm.
    replace (lo * qInv * q) with (lo * (q * qInv)) by ring. rewrite Hinv.
    apply eqm_eq; ring. }
  eapply eqm_small; [apply mul_lo_range|exact Hlo|exact E].
Qed.

Lemma MRedConstant_spec x y q qInv :
  0 < q -> 2 * q <= W -> eqm W (q * qInv) 1 -> 0 <= x -> 0 <= y -> x * y < q * W ->
  exists k, 0 <= k < W /\
    MRedConstant x y q qInv = mul_hi x y - mul_hi k q + q /\
    0 < MRedConstant x y q qInv < 2 * q /\
    MRedConstant x y q qInv * W = x * y + (W - k) * q.
Proof.
  intros Hq HqW Hinv Hx Hy Hxy.
  set (k := wmul (mul_lo x y) qInv).
  assert (Hk : 0 <= k < W) by apply w64_range.
  assert (Hcore := mont_core (mul_lo x y) q qInv (mul_lo_range x y) Hinv).
  fold k in Hcore.
  assert (Hhi : 0 <= mul_hi x y < q)
    by (split; [apply mul_hi_nonneg; assumption|apply mul_hi_lt; assumption]).
  assert (HH : 0 <= mul_hi k q < q)
    by (split; [apply mul_hi_nonneg; lia|apply mul_hi_lt; nia]).
  assert (E : MRedConstant x y q qInv = mul_hi x y - mul_hi k q + q).
  { unfold MRedConstant. fold k. unfold wadd, wsub.
    apply eqm_w64_eq; [lia|]. rewrite w64_eqm. reflexivity. }
  exists k. split; [exact Hk|]. split; [exact E|]. split; [rewrite E; lia|].
  rewrite E. rewrite (mul_hi_lo x y). lia.
Qed.

Lemma MRedConstant_range x y q qInv :
  0 < q -> 2 * q <= W -> eqm W (q * qInv) 1 -> 0 <= x -> 0 <= y -> x * y < q * W ->
  0 < MRedConstant x y q qInv < 2 * q.
Proof. intros. destruct (MRedConstant_spec x y q qInv) as (k & _ & _ & R & _); auto. Qed.

Lemma MRedConstant_eqm x y q qInv :
  0 < q -> 2 * q <= W -> eqm W (q * qInv) 1 -> 0 <= x -> 0 <= y -> x * y < q * W ->
  eqm q (MRedConstant x y q qInv * W) (x * y).
Proof.
  intros. destruct (MRedConstant_spec x y q qInv) as (k & _ & _ & _ & R); auto.
  rewrite R. apply (eqm_intro _ _ _ (W - k)). reflexivity.
Qed.

Lemma MRed_range x y q qInv :
  0 < q -> 2 * q <= W -> eqm W (q * qInv) 1 -> 0 <= x -> 0 <= y -> x * y < q * W ->
  0 <= MRed x y q qInv < q.
Proof.
  intros. pose proof (MRedConstant_range x y q qInv). apply csub_range; lia.
Qed.

Lemma MRed_eqm x y q qInv :
  0 < q -> 2 * q <= W -> eqm W (q * qInv) 1 -> 0 <= x -> 0 <= y -> x * y < q * W ->
  eqm q (MRed x y q qInv * W) (x * y).
Proof.
  intros. pose proof (MRedConstant_range x y q qInv).
  unfold MRed. rewrite csub_eqm by lia. apply MRedConstant_eqm; assumption.
Qed.

(** ** Barrett *)
(** floor(2^128/q), re-assembled from its two words. *)
Lemma BRedParams_spec q :
  2 <= q -> W * W / q = fst (BRedParams q) * W + snd (BRedParams q) /\
  0 <= fst (BRedParams q) < W /\ 0 <= snd (BRedParams q) < W.
Proof.
  intros Hq. unfold BRedParams. cbn [fst snd].
  assert (H0 : 0 <= W * W / q) by (apply Z.div_pos; [discriminate|lia]).
  assert (H1 : W * W / q < W * W) by (apply Z.div_lt; [reflexivity|lia]).
  assert (H2 : 0 <= W * W / q / W < W).
  { split; [apply Z.div_pos; [exact H0|reflexivity]|].
    apply Z.div_lt_upper_bound; [reflexivity|exact H1]. }
  rewrite w64_small by exact H2. split; [|split; [exact H2|apply w64_range]].
  unfold w64. rewrite (Z.mul_comm (W * W / q / W) W). apply Z.div_mod. discriminate.
Qed.

Lemma quot_bounds u q a d :
  0 < q -> 0 < d -> 0 <= a <= d -> u = d / q ->
  0 <= a - (a * u / d) * q < 2 * q.
Proof.
  intros Hq Hd Ha Hu.
  assert (Hu1 : u * q <= d < u * q + q) by (subst u; nia).
  assert (Hs : (a * u / d) * d <= a * u < (a * u / d) * d + d) by nia.
  set (s := a * u / d) in *. clearbody s. split; nia.
Qed.

Lemma BRedAddConstant_spec a q :
  2 <= q -> 2 * q <= W -> 0 <= a < W ->
  exists s, BRedAddConstant a q (BRedParams q) = a - s * q /\
            0 <= BRedAddConstant a q (BRedParams q) < 2 * q.
Proof.
  intros Hq HqW Ha.
  assert (Hu : fst (BRedParams q) = W / q).
  { destruct (BRedParams_spec q Hq) as (HE & H1 & H2).
    assert (E2 : W / q = (W * W / q) / W).
    { rewrite Z.div_div by (try reflexivity; lia).
      rewrite Z.div_mul_cancel_r by (try discriminate; lia). reflexivity. }
    rewrite E2, HE. rewrite Z.div_add_l by discriminate.
    rewrite Z.div_small by assumption. lia. }
  assert (HB := quot_bounds (W / q) q a W).
  set (s := a * (W / q) / W) in *.
  assert (HB' : 0 <= a - s * q < 2 * q) by (apply HB; try reflexivity; lia).
  exists s.
  assert (E : BRedAddConstant a q (BRedParams q) = a - s * q).
  { unfold BRedAddConstant, wsub. apply eqm_w64_eq; [lia|].
    rewrite wmul_eqm. unfold mul_hi. rewrite Hu. reflexivity. }
  rewrite E. auto.
Qed.

Lemma BRedAdd_correct a q :
  2 <= q -> 2 * q <= W -> 0 <= a < W -> BRedAdd a q (BRedParams q) = a mod q.
Proof.
  intros Hq HqW Ha. destruct (BRedAddConstant_spec a q Hq HqW Ha) as (s & E & R).
  unfold BRedAdd. rewrite csub_small by lia. rewrite E.
  apply (eqm_intro _ _ _ (- s)). ring.
Qed.

(** The carry chain of [BRedConstant] computes floor(x*y*u/2^128) mod 2^64. *)
Lemma barrett_chain mhi mlo u0 u1 :
  0 <= mhi < W -> 0 <= mlo < W -> 0 <= u0 < W -> 0 <= u1 < W ->
  mhi * u0 + mul_hi mlo u0 + add_carry (mul_lo mlo u0) (mul_hi mlo u1)
  + mul_hi mhi u1 + add_carry (mul_lo mhi u1) (add_lo (mul_lo mlo u0) (mul_hi mlo u1))
  = (mhi * W + mlo) * (u0 * W + u1) / (W * W).
Proof.
  intros H1 H2 H3 H4.
  pose proof (mul_hi_lo mlo u0) as E1. pose proof (mul_lo_range mlo u0) as R1.
  pose proof (mul_hi_lo mlo u1) as E2. pose proof (mul_lo_range mlo u1) as R2.
  pose proof (mul_hi_lo mhi u1) as E3. pose proof (mul_lo_range mhi u1) as R3.
  set (h1 := mul_hi mlo u0) in *. set (l1 := mul_lo mlo u0) in *.
  set (h2 := mul_hi mlo u1) in *. set (l2 := mul_lo mlo u1) in *.
  set (h3 := mul_hi mhi u1) in *. set (l3 := mul_lo mhi u1) in *.
  clearbody h1 l1 h2 l2 h3 l3.
  assert (E4 : l1 + h2 = add_carry l1 h2 * W + add_lo l1 h2).
  { unfold add_carry, add_lo. rewrite (Z.mul_comm _ W). apply Z.div_mod. discriminate. }
  assert (R4 : 0 <= add_lo l1 h2 < W) by (apply Z.mod_pos_bound; reflexivity).
  set (c4 := add_carry l1 h2) in *. set (s4 := add_lo l1 h2) in *. clearbody c4 s4.
  assert (E5 : l3 + s4 = add_carry l3 s4 * W + add_lo l3 s4).
  { unfold add_carry, add_lo. rewrite (Z.mul_comm _ W). apply Z.div_mod. discriminate. }
  assert (R5 : 0 <= add_lo l3 s4 < W) by (apply Z.mod_pos_bound; reflexivity).
  set (c5 := add_carry l3 s4) in *. set (s5 := add_lo l3 s4) in *. clearbody c5 s5.
  apply Z.div_unique with (r := s5 * W + l2).
  - left. unfold W in *. lia.
  - replace ((mhi * W + mlo) * (u0 * W + u1))
      with (mhi * u0 * W * W + (mlo * u0) * W + (mhi * u1) * W + mlo * u1) by ring.
    rewrite E1, E2, E3.
    replace l1 with (c4 * W + s4 - h2) by lia.
    replace l3 with (c5 * W + s5 - s4) by lia. ring.
Qed.

Lemma BRedConstant_spec x y q :
  2 <= q -> 2 * q <= W -> 0 <= x < W -> 0 <= y < W ->
  exists s, BRedConstant x y q (BRedParams q) = x * y - s * q /\
            0 <= BRedConstant x y q (BRedParams q) < 2 * q.
Proof.
  intros Hq HqW Hx Hy.
  destruct (BRedParams_spec q Hq) as (HE & H1 & H2).
  destruct (BRedParams q) as [u0 u1]; cbn [fst snd] in *.
  assert (Hhi : 0 <= mul_hi x y < W).
  { split; [apply mul_hi_nonneg; lia|]. apply mul_hi_lt. nia. }
  pose proof (mul_lo_range x y) as Hlo.
  pose proof (mul_hi_lo x y) as Exy.
  pose proof (barrett_chain (mul_hi x y) (mul_lo x y) u0 u1 Hhi Hlo H1 H2) as HC.
  rewrite <- Exy, <- HE in HC.
  set (s := x * y * (W * W / q) / (W * W)) in *.
  assert (HB : 0 <= x * y - s * q < 2 * q).
  { apply (quot_bounds (W * W / q) q (x * y) (W * W)); [lia|reflexivity|nia|reflexivity]. }
  exists s.
  assert (E : BRedConstant x y q (u0, u1) = x * y - s * q).
  { unfold BRedConstant. cbn [fst snd]. cbv zeta. unfold wsub.
    apply eqm_w64_eq; [lia|]. rewrite wmul_eqm.
    unfold wadd. rewrite !w64_eqm. rewrite wmul_eqm.
    rewrite HC. apply eqm_sym.
    apply (eqm_intro _ _ _ (- mul_hi x y)). lia. }
  rewrite E. auto.
Qed.

Lemma BRed_correct x y q :
  2 <= q -> 2 * q <= W -> 0 <= x < W -> 0 <= y < W -> BRed x y q (BRedParams q) = (x * y) mod q.
Proof.
  intros Hq HqW Hx Hy. destruct (BRedConstant_spec x y q Hq HqW Hx Hy) as (s & E & R).
  unfold BRed. rewrite csub_small by lia. rewrite E.
  apply (eqm_intro _ _ _ (- s)). ring.
Qed.

(** ** Montgomery form *)
Lemma MFormConstant_spec a q :
  2 <= q -> 2 * q <= W -> 0 <= a < W ->
  exists s, MFormConstant a q (BRedParams q) = a * W - s * q /\
            0 <= MFormConstant a q (BRedParams q) < 2 * q.
Proof.
  intros Hq HqW Ha.
  destruct (BRedParams_spec q Hq) as (HE & H1 & H2).
  destruct (BRedParams q) as [u0 u1]; cbn [fst snd] in *.
  set (u := W * W / q) in *.
  assert (Hs : a * u0 + mul_hi a u1 = a * u / W).
  { rewrite HE. replace (a * (u0 * W + u1)) with (a * u0 * W + a * u1) by ring.
    rewrite Z.div_add_l by discriminate. reflexivity. }
  assert (HB : 0 <= a * W - (a * u / W) * q < 2 * q).
  { assert (HX : a * u / W = (a * W) * u / (W * W)).
    { replace (a * W * u) with (a * u * W) by ring.
      rewrite Z.div_mul_cancel_r by discriminate. reflexivity. }
    rewrite HX. apply (quot_bounds u q (a * W) (W * W)); [lia|reflexivity| |reflexivity].
    unfold W in *; lia. }
  exists (a * u / W).
  assert (E : MFormConstant a q (u0, u1) = a * W - (a * u / W) * q).
  { unfold MFormConstant. cbn [fst snd]. cbv zeta. unfold wmul at 1.
    apply eqm_w64_eq; [lia|]. unfold wneg, wadd. rewrite !w64_eqm.
    rewrite wmul_eqm, Hs. apply (eqm_intro _ _ _ a). ring. }
  rewrite E. auto.
Qed.

Lemma MForm_correct a q :
  2 <= q -> 2 * q <= W -> 0 <= a < W -> MForm a q (BRedParams q) = (a * W) mod q.
Proof.
  intros Hq HqW Ha. destruct (MFormConstant_spec a q Hq HqW Ha) as (s & E & R).
  unfold MForm. rewrite csub_small by lia. rewrite E.
  apply (eqm_intro _ _ _ (- s)). ring.
Qed.

Lemma InvMFormConstant_spec a q qInv :
  0 < q -> 2 * q <= W -> eqm W (q * qInv) 1 -> 0 <= a < W ->
  0 < InvMFormConstant a q qInv <= q /\ eqm q (InvMFormConstant a q qInv * W) a.
Proof.
  intros Hq HqW Hinv Ha.
  set (k := wmul a qInv).
  assert (Hk : 0 <= k < W) by apply w64_range.
  assert (Hcore := mont_core a q qInv Ha Hinv). fold k in Hcore.
  assert (HH : 0 <= mul_hi k q < q)
    by (split; [apply mul_hi_nonneg; lia|apply mul_hi_lt; nia]).
  assert (E : InvMFormConstant a q qInv = q - mul_hi k q).
  { unfold InvMFormConstant, wsub. fold k. rewrite w64_small by lia. reflexivity. }
  rewrite E. split; [lia|].
  apply (eqm_intro _ _ _ (W - k)). lia.
Qed.

Lemma InvMForm_range a q qInv :
  0 < q -> 2 * q <= W -> eqm W (q * qInv) 1 -> 0 <= a < W -> 0 <= InvMForm a q qInv < q.
Proof.
  intros. destruct (InvMFormConstant_spec a q qInv) as [R _]; auto.
  apply csub_range; lia.
Qed.

Lemma InvMForm_eqm a q qInv :
  0 < q -> 2 * q <= W -> eqm W (q * qInv) 1 -> 0 <= a < W -> eqm q (InvMForm a q qInv * W) a.
Proof.
  intros. destruct (InvMFormConstant_spec a q qInv) as [R E]; auto.
  unfold InvMForm. rewrite csub_eqm by lia. exact E.
Qed.

Lemma InvMForm_MForm a q :
  Z.odd q = true -> 2 <= q -> 2 * q <= W -> 0 <= a < W ->
  InvMForm (MForm a q (BRedParams q)) q (MRedParams q) = a mod q.
Proof.
  intros Ho Hq HqW Ha. rewrite MForm_correct by assumption.
  assert (Hm : 0 <= (a * W) mod q < W).
  { pose proof (Z.mod_pos_bound (a * W) q). lia. }
  apply eqm_mod_eq.
  - apply InvMForm_range; [lia|lia|apply MRedParams_inv; assumption|assumption].
  - apply odd_cancel_W; [lia|assumption|].
    rewrite InvMForm_eqm; [|lia|lia|apply MRedParams_inv; assumption|assumption].
    apply eqm_mod.
Qed.

Lemma MForm_InvMForm a q :
  Z.odd q = true -> 2 <= q -> 2 * q <= W -> 0 <= a < W ->
  MForm (InvMForm a q (MRedParams q)) q (BRedParams q) = a mod q.
Proof.
  intros Ho Hq HqW Ha.
  assert (R := InvMForm_range a q (MRedParams q)).
  rewrite MForm_correct;
    [|assumption|assumption|pose proof (R ltac:(lia) HqW (MRedParams_inv q Ho) Ha); lia].
  apply InvMForm_eqm; [lia|assumption|apply MRedParams_inv; assumption|assumption].
Qed.

(** ** CRed *)
Lemma CRed_correct a q : 0 < q -> q <= W -> 0 <= a < 2 * q -> a < W -> CRed a q = a mod q.
Proof. intros. apply csub_small; lia. Qed.

(** ** Exponentiation *)
Lemma ModExp_loop_spec e : forall r x p,
  2 <= p -> 2 * p <= W -> 0 <= r < W -> 0 <= x < W ->
  ModExp_loop r x p (BRedParams p) e = (r * x ^ Zpos e) mod p.
Proof.
  induction e as [e IH|e IH|]; intros r x p Hp HpW Hr Hx; cbn [ModExp_loop].
  - rewrite !BRed_correct by assumption.
    assert (0 <= (r * x) mod p < p) by (apply Z.mod_pos_bound; lia).
    assert (0 <= (x * x) mod p < p) by (apply Z.mod_pos_bound; lia).
    rewrite IH by lia.
    change (eqm p ((r * x) mod p * ((x * x) mod p) ^ Zpos e) (r * x ^ Zpos e~1)).
    rewrite eqm_mod. rewrite (eqm_pow p _ _ _ (eqm_mod p (x * x))).
    apply eqm_eq. rewrite Pos2Z.inj_xI, Z.pow_add_r, Z.pow_mul_r by lia.
    replace (x * x) with (x ^ 2) by ring. rewrite Z.pow_1_r. ring.
  - rewrite !BRed_correct by assumption.
    assert (0 <= (x * x) mod p < p) by (apply Z.mod_pos_bound; lia).
    rewrite IH by lia.
    change (eqm p (r * ((x * x) mod p) ^ Zpos e) (r * x ^ Zpos e~0)).
    rewrite (eqm_pow p _ _ _ (eqm_mod p (x * x))).
    apply eqm_eq. rewrite Pos2Z.inj_xO, Z.pow_mul_r by lia.
    replace (x * x) with (x ^ 2) by ring. reflexivity.
  - rewrite BRed_correct by assumption. rewrite Z.pow_1_r. reflexivity.
Qed.

Lemma ModExp_correct x e p :
  2 <= p -> 2 * p <= W -> 0 <= x < W -> 0 <= e -> ModExp x e p = (x ^ e) mod p.
Proof.
  intros Hp HpW Hx He. destruct e as [|e|e]; cbn [ModExp]; [| |lia].
  - rewrite Z.pow_0_r, Z.mod_small; lia.
  - rewrite ModExp_loop_spec; try assumption; [|split; [lia|reflexivity]].
    rewrite Z.mul_1_l. reflexivity.
Qed.

Lemma ModexpMontgomery_loop_spec e : forall r x q qInv a b,
  Z.odd q = true -> 2 <= q -> 2 * q <= W -> eqm W (q * qInv) 1 ->
  0 <= r < q -> 0 <= x < q ->
  eqm q r (a * W) -> eqm q x (b * W) ->
  ModexpMontgomery_loop r x q qInv e = (a * b ^ Zpos e * W) mod q.
Proof.
  induction e as [e IH|e IH|]; intros r x q qInv a b Ho Hq HqW Hinv Hr Hx Ea Eb;
    cbn [ModexpMontgomery_loop].
  - assert (R1 := MRed_range r x q qInv ltac:(lia) HqW Hinv ltac:(lia) ltac:(lia) ltac:(nia)).
    assert (R2 := MRed_range x x q qInv ltac:(lia) HqW Hinv ltac:(lia) ltac:(lia) ltac:(nia)).
    rewrite (IH _ _ q qInv (a * b) (b * b)); try assumption.
    + f_equal. rewrite Pos2Z.inj_xI, Z.pow_add_r, Z.pow_mul_r by lia.
      replace (b * b) with (b ^ 2) by ring. rewrite Z.pow_1_r. ring.
    + apply odd_cancel_W; [lia|assumption|]. rewrite MRed_eqm by (try lia; nia || assumption).
      rewrite Ea, Eb. apply eqm_eq. ring.
    + apply odd_cancel_W; [lia|assumption|]. rewrite MRed_eqm by (try lia; nia || assumption).
      rewrite Eb. apply eqm_eq. ring.
  - assert (R2 := MRed_range x x q qInv ltac:(lia) HqW Hinv ltac:(lia) ltac:(lia) ltac:(nia)).
    rewrite (IH _ _ q qInv a (b * b)); try assumption.
    + f_equal. rewrite Pos2Z.inj_xO, Z.pow_mul_r by lia.
      replace (b * b) with (b ^ 2) by ring. ring.
    + apply odd_cancel_W; [lia|assumption|]. rewrite MRed_eqm by (try lia; nia || assumption).
      rewrite Eb. apply eqm_eq. ring.
  - apply eqm_mod_eq; [apply MRed_range; try assumption; nia|].
    apply odd_cancel_W; [lia|assumption|]. rewrite MRed_eqm by (try lia; nia || assumption).
    rewrite Ea, Eb, Z.pow_1_r. apply eqm_eq. ring.
Qed.

Lemma ModexpMontgomery_correct x e q b :
  Z.odd q = true -> 2 <= q -> 2 * q <= W -> 0 <= x < q -> 0 <= e ->
  eqm q x (b * W) ->
  ModexpMontgomery x e q (MRedParams q) (BRedParams q) = (b ^ e * W) mod q.
Proof.
  intros Ho Hq HqW Hx He Eb. destruct e as [|e|e]; cbn [ModexpMontgomery]; [| |lia].
  - rewrite MForm_correct by first [assumption | split; [lia|reflexivity]].
    rewrite Z.pow_0_r. reflexivity.
  - rewrite (ModexpMontgomery_loop_spec e _ _ q _ 1 b); try assumption.
    + f_equal. ring.
    + apply MRedParams_inv; assumption.
    + rewrite MForm_correct by first [assumption | split; [lia|reflexivity]].
      apply Z.mod_pos_bound; lia.
    + rewrite MForm_correct by first [assumption | split; [lia|reflexivity]].
      apply eqm_mod.
Qed.

(** ** PowerOf2 *)
Lemma PowerOf2_correct x n q qInv :
  2 <= q -> 2 * q <= W -> eqm W (q * qInv) 1 -> 0 <= n <= 64 ->
  0 <= x < W -> x * 2 ^ n < q * W ->
  0 <= PowerOf2 x n q qInv < q /\ eqm q (PowerOf2 x n q qInv * W) (x * 2 ^ n).
Proof.
  intros Hq HqW Hinv Hn Hx Hb.
  assert (E : PowerOf2 x n q qInv = MRed x (2 ^ n) q qInv).
  { unfold PowerOf2, MRed, MRedConstant. f_equal. cbv zeta.
    assert (E1 : wshr x (64 - n) = mul_hi x (2 ^ n)).
    { unfold wshr, mul_hi.
      assert (EW : W = 2 ^ (64 - n) * 2 ^ n)
        by (rewrite <- Z.pow_add_r by lia; rewrite W_pow; f_equal; lia).
      rewrite EW. symmetry. apply Z.div_mul_cancel_r; apply Z.pow_nonzero; lia. }
    rewrite E1. reflexivity. }
  rewrite E. assert (0 <= 2 ^ n) by (apply Z.pow_nonneg; lia).
  split; [apply MRed_range|apply MRed_eqm]; try assumption; lia.
Qed.
