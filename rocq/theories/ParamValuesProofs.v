(** Proofs about the values of parameters, the constants for dividing by P, and random elements. *)
From Coq Require Import Znumtheory.
From Flocq Require Import IEEE754.Binary IEEE754.Bits IEEE754.BinarySingleNaN.
From Verif Require Import Word ModRed Arith ModRedProofs Fermat Ring RingProofs RingOps RNSSpec GadgetSpec Float64 Ckks Codec Params ParamsSpec ParamsProofs CISwap
  Sampler SamplerSpec SamplerTop Draw DrawSpec DrawFresh ParamValues ParamValuesSpec.
Open Scope Z_scope.

(** ** Products and their lengths *)
Lemma mul_all_product a l : mul_all a l = a * product l.
Proof. apply fold_left_mul_acc. Qed.
Lemma product_app a b : product (a ++ b) = product a * product b.
Proof. induction a as [|x a IH]; cbn [app product fold_right]; [fold (product b); ring|]. fold (product (a ++ b)) (product a). rewrite IH. ring. Qed.
Lemma product_pos l : (forall x, In x l -> 1 <= x) -> 1 <= product l.
Proof.
  induction l as [|x l IH]; intros H; [cbn; lia|]. cbn [product fold_right]. fold (product l).
  pose proof (H x (or_introl eq_refl)). specialize (IH (fun y Hy => H y (or_intror Hy))). clear - H0 IH. nia.
Qed.
Lemma bit_len x : 1 <= x -> has_bits x (BitLen x) /\ 1 <= BitLen x.
Proof.
  intros H. unfold BitLen, has_bits. rewrite (proj2 (Z.eqb_neq _ _)) by lia. rewrite Z.abs_eq by lia. pose proof (Z.log2_nonneg x).
  pose proof (Z.log2_spec x ltac:(lia)) as [A B]. replace (Z.log2 x + 1 - 1) with (Z.log2 x) by ring. rewrite Z.add_1_r. split; [split; assumption|lia].
Qed.
Lemma bits_unique x n m : has_bits x n -> has_bits x m -> 1 <= n -> 1 <= m -> n = m.
Proof.
  intros [A B] [C D] Hn Hm. destruct (Z.lt_trichotomy n m) as [L|[L|L]]; [|exact L|].
  - pose proof (Z.pow_le_mono_r 2 n (m - 1) ltac:(lia) ltac:(lia)). lia.
  - pose proof (Z.pow_le_mono_r 2 m (n - 1) ltac:(lia) ltac:(lia)). lia.
Qed.
(** The length of a product. *)
Lemma bits_mul x y n m k : has_bits x n -> has_bits y m -> has_bits (x * y) k -> 1 <= n -> 1 <= m -> 1 <= k -> n + m - 1 <= k <= n + m.
Proof.
  intros [A B] [C D] [E F] Hn Hm Hk. pose proof (Z.pow_pos_nonneg 2 (n - 1) ltac:(lia) ltac:(lia)). pose proof (Z.pow_pos_nonneg 2 (m - 1) ltac:(lia) ltac:(lia)).
  assert (L : 2 ^ (n - 1 + (m - 1)) <= x * y) by (rewrite Z.pow_add_r by lia; apply Z.mul_le_mono_nonneg; lia).
  assert (U : x * y < 2 ^ (n + m)) by (rewrite Z.pow_add_r by lia; apply Z.mul_lt_mono_nonneg; lia).
  split.
  - assert (n - 1 + (m - 1) < k); [|lia]. apply (Z.pow_lt_mono_r_iff 2); lia.
  - assert (k - 1 < n + m); [|lia]. apply (Z.pow_lt_mono_r_iff 2); lia.
Qed.

Lemma products p : QBigInt p = product (pQ p) /\ PBigInt p = product (pP p) /\ QPBigInt p = product (pQP p) /\ length (pQP p) = QPCount p /\ pQP p = pQ p ++ pP p /\
  forall level, (-1 <= level <= MaxLevel p -> QLvl p level = Ret (product (firstn (Z.to_nat (level + 1)) (pQ p)))) /\
    (level < -1 \/ MaxLevel p < level -> QLvl p level = Panic /\ LogQLvl p level = Panic).
Proof.
  unfold QBigInt, PBigInt, QPBigInt, QBigInt, PBigInt, pQP, pQ, pP, QPCount. rewrite !mul_all_product, product_app, app_length. split; [ring|]. split; [ring|]. split; [ring|].
  split; [reflexivity|]. split; [reflexivity|]. intros level. unfold LogQLvl, QLvl, MaxLevel. split; intros H.
  - rewrite (proj2 (Z.ltb_ge _ _)), (proj2 (Z.ltb_ge _ _)) by lia. cbn [orb]. rewrite mul_all_product, Z.mul_1_l. reflexivity.
  - replace (_ || _) with true; [split; reflexivity|]. symmetry. apply orb_true_iff. destruct H; [left|right]; apply Z.ltb_lt; lia.
Qed.

Lemma firstn_S_product k l : (k < length l)%nat -> product (firstn (S k) l) = product (firstn k l) * nth k l 0.
Proof.
  revert l. induction k as [|k IH]; intros [|x l] H; cbn [length] in H; [lia| |lia|].
  - cbn [firstn nth]. unfold product. cbn [fold_right]. ring.
  - change (firstn (S (S k)) (x :: l)) with (x :: firstn (S k) l). change (firstn (S k) (x :: l)) with (x :: firstn k l). change (nth (S k) (x :: l) 0) with (nth k l 0).
    change (product (x :: firstn (S k) l)) with (x * product (firstn (S k) l)). change (product (x :: firstn k l)) with (x * product (firstn k l)). rewrite (IH l) by lia. ring.
Qed.
Lemma congruent_large x M : 0 < M -> x mod M = 1 -> 2 <= x -> M < x.
Proof. intros HM H Hx. destruct (Z.lt_ge_cases M x) as [L|L]; [exact L|]. exfalso. destruct (Z.eq_dec x M) as [->|N]; [rewrite Z.mod_same in H by lia; lia|]. rewrite Z.mod_small in H by lia. lia. Qed.

Lemma bits fuel logn q p hh sg ty P : NewParameters fuel logn q p hh sg ty = (P, None) -> Forall word q -> Forall word p ->
  has_bits (product q) (LogQ P) /\ has_bits (product p) (LogP P) /\ has_bits (product q * product p) (LogQP P) /\
  LogQ P + LogP P - 1 <= LogQP P <= LogQ P + LogP P /\ LogQLvl P (MaxLevel P) = Ret (LogQ P) /\
  (forall level, 0 <= level <= MaxLevel P -> exists n, LogQLvl P level = Ret n /\ has_bits (product (firstn (Z.to_nat (level + 1)) q)) n) /\
  (forall level n n', 0 <= level < MaxLevel P -> LogQLvl P level = Ret n -> LogQLvl P (level + 1) = Ret n' -> n + logn < n').
Proof.
  intros H Wq Wp. destruct (accepted_moduli _ _ _ _ _ _ _ _ H Wq Wp) as (HL & _ & Hq & _ & (_ & GQ) & (_ & GP)).
  destruct (new_fields _ _ _ _ _ _ _ _ H) as (_ & EQ & EP & _). set (M := 2 ^ (logn + (if ty =? Standard then 1 else 2))) in *.
  assert (PQ : forall l, (forall x, In x l -> In x q \/ In x p) -> 1 <= product l).
  { intros l Hl. apply product_pos. intros x Hx. destruct (Hl x Hx) as [I|I]; [destruct (GQ x I) as (_ & _ & ?)|destruct (GP x I) as (_ & _ & ?)]; lia. }
  assert (P1 : 1 <= product q) by (apply PQ; intros x I; left; exact I). assert (P2 : 1 <= product p) by (apply PQ; intros x I; right; exact I).
  assert (P3 : 1 <= product q * product p) by (clear - P1 P2; nia).
  assert (EA : forall l, mul_all 1 l = product l) by (intros l; rewrite mul_all_product; ring).
  unfold LogQ, LogP, LogQP. rewrite EQ, EP, !mul_all_product, !Z.mul_1_l. destruct (bit_len _ P1) as [B1 C1], (bit_len _ P2) as [B2 C2], (bit_len _ P3) as [B3 C3].
  split; [exact B1|]. split; [exact B2|]. split; [exact B3|]. split; [exact (bits_mul _ _ _ _ _ B1 B2 B3 C1 C2 C3)|].
  assert (QL : forall level, 0 <= level <= MaxLevel P -> LogQLvl P level = Ret (BitLen (product (firstn (Z.to_nat (level + 1)) q)))).
  { intros level Hl. unfold LogQLvl. rewrite (proj1 (proj2 (proj2 (proj2 (proj2 (proj2 (products P))))) level)) by lia. cbn [bind]. unfold pQ. rewrite EQ. reflexivity. }
  assert (EM : MaxLevel P = Z.of_nat (length q) - 1) by (unfold MaxLevel, QCount; rewrite EQ; reflexivity).
  assert (PF : forall k, 1 <= product (firstn k q)) by (intros k; apply PQ; intros x I; left; rewrite <- (firstn_skipn k q); apply in_or_app; left; exact I).
  split. { rewrite QL by lia. rewrite EM. replace (Z.to_nat (Z.of_nat (length q) - 1 + 1)) with (length q) by lia. rewrite firstn_all. reflexivity. }
  split. { intros level Hl. exists (BitLen (product (firstn (Z.to_nat (level + 1)) q))). split; [apply QL; exact Hl|]. apply bit_len. apply PF. }
  intros level n n' Hl E E'. rewrite QL in E, E' by lia. injection E as <-. injection E' as <-.
  replace (Z.to_nat (level + 1 + 1)) with (S (Z.to_nat (level + 1))) by lia. set (k := Z.to_nat (level + 1)). assert (Hk : (k < length q)%nat) by (unfold k; lia).
  rewrite firstn_S_product by exact Hk. pose proof (PF k) as A. set (x := product (firstn k q)) in *. destruct (GQ (nth k q 0) (nth_In _ _ Hk)) as (_ & Y1 & Y2). set (y := nth k q 0) in *.
  assert (HM : 0 < M) by (apply Z.pow_pos_nonneg; destruct (ty =? Standard); lia). pose proof (congruent_large y M HM Y1 ltac:(lia)) as Y3.
  assert (L2 : 2 ^ (logn + 1) <= y).
  { transitivity M; [|lia]. unfold M. apply Z.pow_le_mono_r; [lia|]. destruct (ty =? Standard); lia. }
  destruct (bit_len x A) as [[X1 X2] X3]. destruct (bit_len (x * y) ltac:(clear - A Y2; nia)) as [[Z1 Z2] Z3].
  assert (L : 2 ^ (BitLen x - 1 + (logn + 1)) <= x * y).
  { rewrite Z.pow_add_r by lia. pose proof (Z.pow_pos_nonneg 2 (BitLen x - 1) ltac:(lia) ltac:(lia)). pose proof (Z.pow_pos_nonneg 2 (logn + 1) ltac:(lia) ltac:(lia)).
    apply Z.mul_le_mono_nonneg; lia. }
  assert (BitLen x - 1 + (logn + 1) < BitLen (x * y)); [|lia]. apply (Z.pow_lt_mono_r_iff 2); lia.
Qed.

(** ** Slots *)
Lemma shift_one_small n : 0 <= n <= 62 -> shift_one n = Ret (2 ^ n).
Proof.
  intros H. unfold shift_one. rewrite (proj2 (Z.ltb_ge _ _)) by lia. rewrite Z.shiftl_1_l. f_equal. unfold int_wrap.
  pose proof (Z.pow_pos_nonneg 2 n ltac:(lia) ltac:(lia)). pose proof (Z.pow_le_mono_r 2 n 62 ltac:(lia) ltac:(lia)). change (2 ^ 62) with 4611686018427387904 in *.
  rewrite Z.mod_small by (unfold W; lia). change (2 ^ 63) with 9223372036854775808. rewrite (proj2 (Z.ltb_lt _ _)) by lia. reflexivity.
Qed.
Lemma len_pow n : 0 <= n -> Len64 (2 ^ n) = n + 1.
Proof. intros H. unfold Len64. pose proof (Z.pow_pos_nonneg 2 n ltac:(lia) H). rewrite (proj2 (Z.eqb_neq _ _)) by lia. rewrite Z.log2_pow2 by lia. reflexivity. Qed.
Lemma slots fuel logn q p hh sg ty P ls sc C : NewParameters fuel logn q p hh sg ty = (P, None) -> Ckks_NewParameters P ls sc = Ret (C, None) ->
  exists m, m = (if ty =? Standard then logn - 1 else logn) /\ MaxLogSlots C = Ret m /\ MaxSlots C = Ret (2 ^ m) /\ 0 <= ls <= m /\ Slots C = Ret (2 ^ ls) /\ pN (cRlwe C) = Ret (2 ^ logn).
Proof.
  intros H HC. destruct (new_fields _ _ _ _ _ _ _ _ H) as (E1 & _ & _ & _ & _ & E6 & S1 & _ & I). apply check_sizes in S1. destruct S1 as (HL & _).
  pose proof (new_type _ _ _ _ _ _ _ _ H) as HT. destruct (ckks_new_inv _ _ _ _ HC) as [-> H0].
  eexists. split; [reflexivity|]. set (m := if ty =? Standard then logn - 1 else logn).
  assert (Hm : ls <= m).
  { unfold Ckks_NewParameters in HC. destruct (Equals P zeroParams) as [[]| |]; cbn [bind] in HC; try discriminate. destruct (ringQ P) as [r|] eqn:ER; [|discriminate].
    destruct (_ || _) eqn:E in HC; [discriminate|]. clear HC. apply orb_false_iff in E. destruct E as [E _]. apply Z.ltb_ge in E.
    unfold initRings in I. cbn [logN qi pi ringType sigma h ringP] in I. destruct (NewRingFromType fuel (2 ^ logn) q ty) as [rq|] eqn:EQ; [|discriminate I].
    assert (ER' : ringQ P = Some rq).
    { destruct (Nat.eqb (length p) 0); [injection I as <-; reflexivity|]. destruct (NewRingFromType fuel (2 ^ logn) p ty); [injection I as <-; reflexivity|discriminate I]. }
    rewrite ER' in ER. injection ER as <-. clear I ER'.
    unfold NewRingFromType in EQ. unfold m. destruct (Z.eqb_spec ty Standard) as [_|_].
    - destruct (NewRingWithCustomNTT _ _ _ _) as [r'|] eqn:E' in EQ; [|discriminate EQ]. destruct (custom_inv _ _ _ _ _ E') as (_ & mps & _ & ->). assert (RR : rNthRoot rq = 2 * 2 ^ logn) by (injection EQ as <-; reflexivity). rewrite RR in E.
      replace (2 * 2 ^ logn) with (2 ^ (logn + 1)) in E by (rewrite Z.pow_add_r by lia; ring). rewrite len_pow in E by lia. lia.
    - destruct (ty =? ConjugateInvariant); [|discriminate EQ]. destruct (NewRingWithCustomNTT _ _ _ _) as [r'|] eqn:E' in EQ; [|discriminate EQ]. destruct (custom_inv _ _ _ _ _ E') as (_ & mps & _ & ->).
      assert (RR : rNthRoot rq = 4 * 2 ^ logn) by (injection EQ as <-; reflexivity). rewrite RR in E. replace (4 * 2 ^ logn) with (2 ^ (logn + 2)) in E by (rewrite Z.pow_add_r by lia; ring). rewrite len_pow in E by lia. lia. }
  assert (Hm' : m <= logn) by (unfold m; destruct (ty =? Standard); lia).
  unfold MaxLogSlots, MaxSlots, Slots, pN. cbn [cRlwe cLogSlots]. rewrite E1, E6, !shift_one_small by lia. cbn [bind]. unfold m.
  destruct HT as [->| ->].
  - change (0 =? Standard) with true in *. cbv iota in *. split; [reflexivity|]. split; [|split; [unfold m in Hm; lia|split; reflexivity]].
    f_equal. rewrite Z.shiftr_div_pow2 by lia. rewrite Z.pow_sub_r by lia. reflexivity.
  - change (1 =? Standard) with false in *. change (1 =? ConjugateInvariant) with true. cbv iota in *. split; [reflexivity|]. split; [reflexivity|].
    split; [unfold m in Hm; lia|split; reflexivity].
Qed.

(** ** Division of switching keys by P *)
Lemma prime_product q l : prime q -> (forall x, In x l -> ~ (q | x)) -> ~ (q | product l).
Proof.
  intros Hq. induction l as [|x l IH]; intros H D.
  - cbn in D. apply Z.divide_1_r in D. pose proof (prime_ge_2 q Hq). lia.
  - cbn [product fold_right] in D. fold (product l) in D. apply prime_mult in D; [|exact Hq]. destruct D as [D|D]; [exact (H x (or_introl eq_refl) D)|].
    apply IH; [intros y Hy; apply H; right; exact Hy|exact D].
Qed.
Lemma rescaling Q P i : (i < length Q)%nat -> let q := nth i Q 0 in prime q -> Z.odd q = true -> q < 2 ^ 63 -> (forall x, In x P -> ~ (q | x)) ->
  length (GenSwitchkeysRescalingParams Q P) = length Q /\ let c := nth i (GenSwitchkeysRescalingParams Q P) 0 in 0 <= c < q /\
  forall x, MRed ((x * product P) mod q) c q (MRedParams q) = x mod q.
Proof.
  intros Hi q Hq Ho HW HP. split; [apply map_length|]. cbv zeta. pose proof (prime_ge_2 q Hq) as G2. assert (W2 : 2 * q <= W) by (change (2 ^ 63) with 9223372036854775808 in HW; unfold W; lia).
  unfold GenSwitchkeysRescalingParams. rewrite (nth_indep _ 0 ((fun q => MForm (ModExp (mul_all 1 P mod q) (wsub q 2) q) q (BRedParams q)) 0)) by (rewrite map_length; exact Hi).
  rewrite (map_nth (fun q => MForm (ModExp (mul_all 1 P mod q) (wsub q 2) q) q (BRedParams q))). fold q. rewrite mul_all_product, Z.mul_1_l.
  pose proof (prime_product q P Hq HP) as ND. set (PP := product P) in *. pose proof (Z.mod_pos_bound PP q ltac:(lia)) as RB.
  assert (EW : wsub q 2 = q - 2) by (unfold wsub; apply w64_small; unfold W in *; lia). rewrite EW.
  rewrite ModExp_correct by lia. pose proof (Z.mod_pos_bound ((PP mod q) ^ (q - 2)) q ltac:(lia)) as R2. rewrite MForm_correct by lia.
  set (inv := ((PP mod q) ^ (q - 2)) mod q) in *. pose proof (Z.mod_pos_bound (inv * W) q ltac:(lia)) as R3. split; [exact R3|]. intros x.
  assert (EI : eqm q (PP * inv) 1).
  { unfold inv. rewrite eqm_mod. transitivity (PP mod q * (PP mod q) ^ (q - 2)); [unfold eqm; rewrite Zmult_mod_idemp_l; reflexivity|]. apply fermat_inv; [exact Hq|]. intros D. apply ND. apply Z.mod_divide; [lia|].
    apply Z.mod_divide in D; [|lia]. rewrite Z.mod_mod in D by lia. exact D. }
  pose proof (Z.mod_pos_bound (x * PP) q ltac:(lia)) as R1. pose proof (MRedParams_inv q Ho) as Hinv.
  assert (HB : (x * PP) mod q * ((inv * W) mod q) < q * W) by (clear - R1 R3 W2; assert (0 < W) by reflexivity; nia).
  pose proof (MRed_range ((x * PP) mod q) ((inv * W) mod q) q (MRedParams q) ltac:(lia) W2 Hinv (proj1 R1) (proj1 R3) HB) as RR.
  pose proof (MRed_eqm ((x * PP) mod q) ((inv * W) mod q) q (MRedParams q) ltac:(lia) W2 Hinv (proj1 R1) (proj1 R3) HB) as RE.
  set (y := MRed _ _ _ _) in *. rewrite <- (Z.mod_small y q RR). apply odd_cancel_W; [lia|exact Ho|]. rewrite RE, !eqm_mod.
  transitivity (x * W * (PP * inv)); [apply eqm_eq; ring|]. rewrite EI. apply eqm_eq. ring.
Qed.
Lemma rescaling_shared Q P i : (i < length Q)%nat -> let q := nth i Q 0 in prime q -> 3 <= q < 2 ^ 63 -> (exists x, In x P /\ (q | x)) -> nth i (GenSwitchkeysRescalingParams Q P) 0 = 0.
Proof.
  intros Hi q Hq [G3 HW] (x & Hx & D). assert (W2 : 2 * q <= W) by (change (2 ^ 63) with 9223372036854775808 in HW; unfold W; lia).
  unfold GenSwitchkeysRescalingParams. rewrite (nth_indep _ 0 ((fun q => MForm (ModExp (mul_all 1 P mod q) (wsub q 2) q) q (BRedParams q)) 0)) by (rewrite map_length; exact Hi).
  rewrite (map_nth (fun q => MForm (ModExp (mul_all 1 P mod q) (wsub q 2) q) q (BRedParams q))). fold q. rewrite mul_all_product, Z.mul_1_l.
  assert (DP : (q | product P)).
  { clear - Hx D. induction P as [|y P IH]; [destruct Hx|]. cbn [product fold_right]. fold (product P). destruct Hx as [->|Hx]; [apply Z.divide_mul_l; exact D|apply Z.divide_mul_r; exact (IH Hx)]. }
  apply Z.mod_divide in DP; [|lia]. rewrite DP. assert (EW : wsub q 2 = q - 2) by (unfold wsub; apply w64_small; unfold W in *; lia). rewrite EW.
  rewrite ModExp_correct by lia. rewrite Z.pow_0_l by lia. rewrite Z.mod_0_l by lia. rewrite MForm_correct by lia. rewrite Z.mul_0_l. apply Z.mod_0_l. lia.
Qed.

(** ** Uniform polynomials *)
Lemma uniform_all r : built_ring 2 r -> forall fuel s pol g level, length pol = S level -> has_rows (rN r) level pol -> (level < length (rmods r))%nat ->
  match Uniform_Read fuel s r pol g with
  | Ret (pol', g') => words r level canon pol' /\ length pol' = S level /\ (pos g + rN r <= pos g')%nat /\
      forall s', agree s s' (pos g) (pos g') -> Uniform_Read fuel s' r pol g = Ret (pol', g')
  | Fail => True
  | Panic => False
  end.
Proof.
  intros HB fuel s pol g level EL HR HL. assert (HA : (0 < length pol <= length (rmods r))%nat) by lia. rewrite (read_all r pol HA). replace (length pol - 1)%nat with level by lia.
  destruct (Uniform_ReadLvl fuel s r level pol g) as [[pol' g']| |] eqn:E; [|exact Logic.I|].
  - destruct (uniform_canonical r HB s level pol g pol' g' fuel HL HR E) as (A & B & _). destruct (uniform_reads _ _ _ _ _ _ _ _ E) as [C D].
    split; [exact A|]. split; [lia|]. split; [exact C|]. intros s' Hs. rewrite (read_all r pol HA). replace (length pol - 1)%nat with level by lia. apply D. exact Hs.
  - exact (uniform_no_panic r HB s level pol g fuel HL HR E).
Qed.
Lemma uniform_too_long fuel s r pol g : (length (rmods r) < length pol)%nat -> Uniform_Read fuel s r pol g = Panic.
Proof. intros H. unfold Uniform_Read. destruct (Clock _ _ _). rewrite (proj2 (Nat.leb_gt _ _)) by exact H. reflexivity. Qed.

Lemma uniform_QP rQ rP : built_ring 2 rQ -> built_ring 2 rP -> forall fuel s a b la lb g, length a = S la -> has_rows (rN rQ) la a -> (la < length (rmods rQ))%nat ->
  length b = S lb -> has_rows (rN rP) lb b -> (lb < length (rmods rP))%nat ->
  match UniformQP_Read fuel s (Some rQ) (Some rP) (Some a) (Some b) g with
  | Ret ((Some a', Some b'), g') => words rQ la canon a' /\ length a' = S la /\ words rP lb canon b' /\ length b' = S lb /\ (pos g + rN rQ + rN rP <= pos g')%nat /\
      forall s', agree s s' (pos g) (pos g') -> UniformQP_Read fuel s' (Some rQ) (Some rP) (Some a) (Some b) g = Ret ((Some a', Some b'), g')
  | Ret _ => False
  | Fail => True
  | Panic => False
  end.
Proof.
  intros BQ BP fuel s a b la lb g A1 A2 A3 B1 B2 B3. unfold UniformQP_Read, read_opt. pose proof (uniform_all rQ BQ fuel s a g la A1 A2 A3) as HA.
  destruct (Uniform_Read fuel s rQ a g) as [[a' g1]| |]; cbn [bind]; [|exact Logic.I|exact HA]. destruct HA as (A4 & A5 & A6 & A7).
  pose proof (uniform_all rP BP fuel s b g1 lb B1 B2 B3) as HB. destruct (Uniform_Read fuel s rP b g1) as [[b' g2]| |]; cbn [bind]; [|exact Logic.I|exact HB].
  destruct HB as (B4 & B5 & B6 & B7). split; [exact A4|]. split; [exact A5|]. split; [exact B4|]. split; [exact B5|]. split; [lia|]. intros s' Hs.
  rewrite A7 by (apply (agree_sub _ _ _ _ _ _ Hs); lia). cbn [bind]. rewrite B7 by (apply (agree_sub _ _ _ _ _ _ Hs); lia). reflexivity.
Qed.
Lemma uniform_nil fuel s rQ rP a b g : UniformQP_Read fuel s rQ None a b g = (let* '(a, g) := read_opt fuel s rQ a g in Ret ((a, b), g)) /\
  UniformQP_Read fuel s None rP a b g = (let* '(b, g) := read_opt fuel s rP b g in Ret ((a, b), g)).
Proof.
  unfold UniformQP_Read. split.
  - destruct (read_opt fuel s rQ a g) as [[x y]| |]; cbn [bind]; try reflexivity. destruct b; reflexivity.
  - destruct a; reflexivity.
Qed.

(** ** Random elements *)
Lemma zero_rows_shape N level : length (zero_rows N (S level)) = S level /\ has_rows N level (zero_rows N (S level)).
Proof.
  unfold zero_rows. rewrite repeat_length. split; [reflexivity|]. split; [rewrite repeat_length; lia|]. intros i Hi.
  rewrite (nth_indep _ [] (repeat 0 N)) by (rewrite repeat_length; lia). rewrite nth_repeat, repeat_length. reflexivity.
Qed.
Lemma populate_all r : built_ring 2 r -> forall fuel s level n g, (level < length (rmods r))%nat ->
  match populate fuel s r (repeat (zero_rows (rN r) (S level)) n) g with
  | Ret (v, g') => length v = n /\ (forall pol, In pol v -> words r level canon pol /\ length pol = S level) /\ (pos g + n * rN r <= pos g')%nat /\
      forall s', agree s s' (pos g) (pos g') -> populate fuel s' r (repeat (zero_rows (rN r) (S level)) n) g = Ret (v, g')
  | Fail => True
  | Panic => False
  end.
Proof.
  intros HB fuel s level n. induction n as [|n IH]; intros g HL; cbn [repeat populate].
  - split; [reflexivity|]. split; [intros pol []|]. split; [lia|]. reflexivity.
  - destruct (zero_rows_shape (rN r) level) as [Z1 Z2]. pose proof (uniform_all r HB fuel s _ g level Z1 Z2 HL) as HA.
    destruct (Uniform_Read fuel s r (zero_rows (rN r) (S level)) g) as [[p g1]| |]; cbn [bind]; [|exact Logic.I|exact HA]. destruct HA as (A1 & A2 & A3 & A4).
    specialize (IH g1 HL). destruct (populate fuel s r _ g1) as [[v g2]| |]; cbn [bind]; [|exact Logic.I|exact IH]. destruct IH as (B1 & B2 & B3 & B4).
    split; [cbn [length]; lia|]. split; [intros pol [<-|Hp]; [split; assumption|exact (B2 pol Hp)]|]. split; [lia|]. intros s' Hs.
    rewrite A4 by (apply (agree_sub _ _ _ _ _ _ Hs); lia). cbn [bind]. rewrite B4 by (apply (agree_sub _ _ _ _ _ _ Hs); lia). reflexivity.
Qed.
Lemma random_element r : built_ring 2 r -> forall fuel s degree level scale g, (level < length (rmods r))%nat ->
  match NewCiphertextRandom fuel s r degree level scale g with
  | Ret (c, g') => length (ctV c) = S degree /\ ctScale c = scale /\ (forall i, (i <= degree)%nat -> words r level canon (comp c i) /\ length (comp c i) = S level) /\
      (pos g + (degree + 1) * rN r <= pos g')%nat /\ forall s', agree s s' (pos g) (pos g') -> NewCiphertextRandom fuel s' r degree level scale g = Ret (c, g')
  | Fail => True
  | Panic => False
  end.
Proof.
  intros HB fuel s degree level scale g HL. unfold NewCiphertextRandom, rlwe_NewCiphertext. cbn [ctV ctNTT].
  pose proof (populate_all r HB fuel s level (S degree) g HL) as H. destruct (populate fuel s r _ g) as [[v g']| |]; cbn [bind]; [|exact Logic.I|exact H].
  destruct H as (A & B & C & D). cbn [ctV ctScale]. split; [exact A|]. split; [reflexivity|]. split; [|split; [lia|intros s' Hs; rewrite (D s' Hs); reflexivity]].
  intros i Hi. apply B. unfold comp. cbn [ctV]. apply nth_In. lia.
Qed.
Lemma random_panics fuel s r degree level scale g : (length (rmods r) <= level)%nat -> NewCiphertextRandom fuel s r degree level scale g = Panic.
Proof.
  intros H. unfold NewCiphertextRandom, rlwe_NewCiphertext. cbn [ctV repeat populate]. rewrite uniform_too_long; [reflexivity|].
  rewrite (proj1 (zero_rows_shape (rN r) level)). lia.
Qed.
Lemma random_rejected fuel s r degree level scale g c g' : NewCiphertextRandom fuel s r degree level scale g = Ret (c, g') ->
  ctNTT c = false /\ forall r' other out pool, Add r' c other out pool = None /\ Add r' other c out pool = None /\ Sub r' c other out pool = None /\ Sub r' other c out pool = None.
Proof.
  unfold NewCiphertextRandom. destruct (populate _ _ _ _ _) as [[v g1]| |]; cbn [bind]; try discriminate. intros H. injection H as <- <-. split; [reflexivity|].
  intros r' other out pool. unfold Add, Sub, checkBinary. cbn [ctNTT rlwe_NewCiphertext]. rewrite !andb_false_r. cbn [andb]. repeat split; reflexivity.
Qed.

Lemma share_level r : ((2 <= length (rmods r))%nat -> (length (NewAdditiveShare r) < length (rmods r))%nat) /\ forall level, length (NewAdditiveShareAtLevel r level) = S level /\ has_rows (rN r) level (NewAdditiveShareAtLevel r level).
Proof. split; [intros H; exact H|]. intros level. apply zero_rows_shape. Qed.
Lemma smallest_largest a b : let '(x, y, same) := GetSmallestLargest a b in
  ((x = a /\ y = b) \/ (x = b /\ y = a)) /\ (ctDegree x <= ctDegree y)%nat /\ (same = true <-> ctDegree a = ctDegree b) /\ (same = true -> x = a /\ y = b).
Proof.
  unfold GetSmallestLargest. destruct (Nat.ltb_spec (ctDegree b) (ctDegree a)); [|destruct (Nat.ltb_spec (ctDegree a) (ctDegree b))].
  - split; [right; split; reflexivity|]. split; [lia|]. split; [split; [discriminate|intros; lia]|discriminate].
  - split; [left; split; reflexivity|]. split; [lia|]. split; [split; [discriminate|intros; lia]|discriminate].
  - split; [left; split; reflexivity|]. split; [lia|]. split; [split; [intros _; lia|reflexivity]|intros _; split; reflexivity].
Qed.
