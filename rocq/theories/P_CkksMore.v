(** C63-C68: the remaining functions of the evaluator of ckks.  [decrypts rQ L sk c M] says that rlwe's Decrypt of the
    ciphertext c gives M; [ct_ok rQ level B c] that c is a ciphertext of that level with words below B(q) (CkksSpec.v). *)
From Coq Require Import Reals.
From Flocq Require IEEE754.BinarySingleNaN.
From Verif Require Import Word Arith PolySpec Ring NTT RingOps RNSSpec Automorphism Gadget GadgetSpec RlweSpec Rlwe Float64 ScalingSpec FrlweEx Ckks CkksSpec CkksEx CkksRefute CkksMore CkksMoreSpec CkksMoreProofs CkksMoreTop CkksNoMod CkksMoreEx.
Open Scope Z_scope.

(** ** C63: MultByConstAndAdd.  The constant is used at the scale sigma, the receiver is multiplied by f: to reach the
    scale S of the product if S is larger; if S is smaller, the constant is used at the ratio of the scales. *)
Theorem C63_mult_by_const_and_add : forall rQ, built_ring 9 rQ -> forall L, rN rQ = (2 ^ L)%nat ->
  forall level0 level1 B0 B1 c k out sk s M0 Mo,
  secret rQ L sk s ->
  ct_ok rQ level0 B0 c -> ct_ok rQ level1 B1 out -> fits rQ B0 -> fits rQ B1 -> decrypts rQ L sk c M0 -> decrypts rQ L sk out Mo -> (ctDegree c <= ctDegree out)%nat ->
  BinarySingleNaN.is_finite (ctScale c) = true -> BinarySingleNaN.is_finite (ctScale out) = true -> (0 < BinarySingleNaN.B2R (ctScale c))%R -> (0 < BinarySingleNaN.B2R (ctScale out))%R ->
  let level := Nat.min level0 level1 in let q := f64_of_Z (mq (rmod rQ level)) in
  let ratio := f64_div (ctScale out) (ctScale c) in let '(re, im) := const_parts k in
  BinarySingleNaN.is_finite ratio = true -> in_range re q -> in_range im q -> in_range re ratio -> in_range im ratio ->
  (forall sigma, sigma = f64_of_Z 1 \/ sigma = q -> 1 <= match_factor (f64_mul (ctScale c) sigma) (ctScale out) < 2 ^ 52) ->
  exists sigma0 sigma f a b c', (sigma0 = f64_of_Z 1 \/ sigma0 = q) /\
    (forall x y, float_int re x -> float_int im y -> Z.abs x < 2 ^ 52 -> Z.abs y < 2 ^ 52 -> sigma0 = f64_of_Z 1) /\
    (let S := f64_mul (ctScale c) sigma0 in
     (f64_lt (ctScale out) S = true /\ sigma = sigma0 /\ f = match_factor S (ctScale out) /\ ctScale c' = S) \/
     (f64_lt S (ctScale out) = true /\ sigma = ratio /\ f = 1 /\ ctScale c' = ctScale out) \/
     (f64_lt (ctScale out) S = false /\ f64_lt S (ctScale out) = false /\ sigma = sigma0 /\ f = 1 /\ ctScale c' = ctScale out)) /\
    near_product re sigma a /\ near_product im sigma b /\
    MultByConstAndAdd rQ c k out = Some c' /\ ct_ok rQ level B1 c' /\ ctDegree c' = ctDegree out /\
    decrypts rQ L sk c' (padd (pscale f Mo) (pmul (rN rQ) (pgauss (rN rQ) a b) M0)).
Proof. exact CkksMoreTop.const_and_add. Qed.
Print Assumptions C63_mult_by_const_and_add.

Example C63_case : exists M Mo c' f a b, decrypts gQ 4 (fst g_sk) (g_ct 1 1 1024) M /\ decrypts gQ 4 (fst g_sk) (g_ct 2 1 1024) Mo /\
  MultByConstAndAdd gQ (g_ct 1 1 1024) (CInt 3) (g_ct 2 1 1024) = Some c' /\ decrypts gQ 4 (fst g_sk) c' (padd (pscale f Mo) (pmul 16 (pgauss 16 a b) M)).
Proof.
  assert (K0 : ct_ok gQ 1 canon (g_ct 1 1 1024)) by (apply ctb_ok; vm_compute; reflexivity).
  destruct (g_decrypts 1 canon _ K0 g_fits_canon) as [M D0].
  assert (K1 : ct_ok gQ 1 canon (g_ct 2 1 1024)) by (apply ctb_ok; vm_compute; reflexivity).
  destruct (g_decrypts 1 canon _ K1 g_fits_canon) as [Mo D1].
  pose proof (C63_mult_by_const_and_add gQ gQ_built 4 eq_refl 1 1 canon canon (g_ct 1 1 1024) (CInt 3) (g_ct 2 1 1024) (fst g_sk) ex_s M Mo g_secret K0 K1 g_fits_canon g_fits_canon D0 D1 (le_n _)) as H.
  destruct H as (sigma0 & sigma & f & a & b & c' & _ & _ & _ & _ & _ & E & _ & _ & D).
  - vm_compute. reflexivity.
  - vm_compute. reflexivity.
  - change (ctScale (g_ct 1 1 1024)) with (f64_of_Z 1024). rewrite (proj2 (CkksFloat.of_Z_int 1024 ltac:(discriminate))). apply IZR_lt. reflexivity.
  - change (ctScale (g_ct 2 1 1024)) with (f64_of_Z 1024). rewrite (proj2 (CkksFloat.of_Z_int 1024 ltac:(discriminate))). apply IZR_lt. reflexivity.
  - vm_compute. reflexivity.
  - apply small_range; vm_compute; reflexivity.
  - apply small_range; vm_compute; reflexivity.
  - apply small_range; vm_compute; reflexivity.
  - apply small_range; vm_compute; reflexivity.
  - intros sigma [-> | ->]; vm_compute; (split; [discriminate|reflexivity]).
  - exists M, Mo, c', f, a, b. split; [exact D0|]. split; [exact D1|]. split; [exact E|exact D].
Qed.

(** ** C64: products with Gaussian integers, of any of the accepted types. *)
Theorem C64_mult_by_gaussian_integer : forall rQ, built_ring 9 rQ -> forall L, rN rQ = (2 ^ L)%nat ->
  forall level level' B c re im out sk s M,
  secret rQ L sk s -> ct_ok rQ level B c -> fits rQ B -> decrypts rQ L sk c M ->
  shaped (ctDegree c) level' out -> (level' <= level)%nat -> gint_word re -> gint_word im ->
  let c' := MultByGaussianInteger rQ c re im out in
  ct_ok rQ level' canon c' /\ ctDegree c' = ctDegree c /\ ctScale c' = ctScale c /\ decrypts rQ L sk c' (pmul (rN rQ) (pgauss (rN rQ) (gint_value re) (gint_value im)) M).
Proof. exact CkksMoreProofs.gauss_correct. Qed.
Print Assumptions C64_mult_by_gaussian_integer.

Theorem C64_mult_by_gaussian_integer_and_add : forall rQ, built_ring 9 rQ -> forall L, rN rQ = (2 ^ L)%nat ->
  forall level level' B Bo c re im out sk s M Mo,
  secret rQ L sk s -> ct_ok rQ level B c -> fits rQ B -> ct_ok rQ level' Bo out -> fits rQ Bo ->
  decrypts rQ L sk c M -> decrypts rQ L sk out Mo -> (level' <= level)%nat -> (ctDegree c <= ctDegree out)%nat -> gint_word re -> gint_word im ->
  let c' := MultByGaussianIntegerAndAdd rQ c re im out in
  ct_ok rQ level' Bo c' /\ ctDegree c' = ctDegree out /\ ctScale c' = ctScale out /\ decrypts rQ L sk c' (padd Mo (pmul (rN rQ) (pgauss (rN rQ) (gint_value re) (gint_value im)) M)).
Proof. exact CkksMoreProofs.gauss_add_correct. Qed.
Print Assumptions C64_mult_by_gaussian_integer_and_add.

Example C64_case : exists M Mo, decrypts gQ 4 (fst g_sk) (g_ct 1 1 1024) M /\ decrypts gQ 4 (fst g_sk) (g_ct 2 1 1024) Mo /\
  decrypts gQ 4 (fst g_sk) (MultByGaussianIntegerAndAdd gQ (g_ct 1 1 1024) (GInt (-97)) (GBig (2 ^ 70)) (g_ct 2 1 1024)) (padd Mo (pmul 16 (pgauss 16 (-97) (2 ^ 70)) M)).
Proof.
  assert (K0 : ct_ok gQ 1 canon (g_ct 1 1 1024)) by (apply ctb_ok; vm_compute; reflexivity).
  destruct (g_decrypts 1 canon _ K0 g_fits_canon) as [M D0].
  assert (K1 : ct_ok gQ 1 canon (g_ct 2 1 1024)) by (apply ctb_ok; vm_compute; reflexivity).
  destruct (g_decrypts 1 canon _ K1 g_fits_canon) as [Mo D1].
  exists M, Mo. split; [exact D0|]. split; [exact D1|].
  apply (C64_mult_by_gaussian_integer_and_add gQ gQ_built 4 eq_refl 1 1 canon canon (g_ct 1 1 1024) (GInt (-97)) (GBig (2 ^ 70)) (g_ct 2 1 1024) (fst g_sk) ex_s M Mo g_secret K0 g_fits_canon K1 g_fits_canon D0 D1 (le_n _) (le_n _)).
  - split; [discriminate|reflexivity].
  - exact I.
Qed.

(** ** C65: SetScale.  The ratio of the scales is used as a constant at the scale q of the last modulus and one rescaling
    divides by q, if the ratio is not an integer and the scale before is at least half of the one asked for (up to the
    roundings of float64) and below q/2 times it. *)
Theorem C65_set_scale : forall rQ, built_ring 9 rQ -> forall L, rN rQ = (2 ^ L)%nat ->
  forall level B c scale sk s M,
  secret rQ L sk s -> ct_ok rQ level B c -> fits rQ B -> decrypts rQ L sk c M -> (0 < level)%nat ->
  let q := f64_of_Z (mq (rmod rQ level)) in let ratio := f64_div scale (ctScale c) in let up := f64_mul (ctScale c) q in
  in_range ratio q -> (forall k, BinarySingleNaN.B2R ratio <> IZR k) -> f64_le scale f64_zero = false -> f64_eq up f64_zero = false ->
  f64_le (f64_div scale (f64_of_Z 2)) (rescaled_scale rQ level 1 up) = true ->
  f64_le (f64_div scale (f64_of_Z 2)) (rescaled_scale rQ level 2 up) = false ->
  exists c' a M' R, SetScale rQ c scale = Done c' /\ ct_ok rQ (level - 1) canon c' /\ ctDegree c' = ctDegree c /\ ctScale c' = scale /\
    near_product ratio q a /\ decrypts rQ L sk c' M' /\
    (forall k, (k < (rN rQ))%nat -> mq (rmod rQ level) * M' k + psum (S (ctDegree c)) (fun j => pmul (rN rQ) (R j) (ppow (rN rQ) s j)) k = a * M k) /\
    (forall j k, (k < (rN rQ))%nat -> 2 * Z.abs (R j k) < mq (rmod rQ level)).
Proof. exact CkksMoreTop.set_scale_rescales. Qed.
Print Assumptions C65_set_scale.

(** An integer ratio: the factor is exact, no level is used. *)
Theorem C65_set_scale_integer : forall rQ, built_ring 9 rQ -> forall L, rN rQ = (2 ^ L)%nat ->
  forall level B c scale f sk s M,
  secret rQ L sk s -> ct_ok rQ level B c -> fits rQ B -> decrypts rQ L sk c M -> (0 < level)%nat ->
  float_int (f64_div scale (ctScale c)) f -> Z.abs f < 2 ^ 52 -> BinarySingleNaN.is_finite (ctScale c) = true -> f64_le scale f64_zero = false -> f64_eq (ctScale c) f64_zero = false ->
  f64_le (f64_div scale (f64_of_Z 2)) (rescaled_scale rQ level 1 (ctScale c)) = false ->
  exists c', SetScale rQ c scale = Done c' /\ ct_ok rQ level canon c' /\ ctDegree c' = ctDegree c /\ ctScale c' = scale /\ decrypts rQ L sk c' (pscale f M).
Proof. exact CkksMoreTop.set_scale_integer. Qed.
Print Assumptions C65_set_scale_integer.

(** With a scale below half of the one asked for there is no division: the factor a is q times the ratio. *)
Theorem C65_set_scale_without_rescale : forall rQ, built_ring 9 rQ -> forall L, rN rQ = (2 ^ L)%nat ->
  forall level B c scale sk s M,
  secret rQ L sk s -> ct_ok rQ level B c -> fits rQ B -> decrypts rQ L sk c M -> (0 < level)%nat ->
  let q := f64_of_Z (mq (rmod rQ level)) in let ratio := f64_div scale (ctScale c) in let up := f64_mul (ctScale c) q in
  in_range ratio q -> (forall k, BinarySingleNaN.B2R ratio <> IZR k) -> f64_le scale f64_zero = false -> f64_eq up f64_zero = false ->
  f64_le (f64_div scale (f64_of_Z 2)) (rescaled_scale rQ level 1 up) = false ->
  exists c' a, SetScale rQ c scale = Done c' /\ ct_ok rQ level canon c' /\ ctDegree c' = ctDegree c /\ ctScale c' = scale /\
    near_product ratio q a /\ decrypts rQ L sk c' (pscale a M).
Proof. exact CkksMoreTop.set_scale_none. Qed.
Print Assumptions C65_set_scale_without_rescale.

(** 1 at the scale 1024 becomes 340 at the scale 3584: the message is multiplied by 97. *)
Theorem C65_set_scale_refuted : exists rQ L sk s c scale c',
  built_ring 9 rQ /\ rN rQ = (2 ^ L)%nat /\ secret rQ L sk s /\ ct_ok rQ 1 canon c /\ ctDegree c = 1%nat /\
  float_int (ctScale c) 1024 /\ float_int scale 3584 /\ decrypts rQ L sk c (pgauss (rN rQ) 1 0) /\
  SetScale rQ c scale = Done c' /\ ct_ok rQ 1 canon c' /\ ctDegree c' = 1%nat /\ ctScale c' = scale /\ decrypts rQ L sk c' (pgauss (rN rQ) 340 0).
Proof. exact CkksMoreEx.set_scale_wrong. Qed.
Print Assumptions C65_set_scale_refuted.

(** At level 0, or for a scale that is not positive, SetScale panics (the error of Rescale); the ciphertext is not returned with a wrong scale. *)
Theorem C65_set_scale_refuses : forall r c scale, (0 < length (ctV c))%nat -> f64_le scale f64_zero = true \/ length (comp c 0) = 1%nat -> SetScale r c scale = Panic.
Proof. exact CkksNoMod.set_scale_refuses. Qed.
Print Assumptions C65_set_scale_refuses.

(** ScaleUp multiplies by the scale, not by 2^scale as its comment says. *)
Theorem C65_scale_up : forall rQ, built_ring 9 rQ -> forall L, rN rQ = (2 ^ L)%nat ->
  forall level level' B c scale out sk s M,
  secret rQ L sk s -> ct_ok rQ level B c -> fits rQ B -> decrypts rQ L sk c M ->
  shaped (ctDegree c) level' out -> (level' <= level)%nat -> 0 <= f64_trunc scale < 2 ^ 52 -> BinarySingleNaN.is_finite (ctScale c) = true ->
  let c' := ScaleUp rQ c scale out in
  ct_ok rQ level' canon c' /\ ctScale c' = f64_mul (ctScale c) scale /\ decrypts rQ L sk c' (pscale (f64_trunc scale) M).
Proof. exact CkksMoreTop.scale_up_ok. Qed.
Print Assumptions C65_scale_up.

Example C65_refuses_case : ct_ok gQ 0 canon (g_ct 1 0 1024) /\ f64_le (f64_of_Z 1000) f64_zero = false /\ SetScale gQ (g_ct 1 0 1024) (f64_of_Z 1000) = Panic.
Proof. split; [apply ctb_ok; vm_compute; reflexivity|]. split; [vm_compute; reflexivity|]. apply C65_set_scale_refuses; [cbn; lia|right; reflexivity]. Qed.

Example C65_case : exists M c' a M' R, decrypts gQ 4 (fst g_sk) (g_ct 1 1 1024) M /\ SetScale gQ (g_ct 1 1 1024) (f64_of_Z 1000) = Done c' /\
  ct_ok gQ 0 canon c' /\ decrypts gQ 4 (fst g_sk) c' M' /\ near_product (f64_div (f64_of_Z 1000) (f64_of_Z 1024)) (f64_of_Z 97) a /\
  forall k, (k < 16)%nat -> 97 * M' k + psum 2 (fun j => pmul 16 (R j) (ppow 16 ex_s j)) k = a * M k.
Proof.
  assert (K0 : ct_ok gQ 1 canon (g_ct 1 1 1024)) by (apply ctb_ok; vm_compute; reflexivity).
  destruct (g_decrypts 1 canon _ K0 g_fits_canon) as [M D0].
  destruct (C65_set_scale gQ gQ_built 4 eq_refl 1 canon (g_ct 1 1 1024) (f64_of_Z 1000) (fst g_sk) ex_s M g_secret K0 g_fits_canon D0 ltac:(lia)) as (c' & a & M' & R & E & Hok & _ & _ & HN & D & HM & _).
  - apply small_range; vm_compute; reflexivity.
  - apply not_integer; vm_compute; reflexivity.
  - vm_compute. reflexivity.
  - vm_compute. reflexivity.
  - vm_compute. reflexivity.
  - vm_compute. reflexivity.
  - exists M, c', a, M', R. split; [exact D0|]. split; [exact E|]. split; [exact Hok|]. split; [exact D|]. split; [exact HN|exact HM].
Qed.

(** ** C66: sums without reduction, reduction, dropped levels. *)
Theorem C66_add_no_mod : forall rQ, built_ring 9 rQ -> forall L, rN rQ = (2 ^ L)%nat ->
  forall level0 level1 lo d B0 B1 c0 c1 out pool sk s M0 M1,
  secret rQ L sk s ->
  ct_ok rQ level0 B0 c0 -> ct_ok rQ level1 B1 c1 -> fits rQ B0 -> fits rQ B1 -> fits rQ (fun q => B0 q + B1 q) ->
  decrypts rQ L sk c0 M0 -> decrypts rQ L sk c1 M1 ->
  (1 <= ctDegree c0 + ctDegree c1)%nat -> shaped d lo out -> (ctDegree c0 <= d)%nat -> (ctDegree c1 <= d)%nat ->
  (ctDegree c0 <= ctDegree pool)%nat -> (ctDegree c1 <= ctDegree pool)%nat ->
  let level := Nat.min (Nat.min level0 level1) lo in (level <= ctLevel pool)%nat ->
  let k0 := match_factor (ctScale c1) (ctScale c0) in let k1 := match_factor (ctScale c0) (ctScale c1) in
  1 <= k0 < 2 ^ 52 -> 1 <= k1 < 2 ^ 52 ->
  exists c, AddNoMod rQ c0 c1 out pool = Some c /\ ct_ok rQ level (fun q => B0 q + B1 q) c /\
    ctDegree c = Nat.max (ctDegree c0) (ctDegree c1) /\ ctScale c = MaxFloat64 (ctScale c0) (ctScale c1) /\
    decrypts rQ L sk c (padd (pscale k0 M0) (pscale k1 M1)).
Proof. exact CkksNoMod.add_nomod. Qed.
Print Assumptions C66_add_no_mod.

Theorem C66_sub_no_mod : forall rQ, built_ring 9 rQ -> forall L, rN rQ = (2 ^ L)%nat ->
  forall level0 level1 lo d B0 c0 c1 out pool sk s M0 M1,
  secret rQ L sk s ->
  ct_ok rQ level0 B0 c0 -> ct_ok rQ level1 closed c1 -> fits rQ B0 -> fits rQ (fun q => B0 q + q) ->
  decrypts rQ L sk c0 M0 -> decrypts rQ L sk c1 M1 ->
  (1 <= ctDegree c0 + ctDegree c1)%nat -> shaped d lo out -> (ctDegree c0 <= d)%nat -> (ctDegree c1 <= d)%nat ->
  (ctDegree c0 <= ctDegree pool)%nat -> (ctDegree c1 <= ctDegree pool)%nat ->
  let level := Nat.min (Nat.min level0 level1) lo in (level <= ctLevel pool)%nat ->
  let k0 := match_factor (ctScale c1) (ctScale c0) in let k1 := match_factor (ctScale c0) (ctScale c1) in
  1 <= k0 < 2 ^ 52 -> 1 <= k1 < 2 ^ 52 ->
  exists c, SubNoMod rQ c0 c1 out pool = Some c /\ ct_ok rQ level (fun q => B0 q + q) c /\
    ctDegree c = Nat.max (ctDegree c0) (ctDegree c1) /\ ctScale c = MaxFloat64 (ctScale c0) (ctScale c1) /\
    decrypts rQ L sk c (psub (pscale k0 M0) (pscale k1 M1)).
Proof. exact CkksNoMod.sub_nomod. Qed.
Print Assumptions C66_sub_no_mod.

Theorem C66_reduce : forall rQ, built_ring 9 rQ -> forall L, rN rQ = (2 ^ L)%nat ->
  forall level level' B c out sk s M,
  secret rQ L sk s -> ct_ok rQ level B c -> fits rQ B ->
  decrypts rQ L sk c M -> shaped (ctDegree c) level' out -> (level' <= level)%nat ->
  exists c', Reduce rQ c out = Some c' /\ ct_ok rQ level' canon c' /\ ctDegree c' = ctDegree c /\ ctScale c' = ctScale c /\ decrypts rQ L sk c' M.
Proof. exact CkksNoMod.ct_reduce. Qed.
Print Assumptions C66_reduce.

Theorem C66_drop_level : forall rQ, built_ring 9 rQ -> forall L, rN rQ = (2 ^ L)%nat ->
  forall level level' B c sk s M,
  secret rQ L sk s -> ct_ok rQ level B c -> fits rQ B -> decrypts rQ L sk c M -> (level' <= level)%nat ->
  let c' := DropLevel c (level - level') in
  ct_ok rQ level' B c' /\ ctDegree c' = ctDegree c /\ ctScale c' = ctScale c /\ decrypts rQ L sk c' M.
Proof. exact CkksMoreProofs.drop_ok. Qed.
Print Assumptions C66_drop_level.

Example C66_case : exists M Mo c c', decrypts gQ 4 (fst g_sk) (g_ct 1 1 1024) M /\ decrypts gQ 4 (fst g_sk) (g_ct 2 1 1024) Mo /\
  AddNoMod gQ (g_ct 1 1 1024) (g_ct 2 1 1024) (g_new 1 1) (g_new 2 1) = Some c /\ Reduce gQ c (g_new 1 1) = Some c' /\ ct_ok gQ 1 canon c' /\
  decrypts gQ 4 (fst g_sk) c' (padd (pscale 1 M) (pscale 1 Mo)).
Proof.
  assert (K0 : ct_ok gQ 1 canon (g_ct 1 1 1024)) by (apply ctb_ok; vm_compute; reflexivity).
  destruct (g_decrypts 1 canon _ K0 g_fits_canon) as [M D0].
  assert (K1 : ct_ok gQ 1 canon (g_ct 2 1 1024)) by (apply ctb_ok; vm_compute; reflexivity).
  destruct (g_decrypts 1 canon _ K1 g_fits_canon) as [Mo D1].
  assert (F2 : fits gQ (fun q => canon q + canon q)).
  { intros i Hi. unfold canon. destruct i as [|[|i]]; [vm_compute; split; discriminate|vm_compute; split; discriminate|cbn in Hi; lia]. }
  destruct (C66_add_no_mod gQ gQ_built 4 eq_refl 1 1 1 1 canon canon (g_ct 1 1 1024) (g_ct 2 1 1024) (g_new 1 1) (g_new 2 1) (fst g_sk) ex_s M Mo g_secret K0 K1 g_fits_canon g_fits_canon F2 D0 D1) as (c & E & Hc & Hd & _ & D).
  - vm_compute. lia.
  - apply (g_new_shaped 1 1); lia.
  - vm_compute. lia.
  - vm_compute. lia.
  - vm_compute. lia.
  - vm_compute. lia.
  - vm_compute. lia.
  - vm_compute. split; [discriminate|reflexivity].
  - vm_compute. split; [discriminate|reflexivity].
  - change (Nat.min (Nat.min 1 1) 1) with 1%nat in Hc.
    destruct (C66_reduce gQ gQ_built 4 eq_refl 1 1 _ c (g_new 1 1) (fst g_sk) ex_s _ g_secret Hc F2 D) as (c' & E' & Hc' & _ & _ & D').
    + rewrite Hd. apply (g_new_shaped 1 1); lia.
    + lia.
    + replace (match_factor (ctScale (g_ct 2 1 1024)) (ctScale (g_ct 1 1 1024))) with 1 in D' by (vm_compute; reflexivity).
      replace (match_factor (ctScale (g_ct 1 1 1024)) (ctScale (g_ct 2 1 1024))) with 1 in D' by (vm_compute; reflexivity).
      exists M, Mo, c, c'. split; [exact D0|]. split; [exact D1|]. split; [exact E|]. split; [exact E'|]. split; [exact Hc'|exact D'].
Qed.

(** ** C67: MulByPow2 is right in place; to another receiver, and so MulByPow2New, the product with W^-1 remains. *)
Theorem C67_mul_by_pow2_in_place : forall rQ, built_ring 9 rQ -> forall L, rN rQ = (2 ^ L)%nat ->
  forall level c k sk s M,
  secret rQ L sk s -> ct_ok rQ level canon c -> decrypts rQ L sk c M -> 0 <= k <= 64 ->
  let c' := MulByPow2_inplace rQ c k in
  ct_ok rQ level canon c' /\ ctDegree c' = ctDegree c /\ ctScale c' = ctScale c /\ decrypts rQ L sk c' (pscale (2 ^ k) M).
Proof. exact CkksNoMod.pow2_correct. Qed.
Print Assumptions C67_mul_by_pow2_in_place.

Theorem C67_mul_by_pow2_receiver : forall rQ, built_ring 9 rQ -> forall L, rN rQ = (2 ^ L)%nat ->
  forall level level' c k out sk s M,
  secret rQ L sk s -> ct_ok rQ level canon c -> decrypts rQ L sk c M -> 0 <= k <= 64 ->
  shaped (ctDegree c) level' out -> (level' <= level)%nat ->
  let c' := MulByPow2 rQ c k out in
  ct_ok rQ level' canon c' /\ exists M', decrypts rQ L sk c' M' /\ forall i, (i <= level')%nat -> peq (rN rQ) (mq (rmod rQ i)) (pscale W M') (pscale (2 ^ k) M).
Proof. exact CkksNoMod.pow2_other. Qed.
Print Assumptions C67_mul_by_pow2_receiver.

Theorem C67_mul_by_pow2_new_refuted : exists rQ L sk s c M scale,
  built_ring 9 rQ /\ rN rQ = (2 ^ L)%nat /\ secret rQ L sk s /\ ct_ok rQ 0 canon c /\ ctDegree c = 1%nat /\ decrypts rQ L sk c M /\
  ~ decrypts rQ L sk (MulByPow2 rQ c 1 (NewCiphertext (rN rQ) 1 0 scale)) (pscale (2 ^ 1) M).
Proof. exact CkksMoreEx.pow2_wrong. Qed.
Print Assumptions C67_mul_by_pow2_new_refuted.

(** MultByiNew and DivByiNew of a ciphertext of degree 1: the result has the level and the scale of the operand. *)
Theorem C67_mult_by_i_new : forall rQ, built_ring 9 rQ -> forall L, rN rQ = (2 ^ L)%nat -> forall level B inverse c sk s M,
  secret rQ L sk s -> ct_ok rQ level B c -> fits rQ B -> ctDegree c = 1%nat -> decrypts rQ L sk c M ->
  let c' := MultByiNew rQ inverse c in
  ct_ok rQ level canon c' /\ ctDegree c' = 1%nat /\ ctScale c' = ctScale c /\
  decrypts rQ L sk c' (pmul (rN rQ) (pgauss (rN rQ) 0 (if inverse then -1 else 1)) M).
Proof. exact mult_i_new. Qed.
Print Assumptions C67_mult_by_i_new.

Example C67_mult_by_i_new_case : exists M, decrypts gQ 4 (fst g_sk) (g_ct 1 1 1024) M /\
  ct_ok gQ 1 canon (MultByiNew gQ true (g_ct 1 1 1024)) /\ decrypts gQ 4 (fst g_sk) (MultByiNew gQ true (g_ct 1 1 1024)) (pmul 16 (pgauss 16 0 (-1)) M).
Proof.
  assert (K0 : ct_ok gQ 1 canon (g_ct 1 1 1024)) by (apply ctb_ok; vm_compute; reflexivity).
  destruct (g_decrypts 1 canon _ K0 g_fits_canon) as [M D0]. exists M. split; [exact D0|].
  destruct (C67_mult_by_i_new gQ gQ_built 4 eq_refl 1 canon true (g_ct 1 1 1024) (fst g_sk) ex_s M g_secret K0 g_fits_canon eq_refl D0) as (A & _ & _ & B).
  split; [exact A|exact B].
Qed.

(** MultByiNew allocates degree 1: the third polynomial of a ciphertext of degree 2 is lost. *)
Theorem C67_mult_by_i_new_refuted : exists rQ L sk s c M,
  built_ring 9 rQ /\ rN rQ = (2 ^ L)%nat /\ secret rQ L sk s /\ ct_ok rQ 0 canon c /\ ctDegree c = 2%nat /\ decrypts rQ L sk c M /\
  ~ decrypts rQ L sk (MultByiNew rQ false c) (pmul (rN rQ) (pgauss (rN rQ) 0 1) M).
Proof. exact CkksMoreEx.mult_i_new_wrong. Qed.
Print Assumptions C67_mult_by_i_new_refuted.

Example C67_case : exists M, decrypts gQ 4 (fst g_sk) (g_ct 1 1 1024) M /\ decrypts gQ 4 (fst g_sk) (MulByPow2_inplace gQ (g_ct 1 1 1024) 20) (pscale (2 ^ 20) M).
Proof.
  assert (K0 : ct_ok gQ 1 canon (g_ct 1 1 1024)) by (apply ctb_ok; vm_compute; reflexivity).
  destruct (g_decrypts 1 canon _ K0 g_fits_canon) as [M D0].
  exists M. split; [exact D0|]. apply (C67_mul_by_pow2_in_place gQ gQ_built 4 eq_refl 1 (g_ct 1 1 1024) 20 (fst g_sk) ex_s M g_secret K0 D0). lia.
Qed.

(** ** C68: hoisted rotations, from one decomposition of the second polynomial. *)
Theorem C68_rotate_hoisted : forall rQ rP L, ring_pair rQ rP -> rN rQ = (2 ^ L)%nat ->
  forall levelK levelP level0 level B rtks key k c p0 p1 p0P p1P out0 out1 poolInv pools sk sec M DQ Be Bs,
    secret rQ L sk sec -> key_levels rQ rP levelK levelP ->
  ct_ok rQ level0 B c -> fits rQ B -> words rQ level0 canon (comp c 1) -> decrypts rQ L sk c M ->
  ctDegree c = 1%nat -> length out0 = S level -> length out1 = S level -> (level <= level0)%nat -> (level <= levelK)%nat ->
  let g := GaloisElementForColumnRotationBy rQ k in k <> 0 -> rtks g = Some key ->
  rotation_key rQ rP L levelK levelP g key sec Be -> blocks_below rQ level levelP DQ -> 0 <= Be -> 0 <= Bs -> pbound (rN rQ) Bs sec ->
  let dig := DecomposeNTT rQ rP level levelP (levelP + 1) (comp c 1) true poolInv pools in
  exists o0 o1 E, RotateHoisted rQ rP level levelP rtks k (comp c 0) (comp c 1) dig p0 p1 p0P p1P out0 out1 = Some (o0, o1) /\
    ct_ok rQ level B (mkCt [o0; o1] (ctScale c) true) /\
    switch_noise rQ rP level levelP DQ Be Bs E /\ decrypts rQ L sk (mkCt [o0; o1] (ctScale c) true) (padd (pauto (rN rQ) (Z.to_nat g) M) E).
Proof. exact CkksNoMod.hoisted_core. Qed.
Print Assumptions C68_rotate_hoisted.

Example C68_case : exists M o0 o1 E, decrypts gQ 4 (fst g_sk) (g_ct 1 1 1024) M /\
  RotateHoisted gQ gP 1 0 g_rtks 1 (comp (g_ct 1 1 1024) 0) (comp (g_ct 1 1 1024) 1)
    (DecomposeNTT gQ gP 1 0 (0 + 1) (comp (g_ct 1 1 1024) 1) true (zrows 2) (fun _ => (zrows 2, zrows 1))) (zrows 2) (zrows 2) (zrows 1) (zrows 1) (zrows 2) (zrows 2) = Some (o0, o1) /\
  switch_noise gQ gP 1 0 12289 1 1 E /\ decrypts gQ 4 (fst g_sk) (mkCt [o0; o1] (f64_of_Z 1024) true) (padd (pauto 16 5 M) E).
Proof.
  assert (K0 : ct_ok gQ 1 canon (g_ct 1 1 1024)) by (apply ctb_ok; vm_compute; reflexivity).
  destruct (g_decrypts 1 canon _ K0 g_fits_canon) as [M D0].
  destruct (C68_rotate_hoisted gQ gP 4 gpair eq_refl 1 0 1 1 canon g_rtks g_rot5 1 (g_ct 1 1 1024) (zrows 2) (zrows 2) (zrows 1) (zrows 1) (zrows 2) (zrows 2) (zrows 2) (fun _ => (zrows 2, zrows 1)) (fst g_sk) ex_s M 12289 1 1 g_secret g_levels K0 g_fits_canon) as (o0 & o1 & E & Ec & _ & HN & D).
  - apply Examples.wordsb_ok. vm_compute. reflexivity.
  - exact D0.
  - reflexivity.
  - reflexivity.
  - reflexivity.
  - lia.
  - lia.
  - discriminate.
  - vm_compute. reflexivity.
  - replace (GaloisElementForColumnRotationBy gQ 1) with 5 by (vm_compute; reflexivity). exact g_rot5_ok.
  - apply g_blocks. lia.
  - lia.
  - lia.
  - exact g_s_bound.
  - exists M, o0, o1, E. split; [exact D0|]. split; [exact Ec|]. split; [exact HN|].
    replace (Z.to_nat (GaloisElementForColumnRotationBy gQ 1)) with 5%nat in D by (vm_compute; reflexivity). exact D.
Qed.
