(** Concrete encoders for the examples and refutations: degree 32, Q = 12289*7681, and degree 16. *)
From Coq Require Import ZArith Reals Lra Lia.
From Flocq Require Import Core IEEE754.Binary IEEE754.Bits IEEE754.BinarySingleNaN.
From Coquelicot Require Import Complex.
From Verif Require Import Word Arith PolySpec Ring NTT RingOps RNSSpec Float64 FloatProofs Ckks CkksSpec CkksFloat Gadget RlweSpec Fft FftSpec SlotSpec SlotProofs Encoder EncSpec EncFloat EncFft EncCoeffs EncSlots Examples CkksEx.
Local Open Scope R_scope.

(** Tables of roots exist, with an error of at most 2^-48. *)
Lemma near_float x : Rabs x <= 1 -> exists f : float64, ffinite f /\ Rabs (fval f - x) <= / 2 ^ 49.
Proof.
  intros Hx. set (k := Zfloor (x * IZR (2 ^ 52))).
  assert (K1 := Zfloor_lb (x * IZR (2 ^ 52))). assert (K2 := Zfloor_ub (x * IZR (2 ^ 52))). fold k in K1, K2.
  apply Rabs_le_inv in Hx.
  assert (P : IZR (2 ^ 52) = 4503599627370496) by reflexivity.
  assert (Hk : (Z.abs k <= 2 ^ 53)%Z).
  { apply Z.abs_le. split; apply le_IZR.
    - rewrite opp_IZR. change (IZR (2 ^ 53)) with 9007199254740992. rewrite P in *. nra.
    - change (IZR (2 ^ 53)) with 9007199254740992. rewrite P in *. nra. }
  destruct (of_Z_int k Hk) as [F1 E1]. destruct (of_Z_int (2 ^ 52) ltac:(discriminate)) as [F2 E2].
  exists (f64_div (f64_of_Z k) (f64_of_Z (2 ^ 52))).
  assert (Q : Rabs (IZR k / IZR (2 ^ 52)) <= 2).
  { unfold Rdiv. rewrite Rabs_mult, (Rabs_pos_eq (/ _)) by (rewrite P; lra). rewrite <- abs_IZR. apply IZR_le in Hk. change (IZR (2 ^ 53)) with 9007199254740992 in Hk. rewrite P. lra. }
  assert (N0 : B2R (f64_of_Z (2 ^ 52)) <> 0) by (rewrite E2, P; lra).
  destruct (div_big _ _ F1 N0) as [E F].
  { rewrite E1, E2. apply Rle_trans with (bpow radix2 1); [change (bpow radix2 1) with 2; exact Q|apply bpow_le; lia]. }
  split; [exact F|]. rewrite E, E1, E2. 
  assert (R := rnd_abs_err (IZR k / IZR (2 ^ 52))).
  replace (rnd (IZR k / IZR (2 ^ 52)) - x) with ((rnd (IZR k / IZR (2 ^ 52)) - IZR k / IZR (2 ^ 52)) + (IZR k / IZR (2 ^ 52) - x)) by ring.
  apply Rle_trans with (1 := Rabs_triang _ _).
  assert (D : Rabs (IZR k / IZR (2 ^ 52) - x) <= / IZR (2 ^ 52)).
  { apply Rabs_le. rewrite P in *. split; lra. }
  assert (U : u64f = / 9007199254740992) by (unfold u64f; rewrite bpow_opp || idtac; cbn; lra).
  assert (B : bpow radix2 (-1000) <= / 9007199254740992).
  { apply Rle_trans with (bpow radix2 (-53)); [apply bpow_le; lia|cbn; lra]. }
  rewrite inv2_49. rewrite U in R. rewrite P in D, R, Q |- *.
  assert (R' : Rabs (rnd (IZR k / 4503599627370496) - IZR k / 4503599627370496) <= / 9007199254740992 * 2 + / 9007199254740992) by lra.
  lra.
Qed.
Lemma near_complex (z : C) : Cmod z <= 1 -> exists f : complex128, cfinite f /\ Cmod (cnum f - z)%C <= / 2 ^ 48.
Proof.
  intros Hz. destruct z as [x y].
  destruct (near_float x) as [f [F1 F2]]; [apply Rle_trans with (1 := Cmod_fst (x, y)); exact Hz|].
  destruct (near_float y) as [g [G1 G2]]; [apply Rle_trans with (1 := Cmod_snd (x, y)); exact Hz|].
  exists (f, g). split; [split; assumption|]. 
  change (cnum (f, g) - (x, y))%C with (fval f - x, fval g - y).
  apply Rle_trans with (1 := Cmod_sum _ _). assert (E : / 2 ^ 48 = 2 * / 2 ^ 49) by lra. lra.
Qed.
Lemma roots_exist M : exists roots, roots_near M (/ 2 ^ 48) roots.
Proof.
  assert (H : forall zs : list C, (forall z, In z zs -> Cmod z <= 1) -> exists fs : list complex128, length fs = length zs /\
    forall i, (i < length zs)%nat -> cfinite (nth i fs c_zero) /\ Cmod (cnum (nth i fs c_zero) - nth i zs (RtoC 0))%C <= / 2 ^ 48).
  { induction zs as [|z zs IH]; intros Hz.
    - exists nil. split; [reflexivity|]. intros i Hi. cbn in Hi. lia.
    - destruct (near_complex z (Hz z (or_introl eq_refl))) as [f Hf]. destruct IH as [fs [L1 L2]]; [intros w Hw; apply Hz; right; exact Hw|].
      exists (f :: fs). split; [cbn; congruence|]. intros [|i] Hi; [exact Hf|]. apply L2. cbn in Hi. lia. }
  destruct (H (exact_roots M)) as [fs [L1 L2]].
  - intros z Hz. apply in_map_iff in Hz. destruct Hz as [j [<- _]]. rewrite Cmod_cis. lra.
  - exists fs. split; [lra|]. intros i Hi. apply L2. unfold exact_roots. rewrite map_length, seq_length. lia.
Qed.

(** The error terms are proportional to the number of rounds. *)
Lemma growth_small delta n : 0 <= delta -> INR n * (delta + / 2 ^ 49) <= / 2 -> growth delta n <= 2 * INR n * (delta + / 2 ^ 49).
Proof.
  intros Hd. unfold growth. assert (0 < / 2 ^ 49) by lra. set (x := delta + / 2 ^ 49) in *. assert (Hx : 0 < x) by (unfold x; lra). clearbody x.
  intros Hn. enough (H1 : (1 + x) ^ n <= 1 + 2 * INR n * x) by lra.
  induction n as [|n IH]; [cbn; lra|]. rewrite S_INR in Hn |- *. assert (P := pos_INR n). assert (IH' : (1 + x) ^ n <= 1 + 2 * INR n * x) by (apply IH; nra).
  cbn [pow]. apply Rle_trans with ((1 + x) * (1 + 2 * INR n * x)); [apply Rmult_le_compat_l; lra|]. nra.
Qed.

(** ** Values *)
Lemma int_encodable a s : (Z.abs a <= 2 ^ 20)%Z -> (1 <= s <= 2 ^ 30)%Z -> encodable (f64_of_Z a) (f64_of_Z s).
Proof.
  intros Ha Hs. destruct (of_Z_int a ltac:(lia)) as [F1 E1]. destruct (of_Z_int s ltac:(lia)) as [F2 E2].
  split; [exact F1|]. rewrite E1, E2, <- mult_IZR, <- abs_IZR, Z.abs_mul.
  assert (H : (Z.abs a * Z.abs s <= 2 ^ 50)%Z) by (change (2 ^ 50)%Z with (2 ^ 20 * 2 ^ 30)%Z; apply Z.mul_le_mono_nonneg; lia).
  split; [apply IZR_le, Z.le_trans with (1 := H); discriminate|]. left. apply IZR_lt. lia.
Qed.
Lemma int_recoverable Q a s : (Z.abs a <= 2 ^ 20)%Z -> (1 <= s <= 2 ^ 30)%Z -> (4 * (Z.abs a * s + 1) <= Q)%Z -> recoverable Q (f64_of_Z a) (f64_of_Z s).
Proof.
  intros Ha Hs HQ. destruct (of_Z_int a ltac:(lia)) as [F1 E1]. destruct (of_Z_int s ltac:(lia)) as [F2 E2].
  assert (H : (Z.abs a * Z.abs s <= 2 ^ 50)%Z) by (change (2 ^ 50)%Z with (2 ^ 20 * 2 ^ 30)%Z; apply Z.mul_le_mono_nonneg; lia).
  unfold recoverable. rewrite E1, E2, <- mult_IZR, <- !abs_IZR, Z.abs_mul, <- plus_IZR, <- mult_IZR. rewrite (Z.abs_eq s) in * by lia.
  split; [apply IZR_le; exact HQ|]. split; apply IZR_le; [apply Z.le_trans with (1 := H)|apply Z.le_trans with (1 := Ha)]; discriminate.
Qed.
Lemma int_scale s : (1 <= s <= 2 ^ 30)%Z -> scale_ok (f64_of_Z s) /\ 1 <= fval (f64_of_Z s).
Proof. intros Hs. destruct (of_Z_int s ltac:(lia)) as [F E]. split; [split; [exact F|]|]; rewrite E; [apply IZR_lt|apply IZR_le]; lia. Qed.

(** ** Encoding coefficients twice on one plaintext *)
Definition re_s : float64 := f64_of_Z 1.
Definition re_1 : list float64 := map f64_of_Z [1; 7]%Z.
Definition re_2 : list float64 := map f64_of_Z [1]%Z.
Definition re_v1 : rows := Eval vm_compute in (let p := floatToFixedPointCRT gQ 0 re_1 re_s (zero_rows 16 1) in NTTLvl gQ 0 p p).
Definition re_w : rows := Eval vm_compute in floatToFixedPointCRT gQ 0 re_2 re_s re_v1.
Definition re_M : poly := fun k => let x := nth k (nth 0 re_w []) 0%Z in if (x <? 6144)%Z then x else (x - 12289)%Z.
Lemma reused_plaintext : exists r L s vals1 vals2 pt1 pt2 pool k, built_ring 8 r /\ rN r = (2 ^ L)%nat /\ pool_shape r pool /\ scale_ok s /\
  (1 <= length vals2 <= length vals1)%nat /\ (length vals1 <= rN r)%nat /\
  (forall x, In x (vals1 ++ vals2) -> encodable x s /\ recoverable (lprod r 0) x s) /\
  EncodeCoeffsNew r vals1 0 s = Some pt1 /\ EncodeCoeffs r vals2 pt1 = Some pt2 /\
  (length vals2 <= k < rN r)%nat /\ 1000 <= Rabs (fval (nth k (DecodeCoeffs r pt2 pool) f64_zero)).
Proof.
  set (pt2 := mkPt (NTTLvl gQ 0 re_w re_w) re_s true).
  exists gQ, 4%nat, re_s, re_1, re_2, (mkPt re_v1 re_s true), pt2, (zero_rows 16 2), 1%nat.
  assert (B8 : built_ring 8 gQ) by (apply (BasisEx.built_weaken 9); [lia|exact gQ_built]).
  destruct (int_scale 1 ltac:(lia)) as [S1 S2].
  split; [exact B8|]. split; [reflexivity|]. split; [reflexivity|]. split; [exact S1|]. unfold re_1, re_2. rewrite !map_length. split; [cbn [length]; lia|]. split; [change (rN gQ) with 16%nat; cbn [length]; lia|]. fold re_1 re_2.
  assert (EQ : lprod gQ 0 = 12289%Z) by reflexivity.
  split. { rewrite EQ. intros x Hx. unfold re_1, re_2 in Hx. rewrite <- map_app in Hx. apply in_map_iff in Hx. destruct Hx as (z & <- & Hz).
    assert (0 <= z <= 7)%Z by (cbn in Hz; destruct Hz as [<- | [<- | [<- | []]]]; lia). split; [apply int_encodable; lia|apply int_recoverable; lia]. }
  split. { unfold EncodeCoeffsNew, EncodeCoeffs. replace (Nat.ltb (rN gQ) (length re_1)) with false by reflexivity. unfold NewPlaintext. cbn [ptScale ptV ptLevel].
    apply f_equal. change re_s with re_s. apply (f_equal (fun v => mkPt v re_s true)). vm_compute. reflexivity. }
  split. { unfold EncodeCoeffs. replace (Nat.ltb (rN gQ) (length re_2)) with false by reflexivity. cbn [ptScale ptV ptLevel]. apply f_equal.
    apply (f_equal (fun v => mkPt v re_s true)). change (NTTLvl gQ 0 (floatToFixedPointCRT gQ 0 re_2 re_s re_v1) (floatToFixedPointCRT gQ 0 re_2 re_s re_v1) = NTTLvl gQ 0 re_w re_w).
    replace (floatToFixedPointCRT gQ 0 re_2 re_s re_v1) with re_w by (vm_compute; reflexivity). reflexivity. }
  split; [cbn; lia|].
  assert (HR : forall k, (k < 16)%nat -> ((-12289 < 2 * re_M k < 12288) /\ (0 <= nth k (nth 0 re_w []) 0 < 12289) /\ (nth k (nth 0 re_w []) 0) mod 12289 = (re_M k) mod 12289)%Z).
  { intros k Hk. do 16 (destruct k as [|k]; [vm_compute; intuition (try discriminate; try reflexivity)|]). lia. }
  destruct (decode_coeffs gQ 4 0 pt2 (zero_rows 16 2) re_M) as [_ D]; try assumption; try reflexivity.
  - split; [cbn; lia|]. split; [reflexivity|]. intros i Hi. assert (i = 0)%nat as -> by lia. vm_compute. reflexivity.
  - cbn [rns_dom ptNTT pt2]. apply (Repr.t_ntt gQ 4 (built_2 gQ B8) eq_refl 0 canon re_w re_w re_M).
    + intros i Hi. assert (i = 0)%nat as -> by lia. unfold canon. change (mq (rmod gQ 0)) with 12289%Z. unfold W. lia.
    + split; [cbn; lia|]. split; [cbn; lia|]. intros i Hi. assert (i = 0)%nat as -> by lia. split; [reflexivity|]. intros k Hk. destruct (HR k Hk) as (_ & H2 & H3). split; [exact H2|exact H3].
  - intros k Hk. rewrite EQ. destruct (HR k Hk) as (H1 & _). split; [cbn [ptScale pt2]; lia|]. cbn [ptScale pt2]. unfold re_s. rewrite (proj2 (of_Z_int 1 ltac:(discriminate))). unfold Rdiv. rewrite Rinv_1, Rmult_1_r. rewrite <- abs_IZR.
    split; apply IZR_le; apply Z.le_trans with 12289%Z; try discriminate; lia.
  - specialize (D 1%nat ltac:(cbn; lia)). destruct D as [_ D]. cbn [ptScale pt2] in D. cbv zeta in D. replace (fval re_s) with 1 in D by (symmetry; apply (of_Z_int 1); discriminate).
    unfold Rdiv in D. rewrite Rinv_1, Rmult_1_r in D.
    replace (re_M 1%nat) with (-4152)%Z in D by (vm_compute; reflexivity).
    set (y := fval (nth 1%nat (DecodeCoeffs gQ pt2 (zero_rows 16 2)) f64_zero)) in *. clearbody y.
    rewrite big_Z in D. assert (Bg : / big <= 1). { rewrite <- Rinv_1. apply Rinv_le; [lra|]. change 1 with (bpow radix2 0). apply bpow_le. lia. }
    rewrite (Rabs_left (-4152)) in D by lra. apply Rabs_le_inv in D. assert (/ 2 ^ 51 <= / 4) by (apply Rinv_le; [lra|lra]). rewrite Rabs_left by lra. lra.
Qed.

(** ** Slots *)
Definition sQ : Ring := Eval vm_compute in ring_of 32 [12289; 7681]%Z.
Lemma sQ_built : built_ring 8 sQ.
Proof.
  exists 1000%nat, 32%Z, [12289; 7681]%Z. split; [vm_compute; reflexivity|]. split; [vm_compute; discriminate|].
  intros q Hq. cbn in Hq. destruct Hq as [<- | [<- | []]]; vm_compute; discriminate.
Qed.
Definition s_vals : list complex128 := map (fun '(a, b) => (f64_of_Z a, f64_of_Z b)) [(1, 1); (-2, 0); (0, 2); (1, -1); (2, 0)]%Z.
Lemma s_vals_ok : values_ok 3 2 s_vals.
Proof.
  split; [unfold s_vals; rewrite map_length; cbn [length]; change (2 ^ 3)%nat with 8%nat; lia|]. split.
  - intros z Hz. apply in_map_iff in Hz. destruct Hz as ((a & b) & <- & Hz).
    assert (H : (Z.abs a + Z.abs b <= 2)%Z) by (cbn in Hz; destruct Hz as [E | [E | [E | [E | [E | []]]]]]; injection E as <- <-; lia).
    destruct (of_Z_int a ltac:(lia)) as [F1 E1]. destruct (of_Z_int b ltac:(lia)) as [F2 E2]. split; [split; assumption|].
    apply Rle_trans with (1 := Cmod_sum _ _). cbn [fst snd]. rewrite E1, E2, <- !abs_IZR, <- plus_IZR. apply IZR_le. exact H.
  - split; [lra|]. replace (2 ^ 3 * 2) with (IZR 16) by lra. apply IZR_le. discriminate.
Qed.
Lemma s_shape : exists roots, encoder_shape 4 3 sQ (/ 2 ^ 48) roots (repeat c_zero 16).
Proof. destruct (roots_exist 64) as [roots H]. exists roots. split; [reflexivity|]. split; [lia|]. split; [rewrite repeat_length; reflexivity|exact H]. Qed.
Lemma s_growth n : (n <= 5)%nat -> growth (/ 2 ^ 48) n <= / 1000000.
Proof.
  intros Hn. assert (HI : INR n <= 5) by (replace 5 with (INR 5) by (cbn; lra); apply le_INR; exact Hn). assert (P := pos_INR n).
  assert (E : / 2 ^ 48 + / 2 ^ 49 = 3 * / 562949953421312) by lra.
  assert (H : INR n * (/ 2 ^ 48 + / 2 ^ 49) <= 15 * / 562949953421312) by (rewrite E; nra).
  apply Rle_trans with (1 := growth_small (/ 2 ^ 48) n ltac:(lra) ltac:(lra)). lra.
Qed.
Lemma s_scale : scale_ok (f64_of_Z 1024) /\ fval (f64_of_Z 1024) = 1024.
Proof. split; [apply (int_scale 1024); lia|apply (of_Z_int 1024); discriminate]. Qed.

(** A plaintext that was not in the NTT domain keeps saying so, though its words are those of the NTT. *)
Lemma flag_not_set : exists m L r delta roots buf vals pt pt' level A P, built_ring 8 r /\ encoder_shape m L r delta roots buf /\ (3 <= L)%nat /\ (16 <= length buf)%nat /\
  pt_shape r level pt /\ scale_ok (ptScale pt) /\ values_ok L A vals /\ 4 * (fval (ptScale pt) * A) <= IZR (2 ^ 64) /\ growth delta (L + 2) <= 1 /\
  Encode r roots buf vals pt L = Some pt' /\ rns_ntt r (m + 1) level canon (ptV pt') P /\ ptNTT pt' = false.
Proof.
  destruct s_shape as [roots H]. destruct s_scale as [S1 S2].
  set (pt := mkPt (zero_rows 32 2) (f64_of_Z 1024) false).
  assert (Hp : pt_shape sQ 1 pt) by exact (new_shape sQ 1 (f64_of_Z 1024) ltac:(cbn; lia)).
  assert (H4 : 4 * (fval (ptScale pt) * 2) <= IZR (2 ^ 64)).
  { cbn [pt ptScale]. rewrite S2. replace (4 * (1024 * 2)) with (IZR 8192) by lra. apply IZR_le. discriminate. }
  assert (Hg : growth (/ 2 ^ 48) (3 + 2) <= 1) by (apply Rle_trans with (1 := s_growth 5 (le_n 5)); lra).
  assert (Lb : (16 <= length (repeat c_zero 16))%nat) by (rewrite repeat_length; lia).
  destruct (encode_slots 4 3 sQ (/ 2 ^ 48) roots (repeat c_zero 16) s_vals pt 1 2 sQ_built H (le_n 3) Lb Hp S1 s_vals_ok H4 Hg) as (pt' & P & E1 & _ & E3 & _ & E5 & _).
  exists 4%nat, 3%nat, sQ, (/ 2 ^ 48), roots, (repeat c_zero 16), s_vals, pt, pt', 1%nat, 2, P.
  repeat (split; [first [assumption|exact sQ_built|exact s_vals_ok|exact (le_n 3)]|]). exact E3.
Qed.

(** With the smallest degree, 16, and 8 slots, the unrolled transforms reach beyond the encoder's buffer. *)
Lemma smallest_degree : exists m L r delta roots buf vals pt pool level A, built_ring 8 r /\ encoder_shape m L r delta roots buf /\ (3 <= L)%nat /\
  pt_shape r level pt /\ pool_shape r pool /\ scale_ok (ptScale pt) /\ values_ok L A vals /\ growth delta (L + 2) <= 1 /\
  Encode r roots buf vals pt L = None /\ Decode r roots buf pool pt L = None.
Proof.
  destruct (roots_exist 32) as [roots H]. destruct s_scale as [S1 S2].
  exists 3%nat, 3%nat, gQ, (/ 2 ^ 48), roots, (repeat c_zero 8), s_vals, (NewPlaintext gQ 1 (f64_of_Z 1024)), (zero_rows 16 2), 1%nat, 2.
  split; [apply (BasisEx.built_weaken 9); [lia|exact gQ_built]|]. split. { split; [reflexivity|]. split; [lia|]. split; [rewrite repeat_length; reflexivity|exact H]. }
  split; [lia|]. split; [apply new_shape; cbn; lia|]. split; [reflexivity|]. split; [exact S1|]. split; [exact s_vals_ok|].
  split; [apply Rle_trans with (1 := s_growth 5 (le_n 5)); lra|].
  split.
  - unfold Encode, Embed. change (Nat.ltb (rN gQ / 2) (2 ^ 3) || Nat.ltb (2 ^ 3) (length s_vals))%bool with false. cbv iota.
    unfold ifft. change (Nat.ltb (2 ^ 3) 8) with false. cbv iota. unfold SpecialiFFTUL8Vec.
    rewrite !app_length, skipn_length, !repeat_length. reflexivity.
  - unfold Decode. change (Nat.ltb (rN gQ / 2) (2 ^ 3)) with false. cbv iota zeta. change (ptLevel (NewPlaintext gQ 1 (f64_of_Z 1024))) with 1%nat. cbv iota.
    unfold fft. change (Nat.ltb (2 ^ 3) 8) with false. cbv iota. unfold SpecialFFTUL8Vec, polyToComplexCRT.
    rewrite !app_length, skipn_length, map_length, seq_length, !repeat_length. reflexivity.
Qed.
