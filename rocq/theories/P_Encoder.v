(** C69, C70, C73, C74: the ckks encoder (standard ring type).  A plaintext holds rows of words ([rns_ntt]: they represent a polynomial in
    the NTT domain); [fval x] is the real number of a float64, [cnum z] the complex number of a complex128. *)
From Coq Require Import Reals.
From Flocq Require IEEE754.BinarySingleNaN.
From Coquelicot Require Import Complex.
From Verif Require Import Word Arith PolySpec Ring NTT RingOps RNSSpec Gadget RlweSpec Rlwe Float64 Ckks CkksSpec CkksEx SlotSpec Encoder EncSpec EncNtt EncCoeffs EncSlots EncEx.
Open Scope Z_scope.

(** ** C69: coefficients. *)
Theorem C69_encode_coeffs : forall r L level vals pt, built_ring 8 r -> rN r = (2 ^ L)%nat ->
  pt_shape r level pt -> scale_ok (ptScale pt) -> (length vals <= rN r)%nat -> (forall x, In x vals -> encodable x (ptScale pt)) ->
  (forall i k, (i <= level)%nat -> (length vals <= k < rN r)%nat -> coeff (ptV pt) i k = 0) ->
  exists pt' M, EncodeCoeffs r vals pt = Some pt' /\ ptNTT pt' = true /\ ptScale pt' = ptScale pt /\ pt_shape r level pt' /\
    rns_ntt r L level canon (ptV pt') M /\
    (forall k, (k < length vals)%nat -> near_product (nth k vals f64_zero) (ptScale pt) (M k)) /\
    (forall k, (length vals <= k)%nat -> M k = 0).
Proof. exact EncCoeffs.encode_coeffs. Qed.
Print Assumptions C69_encode_coeffs.

Theorem C69_decode_coeffs : forall r L level pt pool M, built_ring 8 r -> rN r = (2 ^ L)%nat ->
  pt_shape r level pt -> pool_shape r pool -> rns_dom r L level (ptNTT pt) (ptV pt) M -> scale_ok (ptScale pt) ->
  (forall k, (k < rN r)%nat -> decodable (lprod r level) (M k) (ptScale pt)) ->
  let out := DecodeCoeffs r pt pool in
  length out = rN r /\ forall k, (k < rN r)%nat -> near_quotient (M k) (ptScale pt) (nth k out f64_zero).
Proof. exact EncCoeffs.decode_coeffs. Qed.
Print Assumptions C69_decode_coeffs.

Theorem C69_round_trip : forall r L level vals s pool, built_ring 8 r -> rN r = (2 ^ L)%nat -> (level < length (rmods r))%nat ->
  pool_shape r pool -> scale_ok s -> (1 <= fval s)%R -> (length vals <= rN r)%nat ->
  (forall x, In x vals -> encodable x s /\ recoverable (lprod r level) x s) ->
  exists pt, EncodeCoeffsNew r vals level s = Some pt /\ let out := DecodeCoeffs r pt pool in length out = rN r /\
    (forall k, (k < length vals)%nat -> ffinite (nth k out f64_zero) /\
       let x := fval (nth k vals f64_zero) in (Rabs (fval (nth k out f64_zero) - x) <= / fval s + Rabs x * / 2 ^ 49 + / IZR (2 ^ 1000))%R) /\
    (forall k, (length vals <= k < rN r)%nat -> (Rabs (fval (nth k out f64_zero)) <= / IZR (2 ^ 1000))%R).
Proof. exact EncCoeffs.coeffs_round_trip. Qed.
Print Assumptions C69_round_trip.

(** EncodeCoeffs on a plaintext that was used before: the coefficients beyond the values are not 0. *)
Theorem C69_reused_plaintext_refuted : exists r L s vals1 vals2 pt1 pt2 pool k, built_ring 8 r /\ rN r = (2 ^ L)%nat /\ pool_shape r pool /\ scale_ok s /\
  (1 <= length vals2 <= length vals1)%nat /\ (length vals1 <= rN r)%nat /\
  (forall x, In x (vals1 ++ vals2) -> encodable x s /\ recoverable (lprod r 0) x s) /\
  EncodeCoeffsNew r vals1 0 s = Some pt1 /\ EncodeCoeffs r vals2 pt1 = Some pt2 /\
  (length vals2 <= k < rN r)%nat /\ (1000 <= Rabs (fval (nth k (DecodeCoeffs r pt2 pool) f64_zero)))%R.
Proof. exact EncEx.reused_plaintext. Qed.
Print Assumptions C69_reused_plaintext_refuted.

Example C69_case : exists pt, EncodeCoeffsNew gQ (map f64_of_Z [5; -3; 7]) 1 (f64_of_Z 1024) = Some pt /\ length (DecodeCoeffs gQ pt (zero_rows 16 2)) = 16%nat.
Proof.
  destruct (C69_round_trip gQ 4 1 (map f64_of_Z [5; -3; 7]) (f64_of_Z 1024) (zero_rows 16 2)) as (pt & E & H & _).
  - apply (BasisEx.built_weaken 9); [lia|exact gQ_built].
  - reflexivity.
  - cbn. lia.
  - reflexivity.
  - apply s_scale.
  - rewrite (proj2 s_scale). apply IZR_le. discriminate.
  - rewrite map_length. change (rN gQ) with 16%nat. cbn [length]. lia.
  - intros x Hx. apply in_map_iff in Hx. destruct Hx as (z & <- & Hz). assert (Z.abs z <= 7) by (cbn in Hz; destruct Hz as [<- | [<- | [<- | []]]]; lia).
    split; [apply int_encodable; lia|apply int_recoverable; change (lprod gQ 1) with (12289 * 97); lia].
  - exists pt. split; [exact E|exact H].
Qed.

(** ** C70: the first 2*2^logSlots words of the rows represent X; NttAndMontgomeryLvl leaves the NTT of X(Y^gap), gap = N/(2*2^logSlots). *)
Theorem C70_sparse_ntt : forall r L level logSlots mont B p X, built_ring 8 r -> rN r = (2 ^ L)%nat -> (3 <= logSlots)%nat -> (logSlots < L)%nat ->
  (forall i, (i <= level)%nat -> B (mq (rmod r i)) + 4 * mq (rmod r i) <= W) -> prefix_repr r (2 * 2 ^ logSlots) level B p X ->
  rns_ntt r L level canon (NttAndMontgomeryLvl r level logSlots mont p) (pscale (if mont then W else 1) (inflate (rN r / (2 * 2 ^ logSlots)) X)).
Proof. exact EncNtt.sparse_ntt. Qed.
Print Assumptions C70_sparse_ntt.

Example C70_case : prefix_repr sQ (2 * 2 ^ 3) 1 canon (repeat (repeat 5 32) 2) (fun _ => 5) /\ (3 < 5)%nat /\ built_ring 8 sQ /\ rN sQ = (2 ^ 5)%nat.
Proof.
  split; [|split; [lia|split; [exact sQ_built|reflexivity]]]. split; [cbn; lia|]. split; [cbn; lia|]. intros i Hi.
  assert (E : nth i (repeat (repeat 5 32) 2) [] = repeat 5 32) by (destruct i as [|[|i]]; [reflexivity|reflexivity|lia]). rewrite E.
  split; [reflexivity|]. split; [reflexivity|]. intros k Hk. change (firstn (2 * 2 ^ 3) (repeat 5 32)) with (repeat 5 16).
  replace (nth k (repeat 5 16) 0) with 5 by (do 16 (destruct k as [|k]; [reflexivity|]); cbn in Hk; lia).
  split; [|reflexivity]. unfold canon. destruct i as [|[|i]]; [change (mq (rmod sQ 0)) with 12289; lia|change (mq (rmod sQ 1)) with 7681; lia|lia].
Qed.

(** ** C73: slots.  Encode writes a polynomial whose slots are the scaled values, up to the rounding of the coefficients and the
    accumulated error of the transform. *)
Theorem C73_encode_slots : forall m L r delta roots buf vals pt level A, built_ring 8 r -> encoder_shape m L r delta roots buf ->
  (3 <= L)%nat -> (16 <= length buf)%nat -> pt_shape r level pt -> scale_ok (ptScale pt) -> values_ok L A vals ->
  let s := fval (ptScale pt) in (4 * (s * A) <= IZR (2 ^ 64) -> growth delta (L + 2) <= 1 ->
  exists pt' P, Encode r roots buf vals pt L = Some pt' /\ ptScale pt' = ptScale pt /\ ptNTT pt' = ptNTT pt /\ pt_shape r level pt' /\
    rns_ntt r (m + 1) level canon (ptV pt') P /\ sparse (rN r) (2 ^ (m - L)) P /\
    (forall i, (i < rN r)%nat -> Rabs (IZR (P i)) <= 2 * (s * A) + 2) /\
    (forall k, (k < 2 ^ L)%nat -> Cmod (nth k (packed (rN r) (2 ^ L) P) (RtoC 0)) <= 2 * (s * A) + 2) /\
    (forall k, (k < 2 ^ L)%nat -> Cmod (Cminus (slot (rN r) P k) (Cmult (RtoC s) (value_at vals k))) <= 2 ^ L * (2 + s * A * growth delta (L + 2))))%R.
Proof. exact EncSlots.encode_slots. Qed.
Print Assumptions C73_encode_slots.

(** Decode of a polynomial in X^(2^(m-L)), whatever it comes from. *)
Theorem C73_decode_slots : forall m L r delta roots buf pool pt level P A, built_ring 8 r -> encoder_shape m L r delta roots buf ->
  ((3 <= L)%nat -> (16 <= length buf)%nat) -> pt_shape r level pt -> pool_shape r pool -> scale_ok (ptScale pt) ->
  rns_dom r (m + 1) level (ptNTT pt) (ptV pt) P -> sparse (rN r) (2 ^ (m - L)) P ->
  (forall k, (k < rN r)%nat -> decodable (lprod r level) (P k) (ptScale pt)) ->
  let s := fval (ptScale pt) in (1 <= A -> 2 ^ L * A <= IZR (2 ^ 900) ->
  (forall k, (k < 2 ^ L)%nat -> Cmod (nth k (packed (rN r) (2 ^ L) P) (RtoC 0)) <= A * s) -> growth delta (L + 1) <= 1 ->
  exists out, Decode r roots buf pool pt L = Some out /\ length out = (2 ^ L)%nat /\
    forall k, (k < 2 ^ L)%nat -> cfinite (nth k out c_zero) /\
      Cmod (Cminus (value_at out k) (Cdiv (slot (rN r) P k) (RtoC s))) <= 2 ^ L * A * growth delta (L + 1))%R.
Proof. exact EncSlots.decode_slots. Qed.
Print Assumptions C73_decode_slots.
(** A polynomial with coefficients outside of X^(2^(m-L)) (noise, or more values than 2^L): Decode ignores them. *)
Theorem C73_decode_any : forall m L r delta roots buf pool pt level P A, built_ring 8 r -> encoder_shape m L r delta roots buf ->
  ((3 <= L)%nat -> (16 <= length buf)%nat) -> pt_shape r level pt -> pool_shape r pool -> scale_ok (ptScale pt) ->
  rns_dom r (m + 1) level (ptNTT pt) (ptV pt) P -> (forall k, (k < rN r)%nat -> decodable (lprod r level) (P k) (ptScale pt)) ->
  let s := fval (ptScale pt) in (1 <= A -> 2 ^ L * A <= IZR (2 ^ 900) ->
  (forall k, (k < 2 ^ L)%nat -> Cmod (nth k (packed (rN r) (2 ^ L) P) (RtoC 0)) <= A * s) -> growth delta (L + 1) <= 1 ->
  exists out, Decode r roots buf pool pt L = Some out /\ length out = (2 ^ L)%nat /\
    forall k, (k < 2 ^ L)%nat -> cfinite (nth k out c_zero) /\
      Cmod (Cminus (value_at out k) (Cdiv (slot (rN r) (in_gap (2 ^ (m - L)) P) k) (RtoC s))) <= 2 ^ L * A * growth delta (L + 1))%R.
Proof. exact EncSlots.decode_any. Qed.
Print Assumptions C73_decode_any.

(** The documentation says "Returned plaintext is always in the NTT domain": the words are, the plaintext may say that they are not. *)
Theorem C73_ntt_flag_refuted : exists m L r delta roots buf vals pt pt' level A P, built_ring 8 r /\ encoder_shape m L r delta roots buf /\ (3 <= L)%nat /\ (16 <= length buf)%nat /\
  pt_shape r level pt /\ scale_ok (ptScale pt) /\ values_ok L A vals /\ (4 * (fval (ptScale pt) * A) <= IZR (2 ^ 64))%R /\ (growth delta (L + 2) <= 1)%R /\
  Encode r roots buf vals pt L = Some pt' /\ rns_ntt r (m + 1) level canon (ptV pt') P /\ ptNTT pt' = false.
Proof. exact EncEx.flag_not_set. Qed.
Print Assumptions C73_ntt_flag_refuted.

(** Degree 16 (the smallest the parameters accept) and 8 slots (as documented, logSlots >= 3): the transforms unrolled by 8 access 16
    entries of a buffer of 8. *)
Theorem C73_smallest_degree_refuted : exists m L r delta roots buf vals pt pool level A, built_ring 8 r /\ encoder_shape m L r delta roots buf /\ (3 <= L)%nat /\
  pt_shape r level pt /\ pool_shape r pool /\ scale_ok (ptScale pt) /\ values_ok L A vals /\ (growth delta (L + 2) <= 1)%R /\
  Encode r roots buf vals pt L = None /\ Decode r roots buf pool pt L = None.
Proof. exact EncEx.smallest_degree. Qed.
Print Assumptions C73_smallest_degree_refuted.

(** ** C74: the round trip, the sizes of its error terms, and the existence of tables of roots that are accurate to 2^-48. *)
Theorem C74_round_trip : forall m L r delta roots buf pool vals level s A, built_ring 8 r -> encoder_shape m L r delta roots buf ->
  (3 <= L)%nat -> (16 <= length buf)%nat -> (level < length (rmods r))%nat -> pool_shape r pool -> scale_ok s -> (1 <= fval s)%R -> values_ok L A vals ->
  (4 * (fval s * A) <= IZR (2 ^ 64) -> 4 * (fval s * A) + 6 <= IZR (lprod r level) -> growth delta (L + 2) <= 1 ->
  exists pt out, EncodeNew r roots buf vals level s L = Some pt /\ Decode r roots buf pool pt L = Some out /\ length out = (2 ^ L)%nat /\
    forall k, (k < 2 ^ L)%nat -> cfinite (nth k out c_zero) /\
      Cmod (Cminus (value_at out k) (value_at vals k)) <= 2 ^ L * (2 / fval s + 5 * A * growth delta (L + 2)))%R.
Proof. exact EncSlots.slots_round_trip. Qed.
Print Assumptions C74_round_trip.
Theorem C74_growth : forall delta n, (0 <= delta -> INR n * (delta + / 2 ^ 49) <= / 2 -> growth delta n <= 2 * INR n * (delta + / 2 ^ 49))%R.
Proof. exact EncEx.growth_small. Qed.
Print Assumptions C74_growth.
Theorem C74_roots : forall M, exists roots, roots_near M (/ 2 ^ 48)%R roots.
Proof. exact EncEx.roots_exist. Qed.
Print Assumptions C74_roots.

(** Five values in 8 slots at degree 32: the encoded polynomial meets the hypotheses of C73_decode_slots, and decoding is accurate. *)
Example C74_case : exists roots pt out, encoder_shape 4 3 sQ (/ 2 ^ 48)%R roots (repeat c_zero 16) /\
  EncodeNew sQ roots (repeat c_zero 16) s_vals 1 (f64_of_Z 1024) 3 = Some pt /\ Decode sQ roots (repeat c_zero 16) (zero_rows 32 2) pt 3 = Some out /\
  forall k, (k < 8)%nat -> (Cmod (Cminus (value_at out k) (value_at s_vals k)) <= / 32)%R.
Proof.
  destruct s_shape as [roots H]. destruct s_scale as [S1 S2].
  destruct (C74_round_trip 4 3 sQ (/ 2 ^ 48)%R roots (repeat c_zero 16) (zero_rows 32 2) s_vals 1 (f64_of_Z 1024) 2%R sQ_built H (le_n 3)) as (pt & out & E1 & E2 & _ & E4).
  - rewrite repeat_length. lia.
  - cbn. lia.
  - reflexivity.
  - exact S1.
  - rewrite S2. apply IZR_le. discriminate.
  - exact s_vals_ok.
  - rewrite S2. rewrite <- !mult_IZR. apply IZR_le. discriminate.
  - rewrite S2. rewrite <- !mult_IZR, <- plus_IZR. apply IZR_le. discriminate.
  - apply Rle_trans with (1 := s_growth 5 (le_n 5)). Lra.lra.
  - exists roots, pt, out. split; [exact H|]. split; [exact E1|]. split; [exact E2|]. intros k Hk. apply Rle_trans with (1 := proj2 (E4 k Hk)).
    rewrite S2. assert (G := s_growth 5 (le_n 5)). change (3 + 2)%nat with 5%nat. Lra.lra.
Qed.
