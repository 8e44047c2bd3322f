(** Serialization of polynomials, ciphertexts and keys: properties C20 and C21. *)
From Coq Require Import Permutation.
From Verif Require Import Word Ring NTT RingOps Float64 Codec CodecSpec CodecProofs CodecTop CodecKeys.

(** ** C20: polynomials *)

(** The bytes of an integer are its digits in base 256, and conversely. *)
Theorem C20_integers : (forall n v, be_value (be_bytes n v) = v mod 256 ^ Z.of_nat n /\ length (be_bytes n v) = n /\ Forall is_byte (be_bytes n v)) /\
  (forall l, Forall is_byte l -> be_bytes (length l) (be_value l) = l).
Proof. exact (conj (fun n v => conj (be_value_bytes n v) (conj (be_bytes_length n v) (be_bytes_bytes n v))) be_bytes_value). Qed.
Print Assumptions C20_integers.

(** MarshalBinary gives the format, of the advertised length; UnmarshalBinary into a new polynomial gives the
    polynomial back. *)
Theorem C20_round_trip : forall p, fits_poly 8 p -> Z.of_nat (length (pCoeffs p)) * Z.of_nat (length (nth 0 (pCoeffs p) [])) < 2 ^ 63 ->
  MarshalBinary p = Ret (poly_bytes 8 p) /\ data_len 8 true p = Ret (length (poly_bytes 8 p)) /\ UnmarshalBinary newPoly (poly_bytes 8 p) = Ret p.
Proof. exact poly_round_trip. Qed.
Print Assumptions C20_round_trip.

(** WriteTo and WriteTo32 on any buffer that is long enough: the bytes after the format are kept, and a flag of the
    header that is not set keeps what the buffer held.  Shorter buffers give an error. *)
Theorem C20_any_buffer : forall w p data, fits_poly w p ->
  write_to w p data =
    if Nat.ltb (length data) (length (poly_bytes w p)) then Fail
    else Ret (length (poly_bytes w p),
      [Z.log2 (Z.of_nat (length (nth 0 (pCoeffs p) []))); Z.of_nat (length (pCoeffs p)); (if pNTT p then 1 else nth 2 data 0); (if pMForm p then 1 else nth 3 data 0)] ++
      flat_map (be_bytes w) (concat (pCoeffs p)) ++ skipn (length (poly_bytes w p)) data).
Proof. exact write_any. Qed.
Print Assumptions C20_any_buffer.

(** Decoding with words of 8 or 4 bytes into a new polynomial, whatever follows the format. *)
Theorem C20_decode : forall w p tail, fits_poly w p -> decode_poly w newPoly (poly_bytes w p ++ tail) = Ret (length (poly_bytes w p), p).
Proof. exact decode_new. Qed.
Print Assumptions C20_decode.

(** Decoding into a polynomial that has been used: its flags stay set, and its rows beyond those decoded stay. *)
Theorem C20_any_target : forall p tgt, fits_poly 8 p -> (pCoeffs tgt = [] \/ length (pCoeffs p) <= length (pCoeffs tgt))%nat ->
  Z.of_nat (length (pCoeffs p)) * Z.of_nat (length (nth 0 (pCoeffs p) [])) < 2 ^ 63 ->
  UnmarshalBinary tgt (poly_bytes 8 p) =
  Ret (mkPoly (pCoeffs p ++ skipn (length (pCoeffs p)) (pCoeffs tgt)) (pNTT p || pNTT tgt) (pMForm p || pMForm tgt)).
Proof. exact unmarshal_onto. Qed.
Print Assumptions C20_any_target.

(** Bytes that are accepted are a format, followed by fewer than 8 bytes: the rows are the integers in the data, their
    number is the second byte. *)
Theorem C20_accepted : forall data p, Forall is_byte data -> UnmarshalBinary newPoly data = Ret p ->
  exists b0 b1 b2 b3 tail, data = [b0; b1; b2; b3] ++ flat_map (be_bytes 8) (concat (pCoeffs p)) ++ tail /\ (length tail < 8)%nat /\
    Z.of_nat (length (pCoeffs p)) = b1 /\ Forall (fun r => length r = row_len b0) (pCoeffs p) /\ pNTT p = (b2 =? 1) /\ pMForm p = (b3 =? 1).
Proof. exact unmarshal_sound. Qed.
Print Assumptions C20_accepted.

(** Truncated bytes are not accepted; with at least 4 bytes and a first byte below 56 they give an error, not a
    panic; with fewer than 4 bytes they panic. *)
Theorem C20_truncated : (forall p m r, fits_poly 8 p -> (m < length (poly_bytes 8 p))%nat -> UnmarshalBinary newPoly (firstn m (poly_bytes 8 p)) <> Ret r) /\
  (forall b0 b1 b2 b3 rest, is_byte b1 -> 0 <= b0 <= 55 -> UnmarshalBinary newPoly (b0 :: b1 :: b2 :: b3 :: rest) <> Panic) /\
  (forall p data, (length data < 4)%nat -> UnmarshalBinary p data = Panic).
Proof. exact (conj (fun p m r H Hm => unmarshal_prefix p m H Hm r) (conj unmarshal_no_panic short_panics)). Qed.
Print Assumptions C20_truncated.

(** Panics on 4 bytes: a header that announces 4 rows of 2^62 words, whose number wraps to 0. *)
Theorem C20_panic_refuted : exists data, length data = 4%nat /\ Forall is_byte data /\ UnmarshalBinary newPoly data = Panic.
Proof. exact header_panics. Qed.
Print Assumptions C20_panic_refuted.

(** With 256 rows the number of rows wraps: the bytes are rejected by UnmarshalBinary and read as an empty polynomial
    by DecodePolyNew. *)
Theorem C20_256_moduli_refuted : exists p data, length (pCoeffs p) = 256%nat /\ MarshalBinary p = Ret data /\
  UnmarshalBinary newPoly data = Fail /\ DecodePolyNew newPoly data = Ret (4%nat, newPoly).
Proof. exact rows_256. Qed.
Print Assumptions C20_256_moduli_refuted.

(** A buffer that has been used: the flag of its header is taken for the flag of the polynomial. *)
Theorem C20_dirty_buffer_refuted : exists p data n data' q, fits_poly 8 p /\ length data = length (poly_bytes 8 p) /\
  WriteTo p data = Ret (n, data') /\ DecodePolyNew newPoly data' = Ret (n, q) /\ pNTT p = false /\ pNTT q = true.
Proof. exact dirty_buffer. Qed.
Print Assumptions C20_dirty_buffer_refuted.

(** A target that has been used keeps its flags and its third row. *)
Theorem C20_used_target_refuted : exists p tgt q, fits_poly 8 p /\ UnmarshalBinary tgt (poly_bytes 8 p) = Ret q /\
  pNTT p = false /\ pNTT q = true /\ length (pCoeffs p) = 2%nat /\ length (pCoeffs q) = 3%nat.
Proof. exact used_target. Qed.
Print Assumptions C20_used_target_refuted.

(** Bytes with 7 more bytes at the end are accepted. *)
Theorem C20_trailing_refuted : exists p tail, fits_poly 8 p /\ length tail = 7%nat /\ UnmarshalBinary newPoly (poly_bytes 8 p ++ tail) = Ret p.
Proof. exact trailing_accepted. Qed.
Print Assumptions C20_trailing_refuted.

(** The 4-byte format loses what is above 2^32, without an error. *)
Theorem C20_32_bits_refuted : exists p n data q, fits_poly 8 p /\ WriteTo32 p (repeat 0 12) = Ret (n, data) /\ DecodePolyNew32 newPoly data = Ret (n, q) /\ q <> p.
Proof. exact words_32. Qed.
Print Assumptions C20_32_bits_refuted.

(** A polynomial with two rows of four words. *)
Definition ex_poly : Poly := mkPoly [[1; 2; 256; 18446744073709551615]; [0; 0; 5; 0]] true false.
Example ex_poly_fits : fits_poly 8 ex_poly.
Proof. split; [cbn; lia|]. exists 2%nat. split; [lia|]. repeat constructor; cbn; lia. Qed.
Example ex_poly_bytes : MarshalBinary ex_poly = Ret ([2; 2; 1; 0] ++ flat_map (be_bytes 8) [1; 2; 256; 18446744073709551615; 0; 0; 5; 0]) /\
  be_bytes 8 258 = [0; 0; 0; 0; 0; 0; 1; 2].
Proof. vm_compute. split; reflexivity. Qed.
Example ex_poly_back : (let* data := MarshalBinary ex_poly in UnmarshalBinary newPoly data) = Ret ex_poly.
Proof. vm_compute. reflexivity. Qed.

(** ** C21: ciphertexts and keys *)

Theorem C21_ciphertext : forall v, fits_ct v ->
  ct_marshal v = Ret (ct_bytes v) /\ ct_data_len true v = Ret (length (ct_bytes v)) /\
  (forall tail, ct_unmarshal (ct_bytes v ++ tail) = match tail with [] => Ret v | _ => Fail end) /\
  (forall m r, (m < length (ct_bytes v))%nat -> ct_unmarshal (firstn m (ct_bytes v)) <> Ret r).
Proof. exact ct_round_trip. Qed.
Print Assumptions C21_ciphertext.

(** A ckks ciphertext: the 8 bytes of the scale, least significant first, then the bytes of the polynomials. *)
Theorem C21_ckks_ciphertext : forall v scale, fits_ct v ->
  exists data, ckks_marshal v scale = Ret data /\ length data = (8 + length (ct_bytes v))%nat /\
  (forall tail, ckks_unmarshal (data ++ tail) = match tail with [] => Ret (v, scale) | _ => Fail end) /\
  (forall m r, (m < length data)%nat -> ckks_unmarshal (firstn m data) <> Ret r).
Proof. exact ckks_round. Qed.
Print Assumptions C21_ckks_ciphertext.

(** Keys: what follows the bytes of a key is ignored; truncated bytes are not accepted. *)
Theorem C21_secret_key : forall sk, fits_qp sk -> sk_marshal sk = Ret (qp_bytes sk) /\
  (forall tail, sk_unmarshal newQP (qp_bytes sk ++ tail) = Ret sk) /\
  (forall m r, (m < length (qp_bytes sk))%nat -> sk_unmarshal newQP (firstn m (qp_bytes sk)) <> Ret r).
Proof. exact (fun sk H => conj (proj1 (sk_round_trip sk [] H)) (conj (fun tail => proj2 (sk_round_trip sk tail H)) (fun m r Hm => sk_prefix sk m H Hm r))). Qed.
Print Assumptions C21_secret_key.

Theorem C21_public_key : forall p0 p1, fits_qp p0 -> fits_qp p1 -> pk_marshal (p0, p1) = Ret (qp_bytes p0 ++ qp_bytes p1) /\
  (forall tail, pk_unmarshal (newQP, newQP) ((qp_bytes p0 ++ qp_bytes p1) ++ tail) = Ret (p0, p1)) /\
  (forall m r, (m < length (qp_bytes p0 ++ qp_bytes p1))%nat -> pk_unmarshal (newQP, newQP) (firstn m (qp_bytes p0 ++ qp_bytes p1)) <> Ret r).
Proof. exact (fun p0 p1 H0 H1 => conj (proj1 (pk_round_trip p0 p1 [] H0 H1)) (conj (fun tail => proj2 (pk_round_trip p0 p1 tail H0 H1)) (fun m r Hm => pk_prefix p0 p1 m H0 H1 Hm r))). Qed.
Print Assumptions C21_public_key.

Theorem C21_switching_key : forall k, fits_swk k -> swk_marshal k = Ret (swk_bytes k) /\
  (forall tail, swk_unmarshal (swk_bytes k ++ tail) = Ret k) /\
  (forall m r, (m < length (swk_bytes k))%nat -> swk_unmarshal (firstn m (swk_bytes k)) <> Ret r).
Proof. exact (fun k H => conj (proj1 (swk_round_trip k [] H)) (conj (fun tail => proj2 (swk_round_trip k tail H)) (fun m r Hm => swk_prefix k m H Hm r))). Qed.
Print Assumptions C21_switching_key.

Theorem C21_relinearization_key : forall ks, (length ks <= 255)%nat -> Forall fits_swk ks -> rlk_marshal ks = Ret (rlk_bytes ks) /\
  (forall tail, rlk_unmarshal (rlk_bytes ks ++ tail) = Ret ks) /\
  (forall m r, (m < length (rlk_bytes ks))%nat -> rlk_unmarshal (firstn m (rlk_bytes ks)) <> Ret r).
Proof. exact (fun ks HL H => conj (proj1 (rlk_round_trip ks [] HL H)) (conj (fun tail => proj2 (rlk_round_trip ks tail HL H)) (fun m r Hm => rlk_prefix ks m H Hm r))). Qed.
Print Assumptions C21_relinearization_key.

(** Sets of rotation keys: in whatever order the entries ks of the map are visited, the map read from the bytes holds
    the same key for every Galois element. *)
Theorem C21_rotation_keys : forall ks ks', fits_rtk ks -> Permutation ks ks' ->
  exists data ks'', rtk_marshal ks' = Ret data /\ rtk_unmarshal data = Ret ks'' /\ length ks'' = length ks /\ forall g, map_get ks'' g = map_get ks g.
Proof. exact rtk_any_order. Qed.
Print Assumptions C21_rotation_keys.

(** A switching key without special primes: the second component comes back with an empty polynomial instead of nil. *)
Theorem C21_no_special_primes_refuted : exists k data k', swk_marshal k = Ret data /\ swk_unmarshal data = Ret k' /\
  Forall (fun v => qpP (fst v) = None /\ qpP (snd v) = None) k /\ Exists (fun v => qpP (snd v) = Some newPoly) k'.
Proof. exact nil_special. Qed.
Print Assumptions C21_no_special_primes_refuted.

(** A truncated ciphertext makes UnmarshalBinary panic. *)
Theorem C21_truncated_panic_refuted : exists v m, fits_ct v /\ (m < length (ct_bytes v))%nat /\ ct_unmarshal (firstn m (ct_bytes v)) = Panic.
Proof. exact ct_truncated. Qed.
Print Assumptions C21_truncated_panic_refuted.

(** Galois elements are cut to 32 bits: the key comes back under another element. *)
Theorem C21_galois_element_refuted : exists k data ks, fits_swk k /\ rtk_marshal [(2 ^ 32 + 5, k)] = Ret data /\ rtk_unmarshal data = Ret ks /\
  map_get ks (2 ^ 32 + 5) = None /\ map_get ks 5 = Some k.
Proof. exact galois_cut. Qed.
Print Assumptions C21_galois_element_refuted.

Definition ex_qp : PolyQP := mkQP (Some ex_poly) (Some (mkPoly [[7; 8; 9; 10]] true true)).
Example ex_qp_full : full_qp ex_qp.
Proof.
  exists ex_poly, (mkPoly [[7; 8; 9; 10]] true true). split; [reflexivity|]. split; [exact ex_poly_fits|]. split; [cbn; lia|]. exists 2%nat. split; [lia|].
  repeat constructor; cbn; lia.
Qed.
Example ex_ct_fits : fits_ct [ex_poly; ex_poly; ex_poly].
Proof. split; [cbn; lia|]. repeat (apply Forall_cons; [exact ex_poly_fits|]). apply Forall_nil. Qed.
Example ex_ct_back : (let* data := ct_marshal [ex_poly; ex_poly; ex_poly] in ct_unmarshal data) = Ret [ex_poly; ex_poly; ex_poly].
Proof. vm_compute. reflexivity. Qed.
Definition ex_swk : swk := [(ex_qp, ex_qp); (ex_qp, ex_qp)].
Example ex_swk_fits : fits_swk ex_swk.
Proof. split; [cbn; lia|]. repeat (apply Forall_cons; [split; exact ex_qp_full|]). apply Forall_nil. Qed.
Example ex_rtk_fits : fits_rtk [(5, ex_swk); (25, ex_swk); (31, ex_swk)].
Proof.
  split; [cbn; repeat constructor; cbn; lia|]. repeat (apply Forall_cons; [split; [cbn; lia|exact ex_swk_fits]|]). apply Forall_nil.
Qed.
Example ex_swk_back : (let* data := swk_marshal ex_swk in swk_unmarshal data) = Ret ex_swk.
Proof. vm_compute. reflexivity. Qed.
