(** Model of the serialization code: /repo/ring/ring_poly.go, /repo/rlwe/ring_qp.go, /repo/rlwe/marshaler.go and
    /repo/ckks/ciphertext.go.

    A byte is an integer in [0, 256), a byte slice is a list.  A function that writes to a slice returns the new
    content of the slice.  Slice lengths are natural numbers: lengths above 2^63 bytes, which Go cannot allocate,
    are not excluded. *)
From Flocq Require Import IEEE754.Binary IEEE754.Bits.
From Verif Require Import Word ModRed Ring NTT RingOps Float64.

(** The outcomes of a call: a value, a returned error, a run-time panic. *)
Inductive res (A : Type) : Type := Ret (a : A) | Fail | Panic.
Arguments Ret {A} a.
Arguments Fail {A}.
Arguments Panic {A}.
Definition bind {A B} (x : res A) (f : A -> res B) : res B := match x with Ret a => f a | Fail => Fail | Panic => Panic end.
Notation "'let*' x ':=' m 'in' k" := (bind m (fun x => k)) (at level 200, x name, m at level 100, k at level 200, right associativity).
Notation "'let*' ' p ':=' m 'in' k" := (bind m (fun p => k)) (at level 200, p strict pattern, m at level 100, k at level 200, right associativity).
(** A loop whose body can fail. *)
Fixpoint loop {A I} (f : A -> I -> res A) (l : list I) (a : A) : res A :=
  match l with [] => Ret a | i :: l' => let* a' := f a i in loop f l' a' end.

Notation bytes := (list Z).
Definition byte (x : Z) : Z := x mod 256.

(** encoding/binary: [BigEndian.PutUint64], [BigEndian.PutUint32] (the n bytes of v, most significant first, of
    the n lowest bytes of v) and [BigEndian.Uint64], [BigEndian.Uint32]. *)
Fixpoint be_bytes (n : nat) (v : Z) : bytes := match n with O => [] | S m => byte (v / 256 ^ Z.of_nat m) :: be_bytes m v end.
Definition be_value (l : bytes) : Z := fold_left (fun acc b => acc * 256 + b) l 0.
(** [LittleEndian]. *)
Definition le_bytes (n : nat) (v : Z) : bytes := rev (be_bytes n v).
Definition le_value (l : bytes) : Z := be_value (rev l).

(** Writing bytes at a position of a slice; out of bounds panics. *)
Definition put (data : bytes) (pos : nat) (bs : bytes) : res bytes :=
  if Nat.leb (pos + length bs) (length data) then Ret (firstn pos data ++ bs ++ skipn (pos + length bs) data) else Panic.
(** data[pos : pos+n]. *)
Definition slice (data : bytes) (pos n : nat) : res bytes :=
  if Nat.leb (pos + n) (length data) then Ret (firstn n (skipn pos data)) else Panic.
(** data[pos:]. *)
Definition tail_from (data : bytes) (pos : nat) : res bytes := if Nat.leb pos (length data) then Ret (skipn pos data) else Panic.
Definition index {A} (l : list A) (i : nat) : res A := match nth_error l i with Some x => Ret x | None => Panic end.

(** ** ring.Poly *)

(** ring/ring_poly.go:27-31 [Poly].  A nil Coeffs is []; simplification: an empty non-nil Coeffs is not
    distinguished from nil (only decoding a header with 0 rows makes one). *)
Record Poly := mkPoly { pCoeffs : rows; pNTT : bool; pMForm : bool }.
Definition newPoly : Poly := mkPoly [] false false.

(** ring/ring_poly.go:45-52 [Degree], [LenModuli]. *)
Definition Degree (p : Poly) : res nat := let* r := index (pCoeffs p) 0 in Ret (length r).
Definition LenModuli (p : Poly) : nat := length (pCoeffs p).

(** ring/ring_poly.go:186-196 [WriteCoeffsTo] (w = 8) and 251-261 [WriteCoeffsTo32] (w = 4). *)
Definition write_coeffs (w pointer N numberModuli : nat) (coeffs : rows) (data : bytes) : res (nat * bytes) :=
  loop (fun '(pointer, data) i =>
      let* data := loop (fun data j => let* row := index coeffs i in let* c := index row j in put data (pointer + j * w) (be_bytes w c)) (seq 0 N) data in
      Ret ((pointer + N * w)%nat, data))
    (seq 0 numberModuli) (pointer, data).

(** ring/ring_poly.go:283-290 [GetDataLen] (w = 8), 265-272 [GetDataLen32] (w = 4). *)
Definition data_len (w : nat) (withMetadata : bool) (p : Poly) : res nat :=
  let* N := Degree p in Ret ((if withMetadata then 4 else 0) + LenModuli p * N * w)%nat.

(** ring/ring_poly.go:200-222 [WriteTo] (w = 8) and 226-248 [WriteTo32] (w = 4): the flags are only written when they are set. *)
Definition write_to (w : nat) (p : Poly) (data : bytes) : res (nat * bytes) :=
  let* N := Degree p in
  let* len := data_len w true p in
  if Nat.ltb (length data) len then Fail
  else
    let* data := put data 0 [byte (Len64 (Z.of_nat N) - 1)] in
    let* data := put data 1 [byte (Z.of_nat (LenModuli p))] in
    let* data := if pNTT p then put data 2 [1] else Ret data in
    let* data := if pMForm p then put data 3 [1] else Ret data in
    write_coeffs w 4 N (LenModuli p) (pCoeffs p) data.
Definition WriteTo := write_to 8.
Definition WriteTo32 := write_to 4.

(** ring/ring_poly.go:320-324 [MarshalBinary]. *)
Definition MarshalBinary (p : Poly) : res bytes :=
  let* len := data_len 8 true p in
  let* '(_, data) := WriteTo p (repeat 0 len) in Ret data.

(** Go [int(1 << b)] for a byte b. *)
Definition shl_int (b : Z) : Z := if b <? 63 then 2 ^ b else if b =? 63 then - 2 ^ 63 else 0.

(** ring/ring_poly.go:306-317 [DecodeCoeffsNew] (w = 8), 410-421 [DecodeCoeffsNew32] (w = 4).  A negative N makes [make] panic; data
    that is too short makes the slicing panic (or already [make], if N is very large); an index beyond coeffs
    panics. *)
Definition decode_coeffs (w pointer : nat) (N : Z) (numberModuli : nat) (coeffs : rows) (data : bytes) : res (nat * rows) :=
  loop (fun '(pointer, coeffs) i =>
      if N <? 0 then Panic
      else if Nat.leb (length coeffs) i then Panic
      else if Z.of_nat (length data) <? Z.of_nat pointer + N * Z.of_nat w then Panic
      else
        let row := map (fun j => be_value (firstn w (skipn (pointer + j * w) data))) (seq 0 (Z.to_nat N)) in
        Ret ((pointer + Z.to_nat N * w)%nat, upd coeffs i row))
    (seq 0 numberModuli) (pointer, coeffs).

(** ring/ring_poly.go:355-379 [DecodePolyNew] (w = 8), 383-407 [DecodePolyNew32] (w = 4) on the target p: the number of bytes read
    and the target afterwards. *)
Definition decode_poly (w : nat) (p : Poly) (data : bytes) : res (nat * Poly) :=
  let* b0 := index data 0 in
  let* b1 := index data 1 in
  let* b2 := index data 2 in
  let* b3 := index data 3 in
  let ntt := if b2 =? 1 then true else pNTT p in
  let mform := if b3 =? 1 then true else pMForm p in
  let coeffs := match pCoeffs p with [] => repeat [] (Z.to_nat b1) | c => c end in
  let* '(pointer, coeffs) := decode_coeffs w 4 (shl_int b0) (Z.to_nat b1) coeffs data in
  Ret (pointer, mkPoly coeffs ntt mform).
Definition DecodePolyNew := decode_poly 8.
Definition DecodePolyNew32 := decode_poly 4.

(** Go's conversion of a product of ints: modulo 2^64, centred. *)
Definition int_wrap (x : Z) : Z := let y := x mod W in if y <? 2 ^ 63 then y else y - W.

(** ring/ring_poly.go:327-351 [UnmarshalBinary] on the target p.  Simplification: the flags set on the target before an error is
    returned are not followed. *)
Definition UnmarshalBinary (p : Poly) (data : bytes) : res Poly :=
  let* b0 := index data 0 in
  let* b1 := index data 1 in
  let* b2 := index data 2 in
  let* b3 := index data 3 in
  if negb (Z.of_nat (length data - 4) / 8 =? int_wrap (shl_int b0 * b1)) then Fail
  else let* '(_, p) := DecodePolyNew p data in Ret p.

(** ** rlwe.PolyQP *)

(** rlwe/ring_qp.go:27-29 [PolyQP]; None is a nil pointer. *)
Record PolyQP := mkQP { qpQ : option Poly; qpP : option Poly }.
Definition newQP : PolyQP := mkQP None None.

(** rlwe/ring_qp.go:351-363 [GetDataLen]. *)
Definition qp_data_len (withMetadata : bool) (p : PolyQP) : res nat :=
  let* lq := match qpQ p with Some q => data_len 8 withMetadata q | None => Ret 0%nat end in
  let* lp := match qpP p with Some q => data_len 8 withMetadata q | None => Ret 0%nat end in
  Ret ((if withMetadata then 2 else 0) + lq + lp)%nat.

(** Writing with f to data[pt:]. *)
Definition write_at (f : bytes -> res (nat * bytes)) (data : bytes) (pt : nat) : res (nat * bytes) :=
  let* sub := tail_from data pt in
  let* '(inc, sub) := f sub in
  Ret ((pt + inc)%nat, firstn pt data ++ sub).

(** rlwe/ring_qp.go:366-394 [WriteTo]: a nil pointer whose mark is 1 in the data is dereferenced (panic). *)
Definition qp_write_to (p : PolyQP) (data : bytes) : res (nat * bytes) :=
  let* data := match qpQ p with Some _ => put data 0 [1] | None => Ret data end in
  let* data := match qpP p with Some _ => put data 1 [1] | None => Ret data end in
  let* b0 := index data 0 in
  let* '(pt, data) := if b0 =? 1 then match qpQ p with Some q => write_at (WriteTo q) data 2 | None => Panic end else Ret (2%nat, data) in
  let* b1 := index data 1 in
  if b1 =? 1 then match qpP p with Some q => write_at (WriteTo q) data pt | None => Panic end else Ret (pt, data).

(** Decoding with f from data[pt:]. *)
Definition read_at {A} (f : bytes -> res (nat * A)) (data : bytes) (pt : nat) : res (nat * A) :=
  let* sub := tail_from data pt in
  let* '(inc, a) := f sub in
  Ret ((pt + inc)%nat, a).

(** rlwe/ring_qp.go:397-419 [DecodePolyNew] on the target p. *)
Definition qp_decode (p : PolyQP) (data : bytes) : res (nat * PolyQP) :=
  let* b0 := index data 0 in
  let* '(pt, q) := if b0 =? 1 then let* '(pt, q) := read_at (DecodePolyNew newPoly) data 2 in Ret (pt, Some q) else Ret (2%nat, qpQ p) in
  let* b1 := index data 1 in
  let* '(pt, r) := if b1 =? 1 then let* '(pt, r) := read_at (DecodePolyNew newPoly) data pt in Ret (pt, Some r) else Ret (pt, qpP p) in
  Ret (pt, mkQP q r).

(** ** Ciphertexts *)

(** The sum of the lengths of a list of objects. *)
Definition sum_len {A} (f : A -> res nat) (l : list A) : res nat := loop (fun n x => let* m := f x in Ret (n + m)%nat) l 0%nat.

(** rlwe/marshaler.go:27-39 [Ciphertext.GetDataLen]. *)
Definition ct_data_len (withMetadata : bool) (v : list Poly) : res nat :=
  let* n := sum_len (data_len 8 withMetadata) v in Ret ((if withMetadata then 1 else 0) + n)%nat.
(** rlwe/marshaler.go:43-63 [Ciphertext.MarshalBinary]. *)
Definition ct_marshal (v : list Poly) : res bytes :=
  let* len := ct_data_len true v in
  let* data := put (repeat 0 len) 0 [byte (Z.of_nat (length v))] in
  let* '(_, data) := loop (fun '(pointer, data) el => write_at (WriteTo el) data pointer) v (1%nat, data) in
  Ret data.
(** n new objects decoded one after the other. *)
Definition decode_list {A} (f : bytes -> res (nat * A)) (n : nat) (data : bytes) (pointer : nat) : res (nat * list A) :=
  loop (fun '(pointer, l) (_ : nat) => let* '(pointer, x) := read_at f data pointer in Ret (pointer, l ++ [x])) (seq 0 n) (pointer, []).
(** rlwe/marshaler.go:66-92 [Ciphertext.UnmarshalBinary]. *)
Definition ct_unmarshal (data : bytes) : res (list Poly) :=
  if Nat.ltb (length data) 10 then Fail
  else
    let* b0 := index data 0 in
    let* '(pointer, v) := decode_list (DecodePolyNew newPoly) (Z.to_nat b0) data 1 in
    if negb (Nat.eqb pointer (length data)) then Fail else Ret v.

(** math.Float64bits and math.Float64frombits.  The numbers are those of Flocq's binary64; all NaNs are one value,
    whose bits are Flocq's default ones. *)
Definition Float64bits (x : float64) : Z := bits_of_b64 (BSN2B 53 1024 default_nan_pl64 x).
Definition Float64frombits (b : Z) : float64 := B2BSN 53 1024 (b64_of_bits b).

(** ckks/ciphertext.go:97-109 [MarshalBinary]. *)
Definition ckks_marshal (v : list Poly) (scale : float64) : res bytes :=
  let* data := ct_marshal v in Ret (le_bytes 8 (Float64bits scale) ++ data).
(** ckks/ciphertext.go:112-120 [UnmarshalBinary]. *)
Definition ckks_unmarshal (data : bytes) : res (list Poly * float64) :=
  if Nat.ltb (length data) 10 then Fail
  else
    let* s := slice data 0 8 in
    let* t := tail_from data 8 in
    let* v := ct_unmarshal t in
    Ret (v, Float64frombits (le_value s)).

(** ** Keys *)

(** rlwe/marshaler.go:96-110 [SecretKey.GetDataLen], [MarshalBinary], [UnmarshalBinary] (on the target p). *)
Definition sk_marshal (sk : PolyQP) : res bytes :=
  let* len := qp_data_len true sk in
  let* '(_, data) := qp_write_to sk (repeat 0 len) in Ret data.
Definition sk_unmarshal (p : PolyQP) (data : bytes) : res PolyQP := let* '(_, p) := qp_decode p data in Ret p.

(** rlwe/marshaler.go:115-149 [PublicKey.GetDataLen], [MarshalBinary], [UnmarshalBinary] (on the target p). *)
Definition pk_marshal (pk : PolyQP * PolyQP) : res bytes :=
  let* l0 := qp_data_len true (fst pk) in
  let* l1 := qp_data_len true (snd pk) in
  let* '(pt, data) := write_at (qp_write_to (fst pk)) (repeat 0 (l0 + l1)) 0 in
  let* '(_, data) := write_at (qp_write_to (snd pk)) data pt in Ret data.
Definition pk_unmarshal (p : PolyQP * PolyQP) (data : bytes) : res (PolyQP * PolyQP) :=
  let* '(pt, p0) := read_at (qp_decode (fst p)) data 0 in
  let* '(_, p1) := read_at (qp_decode (snd p)) data pt in
  Ret (p0, p1).

(** rlwe/keys.go:34-36 [SwitchingKey]. *)
Definition swk := list (PolyQP * PolyQP).
(** rlwe/marshaler.go:209-221 [SwitchingKey.GetDataLen]. *)
Definition swk_data_len (withMetadata : bool) (k : swk) : res nat :=
  let* n := sum_len (fun v => let* l0 := qp_data_len withMetadata (fst v) in let* l1 := qp_data_len withMetadata (snd v) in Ret (l0 + l1)%nat) k in
  Ret ((if withMetadata then 1 else 0) + n)%nat.
(** Writing with f to data[pt : pt+len]. *)
Definition write_in (f : bytes -> res (nat * bytes)) (len : nat) (data : bytes) (pt : nat) : res (nat * bytes) :=
  let* sub := slice data pt len in
  let* '(inc, sub) := f sub in
  Ret ((pt + inc)%nat, firstn pt data ++ sub ++ skipn (pt + len) data).
(** rlwe/marshaler.go:245-270 [SwitchingKey.encode]. *)
Definition swk_encode (k : swk) (pointer : nat) (data : bytes) : res (nat * bytes) :=
  let* data := put data pointer [byte (Z.of_nat (length k))] in
  loop (fun '(pointer, data) v =>
      let* l0 := qp_data_len true (fst v) in
      let* '(pointer, data) := write_in (qp_write_to (fst v)) l0 data pointer in
      let* l1 := qp_data_len true (snd v) in
      write_in (qp_write_to (snd v)) l1 data pointer)
    k (S pointer, data).
(** rlwe/marshaler.go:224-233 [SwitchingKey.MarshalBinary]. *)
Definition swk_marshal (k : swk) : res bytes :=
  let* len := swk_data_len true k in
  let* '(_, data) := swk_encode k 0 (repeat 0 len) in Ret data.
(** rlwe/marshaler.go:272-298 [SwitchingKey.decode]: Value[j][0].Q and Value[j][1].P are set to new polynomials before decoding. *)
Definition swk_decode (data : bytes) : res (nat * swk) :=
  let* b0 := index data 0 in
  loop (fun '(pointer, l) (_ : nat) =>
      let* '(pointer, v0) := read_at (qp_decode (mkQP (Some newPoly) None)) data pointer in
      let* '(pointer, v1) := read_at (qp_decode (mkQP None (Some newPoly))) data pointer in
      Ret (pointer, l ++ [(v0, v1)]))
    (seq 0 (Z.to_nat b0)) (1%nat, []).
(** rlwe/marshaler.go:236-243 [SwitchingKey.UnmarshalBinary]. *)
Definition swk_unmarshal (data : bytes) : res swk := let* '(_, k) := swk_decode data in Ret k.

(** rlwe/marshaler.go:152-163 [RelinearizationKey.GetDataLen], 166-186 [MarshalBinary]. *)
Definition rlk_marshal (ks : list swk) : res bytes :=
  let* n := sum_len (swk_data_len true) ks in
  let* data := put (repeat 0 (1 + n)) 0 [byte (Z.of_nat (length ks))] in
  let* '(_, data) := loop (fun '(pointer, data) k => swk_encode k pointer data) ks (1%nat, data) in
  Ret data.
(** rlwe/marshaler.go:189-206 [RelinearizationKey.UnmarshalBinary]. *)
Definition rlk_unmarshal (data : bytes) : res (list swk) :=
  let* b0 := index data 0 in
  let* '(_, ks) := decode_list swk_decode (Z.to_nat b0) data 1 in Ret ks.

(** rlwe/marshaler.go:301-309 [RotationKeySet.GetDataLen], 312-329 [MarshalBinary].  A map is a list of its entries; the argument
    lists them in the order in which Go visits them (unspecified). *)
Definition rtk_marshal (ks : list (Z * swk)) : res bytes :=
  let* n := sum_len (fun k => let* m := swk_data_len true (snd k) in Ret (4 + m)%nat) ks in
  let* '(_, data) := loop (fun '(pointer, data) '(galEl, k) =>
      let* data := put data pointer (be_bytes 4 galEl) in swk_encode k (pointer + 4) data) ks (0%nat, repeat 0 n) in
  Ret data.
(** Setting an entry of a map. *)
Fixpoint map_set (m : list (Z * swk)) (g : Z) (k : swk) : list (Z * swk) :=
  match m with
  | [] => [(g, k)]
  | (g', k') :: m' => if g =? g' then (g, k) :: m' else (g', k') :: map_set m' g k
  end.
Definition map_get (m : list (Z * swk)) (g : Z) : option swk := option_map snd (find (fun e => fst e =? g) m).
(** rlwe/marshaler.go:332-352 [RotationKeySet.UnmarshalBinary]: [binary.BigEndian.Uint32] panics on fewer than 4 bytes.  Each turn
    reads at least 5 bytes; the fuel is the number of bytes. *)
Fixpoint rtk_decode (fuel : nat) (data : bytes) (m : list (Z * swk)) : res (list (Z * swk)) :=
  match data, fuel with
  | [], _ => Ret m
  | _, O => Panic
  | _, S f =>
      let* g := slice data 0 4 in
      let* data := tail_from data 4 in
      let* '(inc, k) := swk_decode data in
      let* data := tail_from data inc in
      rtk_decode f data (map_set m (be_value g) k)
  end.
Definition rtk_unmarshal (data : bytes) : res (list (Z * swk)) := rtk_decode (length data) data [].
