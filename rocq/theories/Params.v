(** Model of the parameter sets: /repo/rlwe/params.go, /repo/ckks/params.go, the byte buffer of /repo/utils/buffer.go
    and ring/ring.go:131-140. *)
From Flocq Require Import IEEE754.BinarySingleNaN.
From Verif Require Import Word ModRed Ring Float64 Codec.

(** ** utils/buffer.go *)

(** utils/buffer.go:31-52 [WriteUint8], [WriteUint64], [WriteUint64Slice] append; the buffer is the list of its bytes. *)
Definition WriteUint8 (buf : bytes) (c : Z) : bytes := buf ++ [c].
Definition WriteUint64 (buf : bytes) (v : Z) : bytes := buf ++ be_bytes 8 v.
Definition WriteUint64Slice (buf : bytes) (s : list Z) : bytes := fold_left WriteUint64 s buf.
(** utils/buffer.go:55-59 [WriteUint8Slice]. *)
Definition WriteUint8Slice (buf : bytes) (s : list Z) : bytes := fold_left WriteUint8 s buf.
(** utils/buffer.go:62-66 [ReadUint8], 69-74 [ReadUint64], 77-81 [ReadUint64Slice] (into a slice of length n). *)
Definition ReadUint8 (buf : bytes) : res (Z * bytes) :=
  let* v := index buf 0 in let* b := tail_from buf 1 in Ret (v, b).
Definition ReadUint64 (buf : bytes) : res (Z * bytes) :=
  let* v := slice buf 0 8 in let* b := tail_from buf 8 in Ret (be_value v, b).
Definition ReadUint64Slice (n : nat) (buf : bytes) : res (list Z * bytes) :=
  loop (fun '(l, buf) (_ : nat) => let* '(v, buf) := ReadUint64 buf in Ret (l ++ [v], buf)) (seq 0 n) ([], buf).

(** ** utils/utils.go:50-56 [EqualSliceUint64]: the elements of a are compared with those of b, up to the first
    difference. *)
Definition EqualSliceUint64 (a b : list Z) : res bool :=
  loop (fun (v : bool) i => if v then let* x := index a i in let* y := index b i in Ret (x =? y) else Ret false) (seq 0 (length a)) true.

(** ** ring/ring.go *)

(** ring/ring.go:34-40 [Type]. *)
Definition Standard : Z := 0.
Definition ConjugateInvariant : Z := 1.
Inductive param_error := SizeError | ModuliError | RingError (e : ring_error) | TypeError | DataError | LiteralError | SlotsError | InvalidError | JSONError.
(** ring/ring.go:131-140 [NewRingFromType]. *)
Definition NewRingFromType (fuel : nat) (N : Z) (ms : list Z) (ringType : Z) : Ring + param_error :=
  let lift (x : Ring + ring_error) := match x with inl r => inl r | inr e => inr (RingError e) end in
  if ringType =? Standard then lift (NewRingWithCustomNTT fuel N ms (2 * N))
  else if ringType =? ConjugateInvariant then lift (NewRingWithCustomNTT fuel N ms (4 * N))
  else inr TypeError.

(** Go [x == y] on float64. *)
Definition f64_same (x y : float64) : bool := Beqb x y.

(** ** rlwe/params.go *)

(** rlwe/params.go:31-43. *)
Definition MaxLogN : Z := 17.
Definition MinLogN : Z := 4.
Definition MaxModuliCount : Z := 100.
Definition MaxModuliSize : Z := 60.
(** 3.2 as a binary64 number. *)
Definition DefaultSigma : float64 := Float64frombits 4614388178203810202.

(** rlwe/params.go:64-73 [ParametersLiteral]; None is a nil slice. *)
Record Literal := mkLit { lLogN : Z; lQ : option (list Z); lP : option (list Z); lLogQ : option (list Z); lLogP : option (list Z);
  lSigma : float64; lH : Z; lType : Z }.
(** rlwe/params.go:77-86 [Parameters].  None is a nil *Ring. *)
Record Params := mkParams { logN : Z; qi : list Z; pi : list Z; sigma : float64; h : Z; ringQ : option Ring; ringP : option Ring; ringType : Z }.
Definition zeroParams : Params := mkParams 0 [] [] (f64_of_Z 0) 0 None None 0.

(** rlwe/params.go:496-531 [CheckModuli]. *)
Definition CheckModuli (q p : list Z) : bool :=
  (Z.of_nat (length q) <=? MaxModuliCount) && (Z.of_nat (length p) <=? MaxModuliCount) &&
  forallb (fun qi => negb (MaxModuliSize + 1 <? (Len64 qi - 1) mod W)) q &&
  forallb (fun pi => negb (MaxModuliSize + 2 <? (Len64 pi - 1) mod W)) p &&
  forallb IsPrime q && forallb IsPrime p.
(** rlwe/params.go:533-547 [checkSizeParams]. *)
Definition checkSizeParams (logN lenQ lenP : Z) : bool :=
  (logN <=? MaxLogN) && (MinLogN <=? logN) && (lenQ <=? MaxModuliCount) && (lenP <=? MaxModuliCount).

(** rlwe/params.go:608-616 [initRings].  Simplification: the half-built ring that the constructor returns together with some of its
    errors is not kept. *)
Definition initRings (fuel : nat) (p : Params) : Params * option param_error :=
  match NewRingFromType fuel (2 ^ logN p) (qi p) (ringType p) with
  | inr e => (mkParams (logN p) (qi p) (pi p) (sigma p) (h p) None (ringP p) (ringType p), Some e)
  | inl rq =>
      if Nat.eqb (length (pi p)) 0 then (mkParams (logN p) (qi p) (pi p) (sigma p) (h p) (Some rq) (ringP p) (ringType p), None)
      else match NewRingFromType fuel (2 ^ logN p) (pi p) (ringType p) with
           | inr e => (mkParams (logN p) (qi p) (pi p) (sigma p) (h p) (Some rq) None (ringType p), Some e)
           | inl rp => (mkParams (logN p) (qi p) (pi p) (sigma p) (h p) (Some rq) (Some rp) (ringType p), None)
           end
  end.
(** rlwe/params.go:88-113 [NewParameters].  The last statement is [return params, params.initRings()]; the Go specification does not
    say whether params is read before or after the call, the compiler reads it after. *)
Definition NewParameters (fuel : nat) (logn : Z) (q p : list Z) (h : Z) (sigma : float64) (ty : Z) : Params * option param_error :=
  if negb (checkSizeParams logn (Z.of_nat (length q)) (Z.of_nat (length p))) then (zeroParams, Some SizeError)
  else if negb (CheckModuli q p) then (zeroParams, Some ModuliError)
  else initRings fuel (mkParams logn q p sigma h None None ty).

(** rlwe/params.go:127-160 [NewParametersFromLiteral].  A shift by a negative LogN - 1 panics (LogN = 0 only; the size check comes
    later).  Chains given by their sizes, LogQ and LogP, give [Fail] here; see [ParametersFromSizes] in Primes.v. *)
Definition NewParametersFromLiteral (fuel : nat) (d : Literal) : res (Params * option param_error) :=
  if (lH d =? 0) && (lLogN d - 1 <? 0) then Panic
  else
    let hh := if lH d =? 0 then int_wrap (2 ^ (lLogN d - 1)) else lH d in
    let sg := if f64_same (lSigma d) (f64_of_Z 0) then DefaultSigma else lSigma d in
    match lQ d, lLogQ d, lP d, lLogP d with
    | Some q, None, Some p, None => Ret (NewParameters fuel (lLogN d) q p hh sg (lType d))
    | None, Some _, None, Some _ => Fail
    | _, _, _, _ => Ret (zeroParams, Some LiteralError)
    end.

(** rlwe/params.go:165-180 [StandardParameters]. *)
Definition StandardParameters (fuel : nat) (p : Params) : Params * option param_error :=
  if ringType p =? Standard then (p, None)
  else if ringType p =? ConjugateInvariant then initRings fuel (mkParams (logN p + 1) (qi p) (pi p) (sigma p) (h p) (ringQ p) (ringP p) Standard)
  else (zeroParams, Some TypeError).

(** rlwe/params.go:395-403 [Equals]. *)
Definition Equals (p other : Params) : res bool :=
  let and (b : bool) (m : res bool) := if b then m else Ret false in
  let r := logN p =? logN other in
  let* r := and r (EqualSliceUint64 (qi p) (qi other)) in
  let* r := and r (EqualSliceUint64 (pi p) (pi other)) in
  Ret (r && (h p =? h other) && f64_same (sigma p) (sigma other) && (ringType p =? ringType other)).

(** rlwe/params.go:410-420 [CopyNew]: the errors of the ring constructions are ignored. *)
Definition CopyNew (fuel : nat) (p : Params) : Params :=
  let get (x : Ring + param_error) := match x with inl r => Some r | inr _ => None end in
  mkParams (logN p) (qi p) (pi p) (sigma p) (h p) (get (NewRingFromType fuel (2 ^ logN p) (qi p) (ringType p)))
    (if Nat.ltb 0 (length (pi p)) then get (NewRingFromType fuel (2 ^ logN p) (pi p) (ringType p)) else ringP p) (ringType p).

(** rlwe/params.go:423-446 [MarshalBinary]. *)
Definition Params_MarshalBinary (p : Params) : bytes :=
  if logN p =? 0 then []
  else
    let b := WriteUint8 [] (byte (logN p)) in
    let b := WriteUint8 b (byte (Z.of_nat (length (qi p)))) in
    let b := WriteUint8 b (byte (Z.of_nat (length (pi p)))) in
    let b := WriteUint64 b (h p mod W) in
    let b := WriteUint64 b (Float64bits (sigma p)) in
    let b := WriteUint8 b (byte (ringType p)) in
    let b := WriteUint64Slice b (qi p) in
    WriteUint64Slice b (pi p).
(** rlwe/params.go:476-478 [MarshalBinarySize]. *)
Definition MarshalBinarySize (p : Params) : Z := 20 + 8 * Z.of_nat (length (qi p) + length (pi p)).

(** rlwe/params.go:449-473 [UnmarshalBinary] on the receiver p: the receiver afterwards and the error. *)
Definition Params_UnmarshalBinary (fuel : nat) (p : Params) (data : bytes) : res (Params * option param_error) :=
  if Nat.ltb (length data) 11 then Ret (p, Some DataError)
  else
    let* '(logN, b) := ReadUint8 data in
    let* '(lenQ, b) := ReadUint8 b in
    let* '(lenP, b) := ReadUint8 b in
    let* '(hh, b) := ReadUint64 b in
    let* '(sg, b) := ReadUint64 b in
    let* '(ty, b) := ReadUint8 b in
    if negb (checkSizeParams logN lenQ lenP) then Ret (p, Some SizeError)
    else
      let* '(q, b) := ReadUint64Slice (Z.to_nat lenQ) b in
      let* '(pp, b) := ReadUint64Slice (Z.to_nat lenP) b in
      Ret (NewParameters fuel logN q pp (int_wrap hh) (Float64frombits sg) ty).

(** The JSON form is modelled by the literal it represents: encoding/json writes integers exactly, finite float64
    with enough digits to be read back, refuses infinities and NaNs, and a type by its name (ring/ring.go:55-75).
    A field that is missing gets its zero value. *)
Definition finite (x : float64) : bool := is_finite x.
(** rlwe/params.go:481-483 [MarshalJSON]. *)
Definition Params_MarshalJSON (p : Params) : res Literal :=
  if finite (sigma p) then Ret (mkLit (logN p) (Some (qi p)) (Some (pi p)) None None (sigma p) (h p) Standard) else Fail.
(** rlwe/params.go:486-493 [UnmarshalJSON]. *)
Definition Params_UnmarshalJSON (fuel : nat) (d : Literal) : res (Params * option param_error) := NewParametersFromLiteral fuel d.

(** ** ckks/params.go *)

(** ckks/params.go:363-368 [Parameters]. *)
Record CkksParams := mkCkks { cRlwe : Params; cLogSlots : Z; cScale : float64 }.
Definition zeroCkks : CkksParams := mkCkks zeroParams 0 (f64_of_Z 0).
(** ckks/params.go:338-349 [ParametersLiteral]. *)
Record CkksLiteral := mkCkksLit { clRlwe : Literal; clLogSlots : Z; clScale : float64 }.

(** ckks/params.go:370-380 [NewParameters]; minLogSlots is 0 (line 32). *)
Definition Ckks_NewParameters (rp : Params) (logSlots : Z) (scale : float64) : res (CkksParams * option param_error) :=
  let* eq := Equals rp zeroParams in
  if eq then Ret (zeroCkks, Some InvalidError)
  else match ringQ rp with
       | None => Panic
       | Some r => if (Len64 (rNthRoot r) - 3 <? logSlots) || (logSlots <? 0) then Ret (zeroCkks, Some SlotsError) else Ret (mkCkks rp logSlots scale, None)
       end.
(** ckks/params.go:389-405 [NewParametersFromLiteral]. *)
Definition Ckks_NewParametersFromLiteral (fuel : nat) (d : CkksLiteral) : res (CkksParams * option param_error) :=
  let* '(rp, e) := NewParametersFromLiteral fuel (clRlwe d) in
  match e with
  | Some e => Ret (zeroCkks, Some e)
  | None =>
      let ty := lType (clRlwe d) in
      let ls := if clLogSlots d =? 0 then if ty =? Standard then lLogN (clRlwe d) - 1 else if ty =? ConjugateInvariant then lLogN (clRlwe d) else 0 else clLogSlots d in
      Ckks_NewParameters rp ls (clScale d)
  end.
(** ckks/params.go:542-547 [Equals]. *)
Definition Ckks_Equals (p other : CkksParams) : res bool :=
  let* r := Equals (cRlwe p) (cRlwe other) in
  Ret (r && (cLogSlots p =? cLogSlots other) && f64_same (cScale p) (cScale other)).
(** ckks/params.go:560-578 [MarshalBinary]. *)
Definition Ckks_MarshalBinary (p : CkksParams) : bytes :=
  if logN (cRlwe p) =? 0 then []
  else
    let b := WriteUint8Slice [] (Params_MarshalBinary (cRlwe p)) in
    let b := WriteUint8 b (byte (cLogSlots p)) in
    WriteUint64 b (Float64bits (cScale p)).
(** ckks/params.go:593-595 [MarshalBinarySize]. *)
Definition Ckks_MarshalBinarySize (p : CkksParams) : Z := MarshalBinarySize (cRlwe p) + 9.
(** ckks/params.go:581-590 [UnmarshalBinary] on the receiver p. *)
Definition Ckks_UnmarshalBinary (fuel : nat) (p : CkksParams) (data : bytes) : res (CkksParams * option param_error) :=
  let* '(rp, e) := Params_UnmarshalBinary fuel zeroParams data in
  match e with
  | Some e => Ret (p, Some e)
  | None =>
      let* ls := index data (length data - 9) in
      let* s := tail_from data (length data - 8) in
      Ckks_NewParameters rp ls (Float64frombits (be_value s))
  end.
(** ckks/params.go:598-600 [MarshalJSON] and 603-608 [UnmarshalJSON] (the errors of encoding/json are ignored). *)
Definition Ckks_MarshalJSON (p : CkksParams) : res CkksLiteral :=
  if finite (sigma (cRlwe p)) && finite (cScale p)
  then Ret (mkCkksLit (mkLit (logN (cRlwe p)) (Some (qi (cRlwe p))) (Some (pi (cRlwe p))) None None (sigma (cRlwe p)) (h (cRlwe p)) (ringType (cRlwe p))) (cLogSlots p) (cScale p))
  else Fail.
Definition Ckks_UnmarshalJSON (fuel : nat) (d : CkksLiteral) : res (CkksParams * option param_error) := Ckks_NewParametersFromLiteral fuel d.
