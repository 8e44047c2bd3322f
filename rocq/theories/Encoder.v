(** Model of /repo/ckks/encoder.go [encoderComplex128] (standard ring type) and of the functions of /repo/ckks/utils.go that it uses. *)
From Verif Require Import Word ModRed Ring NTT RingOps Scaling Float64 Gadget Ckks Fft.
Local Open Scope Z_scope.

(** ** complex128 *)

(** Go complex128: a pair of float64.  The products of a multiplication are rounded before they are added (the Go compiler does not
    fuse them on amd64). *)
Definition complex128 : Type := (float64 * float64)%type.
Definition c_zero : complex128 := (f64_zero, f64_zero).
Definition c_add (x y : complex128) : complex128 := (f64_add (fst x) (fst y), f64_add (snd x) (snd y)).
Definition c_sub (x y : complex128) : complex128 := (f64_sub (fst x) (fst y), f64_sub (snd x) (snd y)).
Definition c_mul (x y : complex128) : complex128 :=
  (f64_sub (f64_mul (fst x) (fst y)) (f64_mul (snd x) (snd y)), f64_add (f64_mul (fst x) (snd y)) (f64_mul (snd x) (fst y))).
(** [x / complex(d, 0)]: the Go runtime's complex128div, whose first branch (|real| >= |imag| of the divisor) is the one taken; its
    treatment of results that are not numbers is not modelled. *)
Definition c_div_real (x : complex128) (d : float64) : complex128 :=
  let ratio := f64_div f64_zero d in
  let denom := f64_add d (f64_mul ratio f64_zero) in
  (f64_div (f64_add (fst x) (f64_mul (snd x) ratio)) denom, f64_div (f64_sub (snd x) (f64_mul (fst x) ratio)) denom).

(** ** Fixed point *)

Definition f64_two64 : float64 := f64_of_Z (2 ^ 64).
(** ckks/utils.go:142-197 [singleFloatToFixedPointCRT]: the word written for one modulus.  In its first branch the sum is that of a
    big.Float of 53 bits, so it rounds as float64 does.  [uint64(x)] of the second is the truncation (the value 2^64, which passes the
    test of 161 though it is not a uint64, is implementation-specific in Go). *)
Definition fixed_word (value scale : float64) (m : modp) : Z :=
  let neg := f64_lt value f64_zero in
  let v := f64_mul value (if neg then f64_opp scale else scale) in
  let c := f64_trunc (f64_add v f64_half) in
  let q := mq m in
  if f64_lt f64_two64 v then (let t := c mod q in if neg then wsub q t else t)
  else if neg then (if q <? c then wsub q (BRedAdd c q (mbred m)) else wsub q c)
  else if 0x1fffffffffffffff <? c then BRedAdd c q (mbred m) else c.
(** ckks/utils.go:136-140 [floatToFixedPointCRT]. *)
Definition floatToFixedPointCRT (r : Ring) (level : nat) (vals : list float64) (scale : float64) (p : rows) : rows :=
  lvl (S level) (fun i => set_prefix (map (fun x => fixed_word x scale (rmod r i)) vals) (prow p i)) p.
(** ckks/utils.go:122-134 [complexToFixedPointCRT], standard ring type: real parts, then imaginary parts. *)
Definition complexToFixedPointCRT (r : Ring) (level : nat) (vals : list complex128) (scale : float64) (p : rows) : rows :=
  floatToFixedPointCRT r level (map fst vals ++ map snd vals) scale p.

(** ** Sparse plaintexts *)

(** ckks/utils.go:82-88: for j = n-1, ..., 0, the words j*gap, ..., j*gap+gap-1 become word j. *)
Definition repeat_gap (n gap : nat) (row : list Z) : list Z :=
  fold_left (fun cs j => firstn (j * gap) cs ++ repeat (nth j cs 0) gap ++ skipn (j * gap + gap) cs) (rev (seq 0 n)) row.
Definition ntt_small_row (n gap : nat) (m : modp) (mont : bool) (row : list Z) : list Z :=
  let lo := NTT (firstn n row) n (mpsi m) (mq m) (mqinv m) (mbred m) in
  let lo := if mont then map (fun x => MForm x (mq m) (mbred m)) lo else lo in
  repeat_gap n gap (lo ++ skipn n row).
(** ckks/utils.go:49-91 [NttAndMontgomeryLvl], standard ring type (NthRoot = 2N).  NTT works in place here; with fewer than 16 words
    its first round (unrolled by 8) would touch words beyond the first n, so the model is that of logSlots >= 3 as the documentation of
    the encoder asks. *)
Definition NttAndMontgomeryLvl (r : Ring) (level logSlots : nat) (mont : bool) (pol : rows) : rows :=
  if Nat.eqb (2 ^ logSlots) (Nat.div2 (rN r)) then
    let p := NTTLvl r level pol pol in if mont then MFormLvl r level p p else p
  else
    let n := (2 * 2 ^ logSlots)%nat in
    lvl (S level) (fun i => ntt_small_row n (rN r / n) (rmod r i) mont (prow pol i)) pol.

(** ** Coefficients *)

(** A plaintext: its polynomial, scale and domain (ckks/plaintext.go, rlwe/plaintext.go). *)
Record Pt := mkPt { ptV : rows; ptScale : float64; ptNTT : bool }.
Definition ptLevel (p : Pt) : nat := (length (ptV p) - 1)%nat.
(** ckks/plaintext.go:31-35 [NewPlaintext]. *)
Definition NewPlaintext (r : Ring) (level : nat) (scale : float64) : Pt := mkPt (zero_rows (rN r) (S level)) scale true.

(** ckks/encoder.go:258-266 [EncodeCoeffs] ([None] is the panic), 271-275 [EncodeCoeffsNew]. *)
Definition EncodeCoeffs (r : Ring) (vals : list float64) (pt : Pt) : option Pt :=
  if Nat.ltb (rN r) (length vals) then None
  else let level := ptLevel pt in
       let p := floatToFixedPointCRT r level vals (ptScale pt) (ptV pt) in
       Some (mkPt (NTTLvl r level p p) (ptScale pt) true).
Definition EncodeCoeffsNew (r : Ring) (vals : list float64) (level : nat) (scale : float64) : option Pt :=
  EncodeCoeffs r vals (NewPlaintext r level scale).

(** ckks/utils.go:313-319 [scaleDown]. *)
Definition scaleDown (c : Z) (scale : float64) : float64 := f64_div (f64_of_Z c) scale.
(** ckks/encoder.go:475-488, 575-585: reduction modulo Q (ecd.bigintChain[level], utils.go:321-330) and centring. *)
Definition centred (Q c : Z) : Z := let c := c mod Q in if Z.shiftr Q 1 <=? c then c - Q else c.
(** ckks/encoder.go:443-447, 452-456, 596-600. *)
Definition word_float (Q c : Z) : float64 := if Z.shiftr Q 1 <=? c then f64_opp (f64_of_Z (wsub Q c)) else f64_of_Z c.
(** ckks/encoder.go:525-529, 552-556: the plaintext outside of the NTT domain, written over [pool] = ecd.polypool, which has a row
    for every modulus of the ring. *)
Definition to_pool (r : Ring) (pt : Pt) (pool : rows) : rows :=
  if ptNTT pt then InvNTTLvl r (ptLevel pt) (ptV pt) pool else lvl (S (ptLevel pt)) (fun i => prow (ptV pt) i) pool.
(** ckks/encoder.go:550-606 [decodeCoeffsPublic] with sigma = 0, i.e. 278-280 [DecodeCoeffs].  The reconstruction runs over all the
    rows of the pool, whatever the level. *)
Definition DecodeCoeffs (r : Ring) (pt : Pt) (pool : rows) : list float64 :=
  let p := to_pool r pt pool in
  match ptLevel pt with
  | O => map (fun k => f64_div (word_float (mq (rmod r 0)) (nth k (prow p 0) 0)) (ptScale pt)) (seq 0 (rN r))
  | S _ => map (fun c => scaleDown (centred (level_modulus r (ptLevel pt)) c) (ptScale pt)) (PolyToBigintLvl r (Level p) p 1)
  end.

(** ** Slots *)

(** What an encoder holds: the roots (encoder.go:162-183 computes them with math.Cos and math.Sin, which are not modelled) and the
    content of the buffer ecd.values, of N/2 entries. *)
Section Slots.
  Variables (r : Ring) (roots : list complex128).
  Let M := (2 * rN r)%nat.
  Definition ifft (slots : nat) (b : list complex128) : option (list complex128) :=
    let dv x := c_div_real x (f64_of_Z (Z.of_nat slots)) in
    if Nat.ltb slots 8 then Some (SpecialiFFTVec c_add c_sub c_mul c_zero dv b slots M (rotGroup M) roots)
    else SpecialiFFTUL8Vec c_add c_sub c_mul c_zero dv b slots M (rotGroup M) roots.
  Definition fft (slots : nat) (b : list complex128) : option (list complex128) :=
    if Nat.ltb slots 8 then Some (SpecialFFTVec c_add c_sub c_mul c_zero b slots M (rotGroup M) roots)
    else SpecialFFTUL8Vec c_add c_sub c_mul c_zero b slots M (rotGroup M) roots.

  (** ckks/encoder.go:356-433 [Embed] on a ring.Poly of the given level, standard ring type.  [buf] is ecd.values; []float64 values are
      those with imaginary part 0.  [None]: a panic, or an access beyond the end of the buffer. *)
  Definition Embed (buf vals : list complex128) (logSlots : nat) (scale : float64) (mont : bool) (level : nat) (p : rows) : option rows :=
    let slots := (2 ^ logSlots)%nat in
    if Nat.ltb (rN r / 2) slots || Nat.ltb slots (length vals) then None
    else match ifft slots (vals ++ repeat c_zero (slots - length vals) ++ skipn slots buf) with
         | None => None
         | Some b => Some (NttAndMontgomeryLvl r level logSlots mont (complexToFixedPointCRT r level (firstn slots b) scale p))
         end.
  (** ckks/encoder.go:190-192 [Encode], 213-215 [EncodeSlots]: the domain of the plaintext is not updated. *)
  Definition Encode (buf vals : list complex128) (pt : Pt) (logSlots : nat) : option Pt :=
    match Embed buf vals logSlots (ptScale pt) false (ptLevel pt) (ptV pt) with
    | None => None
    | Some p => Some (mkPt p (ptScale pt) (ptNTT pt))
    end.
  (** ckks/encoder.go:201-205 [EncodeNew], 223-225 [EncodeSlotsNew]. *)
  Definition EncodeNew (buf vals : list complex128) (level : nat) (scale : float64) (logSlots : nat) : option Pt :=
    Encode buf vals (NewPlaintext r level scale) logSlots.

  (** ckks/encoder.go:435-463 [polyToComplexNoCRT]; the division goes over the whole buffer, by 8. *)
  Definition polyToComplexNoCRT (row : list Z) (buf : list complex128) (scale : float64) (slots : nat) : option (list complex128) :=
    let maxSlots := (rN r / 2)%nat in let gap := (maxSlots / slots)%nat in let Q := mq (rmod r 0) in
    let w k := word_float Q (nth k row 0) in
    let b := map (fun i => c_add (w (i * gap)%nat, f64_zero) (f64_zero, w (maxSlots + i * gap)%nat)) (seq 0 slots) ++ skipn slots buf in
    if Nat.eqb (length b mod 8) 0 then Some (map (fun x => c_div_real x scale) b) else None.
  (** ckks/encoder.go:465-499 [polyToComplexCRT]. *)
  Definition polyToComplexCRT (level : nat) (p : rows) (buf : list complex128) (scale : float64) (slots : nat) : list complex128 :=
    let gap := (rN r / 2 / slots)%nat in
    let cs := PolyToBigintLvl r (Level p) p gap in
    let w j := scaleDown (centred (level_modulus r level) (nth j cs 0)) scale in
    map (fun i => c_add (w i, f64_zero) (f64_zero, w (slots + i)%nat)) (seq 0 slots) ++ skipn slots buf.
  (** ckks/encoder.go:501-517 [plaintextToComplex] and 519-548 [decodePublic] with sigma = 0, i.e. 229-231 [Decode], 235-237 [DecodeSlots]. *)
  Definition Decode (buf : list complex128) (pool : rows) (pt : Pt) (logSlots : nat) : option (list complex128) :=
    let slots := (2 ^ logSlots)%nat in
    if Nat.ltb (rN r / 2) slots then None
    else let p := to_pool r pt pool in
         match (match ptLevel pt with
                | O => polyToComplexNoCRT (prow p 0) buf (ptScale pt) slots
                | S _ => Some (polyToComplexCRT (ptLevel pt) p buf (ptScale pt) slots)
                end) with
         | None => None
         | Some b => match fft slots b with None => None | Some b' => Some (firstn slots b') end
         end.
End Slots.
