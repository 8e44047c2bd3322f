(** Model of /repo/utils/prng.go and of the uniform and ternary samplers /repo/ring/ring_sampler_uniform.go and
    ring_sampler_ternary.go.

    The output of the extendable-output function blake2b is an unknown stream of bytes; the theorems hold for every
    stream.  Simplification: the stream has no end (blake2b stops after 2^38 bytes, where the code panics). *)
From Flocq Require Import IEEE754.BinarySingleNaN.
From Verif Require Import Word ModRed Ring RingOps Float64 Codec.

(** The bytes a generator returns, by position. *)
Definition stream := nat -> Z.

(** ** utils/prng.go *)

(** utils/prng.go:35-38 [KeyedPRNG]: the clock, and how many bytes of the stream have been read. *)
Record prng := mkPrng { clock : Z; pos : nat }.
(** utils/prng.go:45-51 [NewKeyedPRNG]; the stream depends on the key.  67-69 [GetClock] is the projection [clock]. *)
Definition newPrng : prng := mkPrng 0 0.
Definition block (s : stream) (p n : nat) : bytes := map s (seq p n).
(** utils/prng.go:72-77 [Clock] on a slice of length n: the bytes and the generator afterwards. *)
Definition Clock (s : stream) (n : nat) (g : prng) : bytes * prng := (block s (pos g) n, mkPrng (wadd (clock g) 1) (pos g + n)).
(** utils/prng.go:82-93 [SetClock].  The loop runs n - clock times; the slice holds the last block. *)
Fixpoint clocks (s : stream) (steps : nat) (sum : bytes) (g : prng) : bytes * prng :=
  match steps with O => (sum, g) | S k => let '(sum, g) := Clock s (length sum) g in clocks s k sum g end.
Definition SetClock (s : stream) (sum : bytes) (n : Z) (g : prng) : res (bytes * prng) :=
  if n <? clock g then Fail else Ret (clocks s (Z.to_nat (n - clock g)) sum g).

(** ** ring/ring_sampler_uniform.go *)

(** The variables of [ReadLvl]: the buffer, ptr and the generator. *)
Record pool := mkPool { pbuf : bytes; pptr : nat; pgen : prng }.
(** ring/ring_sampler_uniform.go:103-122, the innermost loop.  [Fail] stands for more than [fuel] iterations. *)
Fixpoint draw (fuel : nat) (s : stream) (N : nat) (mask q : Z) (b : pool) : res (Z * pool) :=
  match fuel with
  | O => Fail
  | S f =>
      let b := if Nat.eqb (pptr b) N then let '(buf, g) := Clock s N (pgen b) in mkPool buf 0 g else b in
      let* w := slice (pbuf b) (pptr b) 8 in
      let randomUint := Z.land (be_value w) mask in
      let b := mkPool (pbuf b) (pptr b + 8) (pgen b) in
      if randomUint <? q then Ret (randomUint, b) else draw f s N mask q b
  end.
(** ring/ring_sampler_uniform.go:101-125: the coefficients of one row. *)
Fixpoint draws (fuel : nat) (s : stream) (N : nat) (mask q : Z) (n : nat) (b : pool) : res (list Z * pool) :=
  match n with
  | O => Ret ([], b)
  | S n => let* '(v, b) := draw fuel s N mask q b in let* '(l, b) := draws fuel s N mask q n b in Ret (v :: l, b)
  end.
(** ring/ring_sampler_uniform.go:92-126: the rows.  A row keeps what it has beyond its first N entries; a shorter row panics (the model panics before
    sampling). *)
Fixpoint draw_rows (fuel : nat) (s : stream) (N : nat) (ms : list modp) (pol : rows) (b : pool) : res (rows * pool) :=
  match ms with
  | [] => Ret (pol, b)
  | m :: ms =>
      match pol with
      | [] => Panic
      | row :: pol =>
          if Nat.ltb (length row) N then Panic
          else
            let* '(l, b) := draws fuel s N (mmask m) (mq m) N b in
            let* '(pol, b) := draw_rows fuel s N ms pol b in
            Ret ((l ++ skipn N row) :: pol, b)
      end
  end.
(** ring/ring_sampler_uniform.go:85-126 [ReadLvl], and 41-82 [Read], which fills all the rows. *)
Definition Uniform_ReadLvl (fuel : nat) (s : stream) (r : Ring) (level : nat) (pol : rows) (g : prng) : res (rows * prng) :=
  let '(buf, g) := Clock s (rN r) g in
  if Nat.ltb level (length (rmods r)) then
    let* '(pol, b) := draw_rows fuel s (rN r) (firstn (level + 1) (rmods r)) pol (mkPool buf 0 g) in
    Ret (pol, pgen b)
  else Panic.
Definition Uniform_Read (fuel : nat) (s : stream) (r : Ring) (pol : rows) (g : prng) : res (rows * prng) :=
  let '(buf, g) := Clock s (rN r) g in
  if Nat.leb (length pol) (length (rmods r)) then
    let* '(pol, b) := draw_rows fuel s (rN r) (firstn (length pol) (rmods r)) pol (mkPool buf 0 g) in
    Ret (pol, pgen b)
  else Panic.
(** ring/ring_sampler_uniform.go:156-167 [randInt32] (n = 4), 170-181 [randInt64] (n = 8). *)
Definition randInt (n : nat) (s : stream) (mask : Z) (g : prng) : Z * prng :=
  let '(b, g) := Clock s n g in (Z.land mask (be_value b), g).
(** ring/ring_sampler_uniform.go:146-153 [RandUniform]; with n = 4 also the loop of ring/ring_sampler_ternary.go:210-213. *)
Fixpoint rand_below (n : nat) (fuel : nat) (s : stream) (v mask : Z) (g : prng) : res (Z * prng) :=
  match fuel with
  | O => Fail
  | S f => let '(x, g) := randInt n s mask g in if x <? v then Ret (x, g) else rand_below n f s v mask g
  end.
Definition RandUniform := rand_below 8.

(** ** ring/ring_sampler_ternary.go *)

(** ring/ring_sampler_ternary.go:94-113 [initializeMatrix], one row of matrixValues: the representations of 0, 1 and -1. *)
Definition matrixValues (montgomery : bool) (m : modp) : list Z :=
  if montgomery then [0; MForm 1 (mq m) (mbred m); MForm (mq m - 1) (mq m) (mbred m)] else [0; 1; mq m - 1].

(** pol.Coeffs[k][i] = matrixValues[k][v] for all k up to the level. *)
Fixpoint set_coeff (montgomery : bool) (ms : list modp) (pol : rows) (i v : nat) : rows :=
  match ms, pol with
  | m :: ms, row :: pol => upd row i (nth v (matrixValues montgomery m) 0) :: set_coeff montgomery ms pol i v
  | _, _ => pol
  end.
(** The rows that are written exist and are long enough; otherwise every sampler below panics (all the N coefficients are
    written). *)
Definition room (N : nat) (ms : list modp) (pol : rows) : bool :=
  Nat.leb (length ms) (length pol) && forallb (fun row => Nat.leb N (length row)) (firstn (length ms) pol).

(** ring/ring_sampler_ternary.go:207-233: the loop of [sampleSparse]; index is the slice of the free positions. *)
Fixpoint sparse_loop (fuel : nat) (s : stream) (N : nat) (mont : bool) (ms : list modp) (is : list nat)
    (index : list nat) (randomBytes : bytes) (pointer : nat) (pol : rows) (g : prng) : res (list nat * rows * prng) :=
  match is with
  | [] => Ret (index, pol, g)
  | i :: is =>
      let mask := 2 ^ Len64 (Z.of_nat (N - i)) - 1 in
      let* '(j, g) := rand_below 4 fuel s (Z.of_nat (N - i)) mask g in
      let* b := Codec.index randomBytes 0 in
      let coeff := Z.to_nat (b / 2 ^ Z.of_nat (i mod 8) mod 2) in
      let* p := Codec.index index (Z.to_nat j) in
      let pol := set_coeff mont ms pol p (coeff + 1) in
      let index := removelast (upd index (Z.to_nat j) (last index O)) in
      let pointer := S pointer in
      let '(randomBytes, pointer) := if Nat.eqb pointer 8 then (tl randomBytes, O) else (randomBytes, pointer) in
      sparse_loop fuel s N mont ms is index randomBytes pointer pol g
  end.
(** ring/ring_sampler_ternary.go:189-239 [sampleSparse] for a weight hw >= 0: the polynomial, the weight kept in the sampler, the generator. *)
Definition sampleSparse (fuel : nat) (s : stream) (r : Ring) (mont : bool) (hw : nat) (lvl : nat) (pol : rows) (g : prng) : res (rows * nat * prng) :=
  if Nat.ltb lvl (length (rmods r)) && room (rN r) (firstn (lvl + 1) (rmods r)) pol then
    let hw := if Nat.ltb (rN r) hw then rN r else hw in
    let ms := firstn (lvl + 1) (rmods r) in
    let '(randomBytes, g) := Clock s ((hw + 7) / 8) g in
    let* '(index, pol, g) := sparse_loop fuel s (rN r) mont ms (seq 0 hw) (seq 0 (rN r)) randomBytes 0 pol g in
    Ret (fold_left (fun pol i => set_coeff mont ms pol i 0) index pol, hw, g)
  else Panic.

(** ring/ring_sampler.go:22. *)
Definition precision : nat := 56.
(** ring/ring_sampler_ternary.go:115-135 [computeMatrixTernary]: the first 55 binary digits of p and 1 - p. *)
Definition proba_bits (p : float64) : list Z :=
  let x := f64_trunc (f64_mul p (f64_of_Z (2 ^ 56))) in
  map (fun j => (x / 2 ^ (Z.of_nat precision - Z.of_nat j - 1)) mod 2) (seq 0 (precision - 1)).
Definition f64_sub (x y : float64) : float64 := Bminus mode_NE x y.
Definition matrixProba (p : float64) : list Z * list Z := (proba_bits p, proba_bits (f64_sub (f64_of_Z 1) p)).

(** ring/ring_sampler_ternary.go:242-306 [kysampling], one bit per step: the row, the sign, and the buffer, bit and byte pointers afterwards.  The
    matrix has 55 columns; reading the next one panics.  [Fail] stands for more than [fuel] steps. *)
Fixpoint ky (fuel : nat) (s : stream) (m0 m1 : list Z) (N : nat) (d : Z) (col : nat) (buf : bytes) (i byteptr : nat) (g : prng)
    : res (Z * Z * bytes * nat * nat * prng) :=
  match fuel with
  | O => Fail
  | S f =>
      let next := let byteptr := S byteptr in
        if Nat.leb N byteptr then let '(buf, g) := Clock s N g in (buf, O, g) else (buf, byteptr, g) in
      if Nat.leb 8 i then let '(buf, byteptr, g) := next in ky f s m0 m1 N d col buf 0 byteptr g
      else
        let* b := Codec.index buf byteptr in
        let d := 2 * d + 1 - b / 2 ^ Z.of_nat i mod 2 in
        if 1 <? d then ky f s m0 m1 N 0 0 buf i byteptr g
        else
          let finish (row : Z) :=
            if Nat.eqb i 7 then
              let '(buf, byteptr, g) := next in
              let* b := Codec.index buf byteptr in Ret (row, b mod 2, buf, 1%nat, byteptr, g)
            else Ret (row, b / 2 ^ Z.of_nat (i + 1) mod 2, buf, (i + 1)%nat, byteptr, g) in
          let* x1 := Codec.index m1 col in
          let d := d - x1 in
          if d =? -1 then finish 1
          else
            let* x0 := Codec.index m0 col in
            let d := d - x0 in
            if d =? -1 then finish 0 else ky f s m0 m1 N d (S col) buf (S i) byteptr g
  end.
(** ring/ring_sampler_ternary.go:154-156: the index into matrixValues. *)
Definition value_index (coeff sign : Z) : nat := Z.to_nat (Z.lor (Z.land coeff (Z.lxor sign 1)) (Z.land sign coeff * 2)).
(** ring/ring_sampler_ternary.go:173-183: the coefficients one after the other. *)
Fixpoint proba_loop (fuel : nat) (s : stream) (m0 m1 : list Z) (N : nat) (mont : bool) (ms : list modp) (is : list nat)
    (buf : bytes) (pointer byteptr : nat) (pol : rows) (g : prng) : res (rows * prng) :=
  match is with
  | [] => Ret (pol, g)
  | i :: is =>
      let* '(coeff, sign, buf, pointer, byteptr, g) := ky fuel s m0 m1 N 0 0 buf pointer byteptr g in
      proba_loop fuel s m0 m1 N mont ms is buf pointer byteptr (set_coeff mont ms pol i (value_index coeff sign)) g
  end.
(** ring/ring_sampler_ternary.go:137-187 [sampleProba]. *)
Definition sampleProba (fuel : nat) (s : stream) (r : Ring) (mont : bool) (p : float64) (lvl : nat) (pol : rows) (g : prng) : res (rows * prng) :=
  if Beqb p (f64_of_Z 0) then Panic
  else if Nat.ltb lvl (length (rmods r)) && room (rN r) (firstn (lvl + 1) (rmods r)) pol then
    let ms := firstn (lvl + 1) (rmods r) in
    if Beqb p (f64_div (f64_of_Z 1) (f64_of_Z 2)) then
      let '(coeffs, g) := Clock s (rN r / 8) g in
      let '(signs, g) := Clock s (rN r / 8) g in
      Ret (fold_left (fun pol i =>
             let coeff := nth (i / 8) coeffs 0 / 2 ^ Z.of_nat (i mod 8) mod 2 in
             let sign := nth (i / 8) signs 0 / 2 ^ Z.of_nat (i mod 8) mod 2 in
             set_coeff mont ms pol i (value_index coeff sign)) (seq 0 (rN r)) pol, g)
    else
      let '(buf, g) := Clock s (rN r) g in
      proba_loop fuel s (fst (matrixProba p)) (snd (matrixProba p)) (rN r) mont ms (seq 0 (rN r)) buf 0 0 pol g
  else Panic.
