(** What the properties of the random generators say. *)
From Flocq Require Import IEEE754.BinarySingleNaN.
From Verif Require Import Word Ring RingOps Float64 Codec Sampler.

(** A history of a generator: reads of n bytes, and requests to set the clock with a buffer of n bytes. *)
Inductive prng_op := OpClock (n : nat) | OpSetClock (n : nat) (target : Z).
(** The number of bytes an operation reads when the clock is c, and the clock afterwards. *)
Definition op_bytes (c : Z) (o : prng_op) : nat :=
  match o with OpClock n => n | OpSetClock n t => n * Z.to_nat (t - c) end.
Definition op_clock (c : Z) (o : prng_op) : Z :=
  match o with OpClock _ => c + 1 | OpSetClock _ t => Z.max c t end.
Definition op_size (o : prng_op) : nat := match o with OpClock n => n | OpSetClock n _ => n end.
(** The generator after a history; a rejected SetClock changes nothing. *)
Definition run_op (s : stream) (g : prng) (o : prng_op) : prng :=
  match o with
  | OpClock n => snd (Clock s n g)
  | OpSetClock n t => match SetClock s (repeat 0 n) t g with Ret (_, g') => g' | _ => g end
  end.
Definition run_ops (s : stream) (g : prng) (os : list prng_op) : prng := fold_left (run_op s) os g.
Fixpoint total_bytes (c : Z) (os : list prng_op) : nat :=
  match os with [] => 0 | o :: os => op_bytes c o + total_bytes (op_clock c o) os end.
Fixpoint final_clock (c : Z) (os : list prng_op) : Z := match os with [] => c | o :: os => final_clock (op_clock c o) os end.

(** Word k of n bytes of the stream after position p, most significant byte first. *)
Definition stream_word (n : nat) (s : stream) (p k : nat) : Z := be_value (block s (p + n * k) n).
(** v is the first masked word below q from word k on; it is word k'. *)
Definition accepted (n : nat) (s : stream) (p : nat) (mask q : Z) (k k' : nat) (v : Z) : Prop :=
  (k <= k')%nat /\ v = Z.land (stream_word n s p k') mask /\ v < q /\
  forall t, (k <= t < k')%nat -> q <= Z.land (stream_word n s p t) mask.
(** The values drawn one after the other for a list of masks and bounds, and the number of words read. *)
Inductive drawn (n : nat) (s : stream) (p : nat) : list (Z * Z) -> nat -> list Z -> nat -> Prop :=
  | drawn_nil k : drawn n s p [] k [] k
  | drawn_cons mask q l k k' v vs ke : accepted n s p mask q k k' v -> drawn n s p l (S k') vs ke -> drawn n s p ((mask, q) :: l) k (v :: vs) ke.
(** The coefficients of the rows 0..level, row by row. *)
Definition targets (r : Ring) (level : nat) : list (Z * Z) := flat_map (fun m => repeat (mmask m, mq m) (rN r)) (firstn (level + 1) (rmods r)).
(** Rows 0..level exist and have N entries. *)
Definition has_rows (N level : nat) (pol : rows) : Prop := (level < length pol)%nat /\ forall i, (i <= level)%nat -> length (nth i pol []) = N.

(** The rows 0..level of pol' are those of the signed integers e 0, ..., e (N - 1), times f modulo each modulus; the others
    are those of pol. *)
Definition signed_rows (r : Ring) (level : nat) (f : Z) (e : nat -> Z) (pol pol' : rows) : Prop :=
  length pol' = length pol /\ (forall k, (level < k)%nat -> nth k pol' [] = nth k pol []) /\
  forall k, (k <= level)%nat -> nth k pol' [] = map (fun i => (f * e i) mod mq (rmod r k)) (seq 0 (rN r)).

(** The polynomial that is 1 or -1 at distinct positions and 0 elsewhere: position t of ps gets the sign t. *)
Definition sparse (ps : list nat) (sign : nat -> Z) (e : nat -> Z) : Prop :=
  (forall t, (t < length ps)%nat -> e (nth t ps 0%nat) = sign t) /\ forall i, ~ In i ps -> e i = 0.
(** Choosing positions one after the other: number j of the free ones, whose place the last free one takes. *)
Definition remove_at (free : list nat) (j : nat) : list nat := removelast (upd free j (last free 0%nat)).
Fixpoint picks (free : list nat) (js : list nat) : list nat := match js with [] => [] | j :: js => nth j free 0%nat :: picks (remove_at free j) js end.
Fixpoint remaining (free : list nat) (js : list nat) : list nat := match js with [] => free | j :: js => remaining (remove_at free j) js end.
Fixpoint choices (n : nat) (js : list nat) : Prop := match js with [] => True | j :: js => (j < n)%nat /\ choices (n - 1) js end.
(** The bounds of the choices: N, N - 1, ... with the smallest mask of the form 2^L - 1 that covers each. *)
Definition shrinking (N h : nat) : list (Z * Z) := map (fun i => (2 ^ Len64 (Z.of_nat (N - i)) - 1, Z.of_nat (N - i))) (seq 0 h).
(** Bit t of a block, least significant bit of each byte first. *)
Definition bit_of (b : bytes) (t : nat) : Z := nth (t / 8) b 0 / 2 ^ Z.of_nat (t mod 8) mod 2.

(** ** Results *)
(** The result of a read at a level. *)
Definition read_result (s : stream) (r : Ring) (level : nat) (pol : rows) (g : prng) (pol' : rows) (g' : prng) : Prop :=
  exists ke, drawn 8 s (pos g) (targets r level) 0 (concat (firstn (level + 1) pol')) ke /\ length pol' = length pol /\ skipn (level + 1) pol' = skipn (level + 1) pol /\
    has_rows (rN r) level pol' /\ g' = mkPrng (w64 (clock g + Z.of_nat ((8 * ke + rN r - 1) / rN r))) (pos g + rN r * ((8 * ke + rN r - 1) / rN r)).
(** The Montgomery form multiplies by 2^64. *)
Definition factor (mont : bool) : Z := if mont then W else 1.
(** The result of the sampler with Hamming weight hw. *)
Definition sparse_result (s : stream) (r : Ring) (mont : bool) (hw level : nat) (pol : rows) (g : prng) (pol' : rows) (hw' : nat) (g' : prng) : Prop :=
  let h := Nat.min hw (rN r) in let n := ((h + 7) / 8)%nat in
  hw' = h /\ exists js ke e, drawn 4 s (pos g + n) (shrinking (rN r) h) 0 js ke /\
    sparse (picks (seq 0 (rN r)) (map Z.to_nat js)) (fun t => 1 - 2 * bit_of (block s (pos g) n) t) e /\
    signed_rows r level (factor mont) e pol pol' /\ g' = mkPrng (w64 (clock g + 1 + Z.of_nat ke)) (pos g + n + 4 * ke).

(** The probabilities 1/2, 1/3 and 0.3 as float64. *)
Definition half : float64 := f64_div (f64_of_Z 1) (f64_of_Z 2).
Definition third : float64 := f64_div (f64_of_Z 1) (f64_of_Z 3).
Definition three_tenths : float64 := f64_div (f64_of_Z 3) (f64_of_Z 10).
