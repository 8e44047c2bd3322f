(** Model of /repo/ckks/ckks_vector_ops.go, of the bit reversals of /repo/ckks/utils.go and of the tables of
    /repo/ckks/encoder.go.  The numbers are those of any type [T] with the operations the code uses: complex128
    (Encoder.v), exact complex numbers, or the arbitrary-precision ones of [EncoderBigComplex], which runs the same
    transforms. *)
From Coq Require Import ZArith List Lia Bool.
Import ListNotations.
From Verif Require Import NTT.
Local Open Scope nat_scope.

(** ckks/encoder.go:130-140 [newEncoder]: the powers of 5 modulo m in the first m/4 entries (the others stay 0). *)
Fixpoint five_pows (cnt : nat) (x m : Z) : list Z :=
  match cnt with O => [] | S c => x :: five_pows c (Z.land (x * 5) (m - 1)) m end.
Definition rotGroup (m : nat) : list Z :=
  five_pows (Nat.shiftr m 2) 1 (Z.of_nat m) ++ repeat 0%Z (Nat.shiftr m 1 - Nat.shiftr m 2).

(** ckks/utils.go:276-284, 297-305: the inner loop [for j >= bit { j -= bit; bit >>= 1 }; j += bit].  It ends before
    bit is 0 when j < N-1; [fuel] counts its rounds. *)
Fixpoint rev_next (fuel j bit : nat) : nat :=
  match fuel with
  | O => j + bit
  | S f => if Nat.leb bit j then rev_next f (j - bit) (Nat.div2 bit) else j + bit
  end.

Section Transforms.
  Context {T : Type}.
  Variables (add sub mul : T -> T -> T) (zero : T).

  (** slice[i], slice[j] = slice[j], slice[i] *)
  Definition set_nth (i : nat) (x : T) (l : list T) : list T := firstn i l ++ x :: skipn (S i) l.
  Definition swap (i j : nat) (l : list T) : list T := set_nth j (nth i l zero) (set_nth i (nth j l zero) l).

  (** ckks/utils.go:269-288 [SliceBitReverseInPlaceComplex128], 291-310 [SliceBitReverseInPlaceRingComplex]; the
      rounds i = N - cnt, ..., N - 1. *)
  Fixpoint bit_reverse_loop (cnt N j : nat) (l : list T) : list T :=
    match cnt with
    | O => l
    | S c =>
        let i := N - cnt in
        let j := rev_next N j (Nat.div2 N) in
        bit_reverse_loop c N j (if Nat.ltb i j then swap i j l else l)
    end.
  Definition SliceBitReverseInPlace (l : list T) (N : nat) : list T := bit_reverse_loop (N - 1) N 0 l.

  (** The loop over blocks of [len] values; the values after the last block are kept. *)
  Fixpoint on_blocks (cnt len : nat) (f : list T -> list T) (xs : list T) : list T :=
    match cnt with O => xs | S c => f (firstn len xs) ++ on_blocks c len f (skipn len xs) end.

  (** The root of step j of a round: roots[(rotGroup[j]&mask)<<logGap], or roots[(lenq-(rotGroup[j]&mask))<<logGap]
      for the inverse. *)
  Definition root_at (inverse : bool) (logM loglen : nat) (rot : list Z) (roots : list T) (j : nat) : T :=
    let lenq := (2 ^ Z.of_nat (loglen + 2))%Z in
    let r := Z.land (nth j rot 0%Z) (lenq - 1) in
    nth (Z.to_nat (Z.shiftl (if inverse then lenq - r else r) (Z.of_nat (logM - 2 - loglen)))) roots zero.

  (** One block of a round of length 2*lenh. *)
  Definition fft_block (lenh : nat) (w : nat -> T) (xs : list T) : list T :=
    let lo := firstn lenh xs in
    let hi := map2 (fun x j => mul x (w j)) (skipn lenh xs) (seq 0 lenh) in
    map2 add lo hi ++ map2 sub lo hi.
  Definition ifft_block (lenh : nat) (w : nat -> T) (xs : list T) : list T :=
    let lo := firstn lenh xs in
    let hi := skipn lenh xs in
    map2 add lo hi ++ map2 (fun x j => mul x (w j)) (map2 sub lo hi) (seq 0 lenh).

  (** ckks/ckks_vector_ops.go:49-66 [SpecialFFTVec], ckks/encoder.go:744-768 [FFT]: rounds 1..logN. *)
  Definition fft_round (ext logM loglen : nat) (rot : list Z) (roots xs : list T) : list T :=
    on_blocks (Nat.div ext (2 ^ loglen)) (2 ^ loglen) (fft_block (2 ^ (loglen - 1)) (root_at false logM loglen rot roots)) xs.
  Definition ifft_round (ext logM loglen : nat) (rot : list Z) (roots xs : list T) : list T :=
    on_blocks (Nat.div ext (2 ^ loglen)) (2 ^ loglen) (ifft_block (2 ^ (loglen - 1)) (root_at true logM loglen rot roots)) xs.
  Definition SpecialFFTVec (values : list T) (N M : nat) (rot : list Z) (roots : list T) : list T :=
    fold_left (fun xs loglen => fft_round N (Nat.log2 M) loglen rot roots xs) (seq 1 (Nat.log2 N)) (SliceBitReverseInPlace values N).

  (** ckks/ckks_vector_ops.go:25-46 [SpecialiFFTVec]: rounds logN..1, division of the first N values by N ([dv]), bit
      reversal.  ckks/encoder.go:771-800 [InvFFT] divides all the values (and has an empty round of length 1). *)
  Definition SpecialiFFTVec (dv : T -> T) (values : list T) (N M : nat) (rot : list Z) (roots : list T) : list T :=
    let xs := fold_left (fun xs loglen => ifft_round N (Nat.log2 M) loglen rot roots xs) (rev (seq 1 (Nat.log2 N))) values in
    SliceBitReverseInPlace (map dv (firstn N xs) ++ skipn N xs) N.
  Definition InvFFT (dv : T -> T) (values : list T) (N M : nat) (rot : list Z) (roots : list T) : list T :=
    let xs := fold_left (fun xs loglen => ifft_round N (Nat.log2 M) loglen rot roots xs) (rev (seq 1 (Nat.log2 N))) values in
    SliceBitReverseInPlace (map dv xs) N.

  (** ckks/ckks_vector_ops.go:69-229 [SpecialFFTUL8Vec], 232-347 [SpecialiFFTUL8Vec].  The rounds with lenh <= 8 step by 16
      values, through pointers to arrays of 16: with N = 8 they reach 16 values.  [None] stands for an access beyond the
      end of the slice, which Go does not check behind unsafe.Pointer.  The division (350-365) goes over all the values, by
      8 at a time. *)
  Definition ul8_extent (N loglen : nat) : nat := if Nat.leb loglen 4 then (N + 15) / 16 * 16 else N.
  Definition SpecialFFTUL8Vec (values : list T) (N M : nat) (rot : list Z) (roots : list T) : option (list T) :=
    if Nat.ltb (length values) ((N + 15) / 16 * 16) then None
    else Some (fold_left (fun xs loglen => fft_round (ul8_extent N loglen) (Nat.log2 M) loglen rot roots xs) (seq 1 (Nat.log2 N))
                 (SliceBitReverseInPlace values N)).
  Definition SpecialiFFTUL8Vec (dv : T -> T) (values : list T) (N M : nat) (rot : list Z) (roots : list T) : option (list T) :=
    if Nat.ltb (length values) ((N + 15) / 16 * 16) || negb (Nat.eqb (length values mod 8) 0) then None
    else Some (SliceBitReverseInPlace (map dv (fold_left (fun xs loglen => ifft_round (ul8_extent N loglen) (Nat.log2 M) loglen rot roots xs)
                 (rev (seq 1 (Nat.log2 N))) values)) N).
End Transforms.
