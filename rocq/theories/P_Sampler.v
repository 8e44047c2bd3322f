(** C23, C24, C26 and C61: the generators, the uniform and the ternary samplers. *)
From Coq Require Import Znumtheory.
From Flocq Require Import IEEE754.BinarySingleNaN.
From Verif Require Import Word Ring RingOps RNSSpec Examples Float64 Codec Sampler SamplerSpec SamplerProofs SamplerTop SparseProofs SparseTop ProbaTop SamplerEx.

(** ** C23 *)

(** A read returns exactly the polynomials of the relation [read_result]: each coefficient is the first masked word of the
    rest of the stream that is below its modulus; the rows above the level are kept; whole blocks of N bytes are read. *)
Theorem C23_read : forall r, built_ring 2 r -> forall s level pol g pol' g', (level < length (rmods r))%nat -> has_rows (rN r) level pol ->
  ((exists fuel, Uniform_ReadLvl fuel s r level pol g = Ret (pol', g')) <-> read_result s r level pol g pol' g').
Proof. exact uniform_iff. Qed.
Print Assumptions C23_read.

Theorem C23_canonical : forall r, built_ring 2 r -> forall s level pol g pol' g' fuel, (level < length (rmods r))%nat -> has_rows (rN r) level pol ->
  Uniform_ReadLvl fuel s r level pol g = Ret (pol', g') ->
  words r level canon pol' /\ length pol' = length pol /\ forall i, (level < i)%nat -> nth i pol' [] = nth i pol [].
Proof. exact uniform_canonical. Qed.
Print Assumptions C23_canonical.

Theorem C23_never_panics : forall r, built_ring 2 r -> forall s level pol g fuel, (level < length (rmods r))%nat -> has_rows (rN r) level pol ->
  Uniform_ReadLvl fuel s r level pol g <> Panic.
Proof. exact uniform_no_panic. Qed.
Print Assumptions C23_never_panics.

Theorem C23_read_all : forall r pol, (0 < length pol <= length (rmods r))%nat -> forall fuel s g,
  Uniform_Read fuel s r pol g = Uniform_ReadLvl fuel s r (length pol - 1) pol g.
Proof. exact read_all. Qed.
Print Assumptions C23_read_all.

(** The mask of a modulus is 2^L - 1 with 2^(L-1) < q < 2^L, ... *)
Theorem C23_masks : forall c r, 2 <= c -> built_ring c r -> forall m, In m (rmods r) -> exists L, 1 <= L <= 63 /\ mmask m = 2 ^ L - 1 /\ 2 ^ (L - 1) < mq m < 2 ^ L.
Proof. exact built_masks. Qed.
Print Assumptions C23_masks.

(** ... so each masked value comes from the same number 2^(64-L) of words. *)
Theorem C23_equal_fibres : forall L v w, 0 <= L <= 64 -> 0 <= v < 2 ^ L -> u64 w ->
  (Z.land w (2 ^ L - 1) = v <-> exists t, 0 <= t < 2 ^ (64 - L) /\ w = v + t * 2 ^ L).
Proof. exact mask_fibres. Qed.
Print Assumptions C23_equal_fibres.

(** Every canonical polynomial can come out, after the same number of bytes. *)
Theorem C23_any_polynomial : forall r, built_ring 2 r -> forall s level pol g fuel pol' g' target, (level < length (rmods r))%nat -> has_rows (rN r) level pol ->
  Uniform_ReadLvl fuel s r level pol g = Ret (pol', g') ->
  words r level canon target -> length target = length pol -> skipn (level + 1) target = skipn (level + 1) pol ->
  exists s' fuel', Uniform_ReadLvl fuel' s' r level pol g = Ret (target, g') /\ forall j, (j < pos g \/ pos g' <= j)%nat -> s' j = s j.
Proof. exact uniform_relabel. Qed.
Print Assumptions C23_any_polynomial.

(** [RandUniform]. *)
Theorem C23_rand_uniform : forall s v mask g x g', u64 (clock g) ->
  ((exists fuel, RandUniform fuel s v mask g = Ret (x, g')) <->
   exists k, accepted 8 s (pos g) mask v 0 k x /\ g' = mkPrng (w64 (clock g + Z.of_nat (k + 1))) (pos g + 8 * (k + 1))).
Proof. exact rand_uniform_iff. Qed.
Print Assumptions C23_rand_uniform.

Example C23_case : built_ring 2 ring16 /\ has_rows (rN ring16) 1 zeros3 /\ returns (Uniform_ReadLvl 100 stream1 ring16 1 zeros3 newPrng) = true.
Proof. exact (conj ring16_built2 (conj zeros3_rows uniform_example)). Qed.

(** ** C24 *)

(** The sampler returns exactly the polynomials of the relation [sparse_result]: the positions are chosen one after the
    other among the free ones, the signs are the bits of the first block. *)
Theorem C24_sound : forall r, built_ring 2 r -> forall fuel s mont hw level pol g, (level < length (rmods r))%nat -> has_rows (rN r) level pol ->
  match sampleSparse fuel s r mont hw level pol g with Ret (pol', hw', g') => sparse_result s r mont hw level pol g pol' hw' g' | Fail => True | Panic => False end.
Proof. exact sample_sparse_sound. Qed.
Print Assumptions C24_sound.

Theorem C24_complete : forall r, built_ring 2 r -> forall s mont hw level pol g pol' hw' g', (level < length (rmods r))%nat -> has_rows (rN r) level pol ->
  sparse_result s r mont hw level pol g pol' hw' g' -> exists fuel, sampleSparse fuel s r mont hw level pol g = Ret (pol', hw', g').
Proof. exact sample_sparse_complete. Qed.
Print Assumptions C24_complete.

(** Exactly min(h, N) coefficients are 1 or -1, the others 0, and every row holds the residues of the same polynomial. *)
Theorem C24_weight : forall r s mont hw level pol g pol' hw' g', sparse_result s r mont hw level pol g pol' hw' g' ->
  exists ps e, NoDup ps /\ length ps = Nat.min hw (rN r) /\ (forall p, In p ps -> (p < rN r)%nat) /\
    (forall i, In i ps -> e i = 1 \/ e i = -1) /\ (forall i, ~ In i ps -> e i = 0) /\ signed_rows r level (factor mont) e pol pol'.
Proof. exact sparse_weight. Qed.
Print Assumptions C24_weight.

(** Every sequence of distinct positions comes from exactly one sequence of choices. *)
Theorem C24_positions : forall ps free, NoDup free -> NoDup ps -> incl ps free ->
  exists js, choices (length free) js /\ picks free js = ps /\ forall js', choices (length free) js' -> picks free js' = ps -> js' = js.
Proof. exact picks_bijection. Qed.
Print Assumptions C24_positions.

Example C24_case : coeffs_of (match sampleSparse 100 stream1 ring16 false 5 1 zeros3 newPrng with Ret (p, _, g) => Ret (p, g) | Fail => Fail | Panic => Panic end) 16 <> None.
Proof. exact sparse_example. Qed.

(** ** C26 *)

(** After any history the generator has read the total number of bytes, and its clock is the final clock. *)
Theorem C26_history : forall s os g, u64 (clock g) -> u64 (final_clock (clock g) os) ->
  run_ops s g os = mkPrng (final_clock (clock g) os) (pos g + total_bytes (clock g) os).
Proof. exact run_ops_spec. Qed.
Print Assumptions C26_history.

(** The next block depends only on how many bytes have been read. *)
Theorem C26_position : forall s os1 os2 n, u64 (final_clock 0 os1) -> u64 (final_clock 0 os2) -> total_bytes 0 os1 = total_bytes 0 os2 ->
  fst (Clock s n (run_ops s newPrng os1)) = fst (Clock s n (run_ops s newPrng os2)) /\
  fst (Clock s n (run_ops s newPrng os1)) = block s (total_bytes 0 os1) n.
Proof. exact history_blocks. Qed.
Print Assumptions C26_position.

(** If all reads have the same size, the clock determines the next block. *)
Theorem C26_seek : forall s n os1 os2, u64 (final_clock 0 os1) -> Forall (fun o => op_size o = n) os1 -> Forall (fun o => op_size o = n) os2 ->
  final_clock 0 os1 = final_clock 0 os2 ->
  Clock s n (run_ops s newPrng os1) = Clock s n (run_ops s newPrng os2) /\
  fst (Clock s n (run_ops s newPrng os1)) = block s (n * Z.to_nat (final_clock 0 os1)) n /\
  clock (run_ops s newPrng os1) = final_clock 0 os1.
Proof. exact same_clock. Qed.
Print Assumptions C26_seek.

Theorem C26_set_clock : forall s sum n g, u64 (clock g) -> u64 n ->
  if n <? clock g then SetClock s sum n g = Fail
  else exists sum' g', SetClock s sum n g = Ret (sum', g') /\ clock g' = n /\ pos g' = (pos g + length sum * Z.to_nat (n - clock g))%nat /\
    (n = clock g -> sum' = sum) /\ (clock g < n -> sum' = block s (pos g + length sum * (Z.to_nat (n - clock g) - 1)) (length sum)).
Proof. exact set_clock_spec. Qed.
Print Assumptions C26_set_clock.

Theorem C26_backwards : forall s sum n g, n < clock g -> SetClock s sum n g = Fail /\ run_op s g (OpSetClock (length sum) n) = g.
Proof. exact set_clock_rejects. Qed.
Print Assumptions C26_backwards.

(** With reads of different sizes the clock does not determine the next block. *)
Theorem C26_clock_refuted : exists s os1 os2 n, final_clock 0 os1 = final_clock 0 os2 /\
  fst (Clock s n (run_ops s newPrng os1)) <> fst (Clock s n (run_ops s newPrng os2)).
Proof. exact clock_not_enough. Qed.
Print Assumptions C26_clock_refuted.

Example C26_case : let os := [OpClock 3; OpSetClock 3 5; OpSetClock 3 2; OpClock 3] in
  Forall (fun o => op_size o = 3%nat) os /\ final_clock 0 os = 6 /\ total_bytes 0 os = 18%nat.
Proof. repeat constructor. Qed.

(** ** C61 *)

(** Whatever the probability, the result is the same polynomial with coefficients -1, 0 and 1 in every row. *)
Theorem C61_ternary : forall r, built_ring 2 r -> forall fuel s mont p level pol g pol' g', (level < length (rmods r))%nat -> has_rows (rN r) level pol ->
  sampleProba fuel s r mont p level pol g = Ret (pol', g') ->
  exists e, (forall i, -1 <= e i <= 1) /\ signed_rows r level (factor mont) e pol pol'.
Proof. exact proba_ternary. Qed.
Print Assumptions C61_ternary.

(** With probability 1/2 coefficient i is nonzero if bit i of the first block is set, and negative if bit i of the second is. *)
Theorem C61_half : forall r, built_ring 2 r -> forall fuel s mont level pol g, (level < length (rmods r))%nat -> has_rows (rN r) level pol ->
  exists pol', sampleProba fuel s r mont half level pol g = Ret (pol', mkPrng (wadd (wadd (clock g) 1) 1) (pos g + rN r / 8 + rN r / 8)) /\
    signed_rows r level (factor mont)
      (fun i => bit_of (block s (pos g) (rN r / 8)) i * (1 - 2 * bit_of (block s (pos g + rN r / 8) (rN r / 8)) i)) pol pol'.
Proof. exact half_sound. Qed.
Print Assumptions C61_half.

(** With probability 1/3 the sampler always returns, ... *)
Theorem C61_third_returns : forall r, built_ring 2 r -> forall s mont level pol g fuel, (105 <= fuel)%nat -> (level < length (rmods r))%nat -> has_rows (rN r) level pol ->
  exists x, sampleProba fuel s r mont third level pol g = Ret x.
Proof. exact third_total. Qed.
Print Assumptions C61_third_returns.

(** ... but its coefficients are not independent: if the first one is -1, the second one is never 0. *)
Theorem C61_independence_refuted : forall r, built_ring 2 r -> forall fuel s mont level pol g pol' g', (level < length (rmods r))%nat -> has_rows (rN r) level pol ->
  sampleProba fuel s r mont third level pol g = Ret (pol', g') ->
  exists e, (forall i, -1 <= e i <= 1) /\ signed_rows r level (factor mont) e pol pol' /\ (e 0%nat = -1 -> e 1%nat <> 0).
Proof. exact third_correlated. Qed.
Print Assumptions C61_independence_refuted.

Example C61_first_minus_one : coeffs_of (sampleProba 200 stream2 ring16 false third 1 zeros3 newPrng) 2 = Some [96; 1] \/
  coeffs_of (sampleProba 200 stream2 ring16 false third 1 zeros3 newPrng) 2 = Some [96; 96].
Proof. exact third_minus. Qed.
Example C61_second_zero : coeffs_of (sampleProba 200 stream3 ring16 false third 1 zeros3 newPrng) 2 = Some [0; 0].
Proof. exact third_zero. Qed.

(** With probability 1 the sampler never returns. *)
Theorem C61_one_refuted : forall r, built_ring 2 r -> forall fuel s mont level pol g x, (level < length (rmods r))%nat -> has_rows (rN r) level pol ->
  sampleProba fuel s r mont (f64_of_Z 1) level pol g <> Ret x.
Proof. exact one_never. Qed.
Print Assumptions C61_one_refuted.

(** With probability 0.3 some streams make it panic. *)
Theorem C61_panic_refuted : exists s r pol, built_ring 2 r /\ has_rows (rN r) 1 pol /\ panics (sampleProba 1000 s r false three_tenths 1 pol newPrng) = true.
Proof. exact (ex_intro _ stream4 (ex_intro _ ring16 (ex_intro _ zeros3 (conj ring16_built2 (conj zeros3_rows three_tenths_panics))))). Qed.
Print Assumptions C61_panic_refuted.
