(** C25: the Gaussian sampler.  [log] and [exp] stand for Go's functions and [other] for the conversion of a float64 outside
    the range of uint64; the theorems hold for any such functions and any stream of bytes. *)
From Flocq Require Import IEEE754.BinarySingleNaN.
From Verif Require Import Word Ring RingOps RNSSpec Examples Float64 Codec Sampler SamplerSpec Gauss GaussSpec GaussProofs GaussFlip SamplerEx GaussEx.

(** A read never panics.  When it returns, the coefficients are the residues of signed integers of absolute value at most the
    bound, the same in each row up to the level, except that a zero with the sign bit of a negative number is stored as q; the
    rows above the level are kept and the sampler can be used again. *)
Theorem C25_read : forall r, built_ring 2 r -> forall log exp other s sigma bound level pol st fuel, byte_stream s -> word_valued other -> 0 <= bound ->
  gauss_state st -> (level < length (rmods r))%nat -> has_rows (rN r) level pol -> (forall k, (k <= level)%nat -> bound < mq (rmod r k)) ->
  match Gauss_ReadLvl fuel log exp other s r sigma bound level pol st with
  | Ret (pol', st') => gauss_state st' /\ exists e negative, (forall i, - bound <= e i <= bound) /\ (forall i, if negative i : bool then e i <= 0 else 0 <= e i) /\
      mapped_rows r level (fun q i _ => if negative i && (e i =? 0) then q else e i mod q) pol pol'
  | Fail => True
  | Panic => False
  end.
Proof. exact gauss_read. Qed.
Print Assumptions C25_read.

(** Adding a sample to a polynomial with canonical rows gives canonical rows, also for the zero sample. *)
Theorem C25_read_and_add : forall r, built_ring 2 r -> forall log exp other s sigma bound level pol st fuel, byte_stream s -> word_valued other -> 0 <= bound ->
  gauss_state st -> (level < length (rmods r))%nat -> words r level canon pol -> (forall k, (k <= level)%nat -> bound < mq (rmod r k)) ->
  match Gauss_ReadAndAddLvl fuel log exp other s r sigma bound level pol st with
  | Ret (pol', st') => gauss_state st' /\ exists e, (forall i, - bound <= e i <= bound) /\ mapped_rows r level (fun q i old => (old + e i) mod q) pol pol'
  | Fail => True
  | Panic => False
  end.
Proof. exact gauss_add. Qed.
Print Assumptions C25_read_and_add.

Theorem C25_new_state : forall g, gauss_state (newGauss g).
Proof. exact new_state. Qed.
Print Assumptions C25_new_state.

(** The signs are unbiased: the stream with the top bit of every 8-byte word flipped gives the opposite polynomial; the
    two stored values of each coefficient sum to q. *)
Theorem C25_symmetric : forall r, built_ring 2 r -> forall log exp other s sigma bound level pol st fuel, byte_stream s -> word_valued other -> 0 <= bound ->
  gauss_state st -> (pos (ggen st) mod 8 = 0)%nat -> (level < length (rmods r))%nat -> has_rows (rN r) level pol -> (forall k, (k <= level)%nat -> bound < mq (rmod r k)) ->
  match Gauss_ReadLvl fuel log exp other s r sigma bound level pol st, Gauss_ReadLvl fuel log exp other (flipped s) r sigma bound level pol st with
  | Ret (p, _), Ret (p', _) => forall k i, (k <= level)%nat -> (i < rN r)%nat -> nth i (nth k p []) 0 + nth i (nth k p' []) 0 = mq (rmod r k)
  | Fail, Fail => True
  | _, _ => False
  end.
Proof. exact gauss_symmetric. Qed.
Print Assumptions C25_symmetric.

(** The rows of a sample need not be reduced: for the stream of zeros every coefficient is stored as q. *)
Theorem C25_canonical_refuted : exists r log exp other s sigma bound level pol fuel, built_ring 2 r /\ byte_stream s /\ word_valued other /\ 0 <= bound /\
  has_rows (rN r) level pol /\ (forall k, (k <= level)%nat -> bound < mq (rmod r k)) /\
  match Gauss_ReadLvl fuel log exp other s r sigma bound level pol (newGauss newPrng) with
  | Ret (pol', _) => (1 < rN r)%nat /\ forall i, (i < rN r)%nat -> nth i (nth 0 pol' []) 0 = mq (rmod r 0)
  | _ => False
  end.
Proof. exact zero_stays_q. Qed.
Print Assumptions C25_canonical_refuted.

(** The bound has to be below the moduli: else the rows may hold no integer within the bound. *)
Theorem C25_any_bound_refuted : exists r log exp other s sigma bound level pol fuel, built_ring 2 r /\ byte_stream s /\ word_valued other /\ 0 <= bound < W /\
  has_rows (rN r) level pol /\
  match Gauss_ReadLvl fuel log exp other s r sigma bound level pol (newGauss newPrng) with
  | Ret (pol', _) => forall e, - bound <= e <= bound ->
      ~ (nth 0 (nth 0 pol' []) 0 mod mq (rmod r 0) = e mod mq (rmod r 0) /\ nth 0 (nth 1 pol' []) 0 mod mq (rmod r 1) = e mod mq (rmod r 1))
  | _ => False
  end.
Proof. exact large_bound_wrong. Qed.
Print Assumptions C25_any_bound_refuted.

(** N = 16, moduli 97, 193, 257, level 1, sigma = 3.2, bound 19: samples -6, 5, -3, -0, 0, -0, -0. *)
Example C25_hypotheses : built_ring 2 ring16 /\ byte_stream (words_stream some_words) /\ word_valued no_word /\ gauss_state (newGauss newPrng) /\
  (1 < length (rmods ring16))%nat /\ has_rows (rN ring16) 1 zeros3 /\ words ring16 1 canon zeros3 /\ (forall k, (k <= 1)%nat -> 19 < mq (rmod ring16 k)) /\ (pos (ggen (newGauss newPrng)) mod 8 = 0)%nat.
Proof. exact (conj ring16_built2 (conj (words_bytes some_words) (conj no_word_valued (conj (new_state newPrng) (conj (le_S _ _ (le_n 2)) (conj zeros3_rows (conj zeros3_canon (conj small_bound eq_refl)))))))). Qed.
Example C25_values : map (fun k => rows_of (Gauss_ReadLvl 9 no_fun no_fun no_word (words_stream some_words) ring16 sigma32 19 1 zeros3 (newGauss newPrng)) k 7) [0; 1; 2]%nat
    = [Some [91; 5; 94; 97; 0; 97; 97]; Some [187; 5; 190; 193; 0; 193; 193]; Some [0; 0; 0; 0; 0; 0; 0]].
Proof. exact gauss_example. Qed.
Example C25_added_values : map (fun k => rows_of (Gauss_ReadAndAddLvl 9 no_fun no_fun no_word (words_stream some_words) ring16 sigma32 19 1 zeros3 (newGauss newPrng)) k 7) [0; 1; 2]%nat
    = [Some [91; 5; 94; 0; 0; 0; 0]; Some [187; 5; 190; 0; 0; 0; 0]; Some [0; 0; 0; 0; 0; 0; 0]].
Proof. exact gauss_add_example. Qed.
