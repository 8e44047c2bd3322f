(** Concrete streams for the Gaussian sampler. *)
From Flocq Require Import IEEE754.BinarySingleNaN.
From Verif Require Import Word Ring RingOps RNSSpec Examples Float64 Codec Sampler SamplerSpec SamplerEx Gauss GaussSpec.

(** A stream of words with the given upper halves. *)
Definition words_stream (l : list Z) : stream := fun j =>
  if Nat.ltb (j mod 8) 4 then (nth (j / 8) l 0 / 256 ^ Z.of_nat (3 - j mod 8)) mod 256 else 0.
Lemma words_bytes l : byte_stream (words_stream l).
Proof. intros j. unfold words_stream. destruct (Nat.ltb _ _); [apply Z.mod_pos_bound|]; lia. Qed.
Definition zero_stream : stream := fun _ => 0.
Lemma zero_bytes : byte_stream zero_stream.
Proof. intros j. unfold zero_stream. lia. Qed.
(** sigma = 3.2, bound 19; no value of log or exp is needed for these streams. *)
Definition sigma32 : float64 := f64_div (f64_of_Z 16) (f64_of_Z 5).
Definition no_fun (x : float64) : float64 := x.
Definition no_word (x : float64) : Z := 0.
Lemma no_word_valued : word_valued no_word.
Proof. intros x. unfold no_word, u64, W. lia. Qed.
Lemma small_bound : forall k, (k <= 1)%nat -> 19 < mq (rmod ring16 k).
Proof. intros [|[|k]] Hk; [vm_compute; reflexivity|vm_compute; reflexivity|lia]. Qed.
Definition some_words : list Z := [1000000000; 3000000000; 700000001; 3500000003; 1500000064; 5; 2147483653].
Definition rows_of {A} (x : res (rows * A)) (k n : nat) : option (list Z) := match x with Ret (p, _) => Some (firstn n (nth k p [])) | _ => None end.
Lemma gauss_example :
  map (fun k => rows_of (Gauss_ReadLvl 9 no_fun no_fun no_word (words_stream some_words) ring16 sigma32 19 1 zeros3 (newGauss newPrng)) k 7) [0; 1; 2]%nat
    = [Some [91; 5; 94; 97; 0; 97; 97]; Some [187; 5; 190; 193; 0; 193; 193]; Some [0; 0; 0; 0; 0; 0; 0]].
Proof. vm_compute. reflexivity. Qed.
Lemma gauss_add_example :
  map (fun k => rows_of (Gauss_ReadAndAddLvl 9 no_fun no_fun no_word (words_stream some_words) ring16 sigma32 19 1 zeros3 (newGauss newPrng)) k 7) [0; 1; 2]%nat
    = [Some [91; 5; 94; 0; 0; 0; 0]; Some [187; 5; 190; 0; 0; 0; 0]; Some [0; 0; 0; 0; 0; 0; 0]].
Proof. vm_compute. reflexivity. Qed.
Lemma zeros3_canon : words ring16 1 canon zeros3.
Proof. split; [vm_compute; lia|]. intros k Hk. destruct k as [|[|k]]; [| |lia]; (split; [reflexivity|]); intros i Hi; (replace (coeff zeros3 _ i) with 0; [vm_compute; split; [discriminate|reflexivity]|]); unfold coeff; cbn [zeros3 repeat nth]; do 16 (destruct i as [|i]; [reflexivity|]); destruct i; reflexivity. Qed.
Lemma zero_stays_q : exists r log exp other s sigma bound level pol fuel, built_ring 2 r /\ byte_stream s /\ word_valued other /\ 0 <= bound /\ has_rows (rN r) level pol /\ (forall k, (k <= level)%nat -> bound < mq (rmod r k)) /\
  match Gauss_ReadLvl fuel log exp other s r sigma bound level pol (newGauss newPrng) with
  | Ret (pol', _) => (1 < rN r)%nat /\ forall i, (i < rN r)%nat -> nth i (nth 0 pol' []) 0 = mq (rmod r 0)
  | _ => False end.
Proof.
  exists ring16, no_fun, no_fun, no_word, zero_stream, sigma32, 19, 1%nat, zeros3, 3%nat. split; [exact ring16_built2|]. split; [exact zero_bytes|]. split; [exact no_word_valued|]. split; [lia|]. split; [exact zeros3_rows|]. split; [exact small_bound|].
  assert (E : rows_of (Gauss_ReadLvl 3 no_fun no_fun no_word zero_stream ring16 sigma32 19 1 zeros3 (newGauss newPrng)) 0 16 = Some (repeat 97 16)) by (vm_compute; reflexivity).
  destruct (Gauss_ReadLvl _ _ _ _ _ _ _ _ _ _ _) as [[pol' st']| |]; [|discriminate|discriminate]. cbn [rows_of] in E. apply (f_equal (fun o => match o with Some x => x | None => [] end)) in E. change (rN ring16) with 16%nat. change (mq (rmod ring16 0)) with 97. split; [lia|]. intros i Hi.
  transitivity (nth i (firstn 16 (nth 0 pol' [])) 0); [|rewrite E; do 16 (destruct i as [|i]; [reflexivity|]); lia].
  clear - Hi. revert i Hi. generalize (nth 0 pol' []) as l. generalize 16%nat as n. induction n as [|n IH]; intros l i Hi; [lia|]. destruct l as [|x l]; [destruct i; reflexivity|]. destruct i as [|i]; [reflexivity|]. cbn [firstn nth]. apply IH. lia.
Qed.
Lemma large_bound_wrong : exists r log exp other s sigma bound level pol fuel, built_ring 2 r /\ byte_stream s /\ word_valued other /\ 0 <= bound < W /\ has_rows (rN r) level pol /\
  match Gauss_ReadLvl fuel log exp other s r sigma bound level pol (newGauss newPrng) with
  | Ret (pol', _) => forall e, - bound <= e <= bound -> ~ (nth 0 (nth 0 pol' []) 0 mod mq (rmod r 0) = e mod mq (rmod r 0) /\ nth 0 (nth 1 pol' []) 0 mod mq (rmod r 1) = e mod mq (rmod r 1))
  | _ => False end.
Proof.
  exists ring16, no_fun, no_fun, no_word, (words_stream [433762304]), (f64_of_Z 200), 1000, 1%nat, zeros3, 3%nat. split; [exact ring16_built2|]. split; [apply words_bytes|]. split; [exact no_word_valued|]. split; [unfold W; lia|]. split; [exact zeros3_rows|].
  assert (E : map (fun k => rows_of (Gauss_ReadLvl 3 no_fun no_fun no_word (words_stream [433762304]) ring16 (f64_of_Z 200) 1000 1 zeros3 (newGauss newPrng)) k 1) [0; 1]%nat = [Some [18446744073709551563]; Some [43]]) by (vm_compute; reflexivity).
  destruct (Gauss_ReadLvl _ _ _ _ _ _ _ _ _ _ _) as [[pol' st']| |]; [|discriminate|discriminate].
  cbn [map rows_of] in E. injection E as E0 E1. assert (N0 : nth 0 (nth 0 pol' []) 0 = 18446744073709551563) by (destruct (nth 0 pol' []); [discriminate|]; cbn [firstn] in E0; injection E0 as ->; reflexivity).
  assert (N1 : nth 0 (nth 1 pol' []) 0 = 43) by (destruct (nth 1 pol' []); [discriminate|]; cbn [firstn] in E1; injection E1 as ->; reflexivity).
  rewrite N0, N1. change (mq (rmod ring16 0)) with 97. change (mq (rmod ring16 1)) with 193. intros e He [A B]. change (18446744073709551563 mod 97) with 8 in A. change (43 mod 193) with 43 in B. clear - He A B. lia.
Qed.
