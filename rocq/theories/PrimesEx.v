(** Concrete cases for the prime generators. *)
From Coq Require Import Znumtheory Sorted Zpow_facts.
From Flocq Require Import IEEE754.BinarySingleNaN.
From Verif Require Import Word Arith Ring RingProofs Pocklington Float64 Codec Params ParamsEx Primes PrimesSpec PrimesProofs PrimesTop ModuliProofs.

(** 2^64 - 2^32 + 1 is prime. *)
Definition gold : Z := 18446744069414584321.
Lemma gold_prime : prime gold.
Proof.
  apply prime_by_divisors; [reflexivity|]. intros r Hr Dr. assert (D : (2 ^ Z.of_nat 32 | r - 1)).
  { apply (cert_part gold 2 31 7 r); [discriminate|exact prime_2|exact Hr|exact Dr|exists 4294967295; reflexivity| |].
    - unfold eqm. rewrite <- Zpow_mod_correct by discriminate. vm_compute. reflexivity.
    - rewrite Z.gcd_comm. rewrite <- Z.gcd_mod by discriminate. rewrite Zminus_mod. rewrite <- (Zpow_mod_correct 7 ((gold - 1) / 2) gold) by discriminate. vm_compute. reflexivity. }
  change (2 ^ Z.of_nat 32) with 4294967296 in D. pose proof (prime_ge_2 r Hr). apply Z.divide_pos_le in D; [|lia]. unfold gold. nia.
Qed.
Definition small : Z := 18 * 2 ^ 32 + 1.
Lemma composite n d : 1 < d < n -> n mod d = 0 -> ~ prime n.
Proof. intros H M P. apply Z.mod_divide in M; [|lia]. apply (prime_divisors _ P) in M. lia. Qed.
(** A divisor of each smaller member of the class. *)
Definition divisors : list Z := [641; 3; 19; 5; 3; 13613; 113; 3; 5; 13; 3; 7; 60539; 3; 863; 17; 3].
Lemma smaller_composite : forall k, (k < 17)%nat -> ~ prime ((Z.of_nat k + 1) * 2 ^ 32 + 1).
Proof.
  assert (F : forallb (fun k => let n := (Z.of_nat k + 1) * 2 ^ 32 + 1 in let d := nth k divisors 0 in (1 <? d) && (d <? n) && (n mod d =? 0)) (seq 0 17) = true) by (vm_compute; reflexivity).
  intros k Hk. rewrite forallb_forall in F. specialize (F k). rewrite in_seq in F. specialize (F ltac:(lia)). cbv zeta in F. rewrite !andb_true_iff, !Z.ltb_lt, Z.eqb_eq in F. destruct F as ((F1 & F2) & F3). apply (composite _ (nth k divisors 0)); [lia|exact F3].
Qed.
Lemma previous_wraps : exists q R p fuel, 0 <= q < 2 ^ 61 /\ q mod R = 1 /\ (forall c, 0 <= c < q -> (R | q - c) -> ~ prime c) /\ PreviousNTTPrime fuel q R = Some (Ret p) /\ q < p /\ 2 ^ 63 < p.
Proof.
  exists small, (2 ^ 32), gold, 19%nat. split; [vm_compute; split; [discriminate|reflexivity]|]. split; [reflexivity|].
  assert (CL : forall c, 0 <= c < small -> (2 ^ 32 | small - c) -> ~ prime c).
  { intros c Hc [k Hk]. unfold small in *. assert (HK : 1 <= k <= 18) by (change (2 ^ 32) with 4294967296 in *; lia). assert (E : c = (18 - k) * 2 ^ 32 + 1) by lia. destruct (Z.eq_dec k 18) as [->|NE]; [rewrite E; intros P; apply prime_ge_2 in P; lia|].
    rewrite E. replace (18 - k) with (Z.of_nat (Z.to_nat (17 - k)) + 1) by lia. apply smaller_composite. lia. }
  split; [exact CL|]. split; [|split; reflexivity]. assert (EG : gold = w64 (small - Z.of_nat 19 * 2 ^ 32)) by reflexivity. rewrite EG. apply prev_run; [split; reflexivity|vm_compute; split; [discriminate|reflexivity]|vm_compute; discriminate|lia| |rewrite <- EG; exact gold_prime].
  intros i Hi. assert (BI : w64 (small - Z.of_nat i * 2 ^ 32) = small - Z.of_nat i * 2 ^ 32) by (unfold w64, small; apply Z.mod_small; change (2 ^ 32) with 4294967296; unfold W; lia). rewrite BI. apply CL; [unfold small; change (2 ^ 32) with 4294967296; lia|exists (Z.of_nat i); unfold small; lia].
Qed.
Lemma centre_skipped : exists logQ R n fuel l, 1 <= logQ <= 60 /\ (R | 2 ^ logQ) /\ GenerateNTTPrimes fuel logQ R n = Some (Ret l) /\ prime (2 ^ logQ + 1) /\ ~ In (2 ^ logQ + 1) l.
Proof.
  exists 8, 32, 3, 20%nat, [193; 353; 97]. split; [lia|]. split; [exists 8; reflexivity|]. split; [vm_compute; reflexivity|]. split; [apply IsPrime_spec; vm_compute; reflexivity|]. intros [H|[H|[H|[]]]]; discriminate H.
Qed.
Lemma size_missed : exists logQ R n fuel l p, 1 <= logQ <= 60 /\ (R | 2 ^ logQ) /\ GenerateNTTPrimes fuel logQ R n = Some (Ret l) /\ In p l /\ Len64 p <> logQ /\ Len64 p <> logQ + 1.
Proof. exists 5, 32, 2, 20%nat, [97; 193], 193. split; [lia|]. split; [exists 1; reflexivity|]. split; [vm_compute; reflexivity|]. split; [right; left; reflexivity|]. split; vm_compute; discriminate. Qed.
(** GenModuli. *)
Lemma collision : exists fuel q p, GenModuli fuel 4 [5; 7] [6] = Some (Ret (q, p)) /\ valid_sizes 4 [5; 7] [6] /\ (forall s, In s [5; 7; 6] -> 4 + 1 <= s) /\ nth 0 q 0 = nth 1 q 0 /\ nth 0 q 0 = nth 0 p 0.
Proof. exists 20%nat, [97; 97], [97]. split; [vm_compute; reflexivity|]. split; [apply valid_spec; split; reflexivity|]. split; [intros s [<-|[<-|[<-|[]]]]; lia|]. split; reflexivity. Qed.
Lemma unfriendly : exists fuel q, GenModuli fuel 4 [4] [] = Some (Ret (q, [])) /\ valid_sizes 4 [4] [] /\ nth 0 q 0 mod 2 ^ (4 + 1) <> 1.
Proof. exists 20%nat, [113]. split; [vm_compute; reflexivity|]. split; [apply valid_spec; split; reflexivity|]. vm_compute. discriminate. Qed.
Definition shared_sizes : Literal := mkLit 4 None None (Some [5]) (Some [6]) (f64_of_Z 3) 8 Standard.
Lemma sizes_share : exists fuel rfuel P, ParametersFromSizes fuel rfuel shared_sizes = Some (Ret (P, None)) /\ qi P = [97] /\ pi P = [97].
Proof.
  exists 20%nat, 1000%nat, (made 4 [97] [97] 8 (f64_of_Z 3) Standard). assert (G : GenModuli 20 4 [5] [6] = Some (Ret ([97], [97]))) by (vm_compute; reflexivity). unfold ParametersFromSizes. cbn [shared_sizes lQ lLogQ lP lLogP lH lLogN lType lSigma]. change ((8 =? 0) && (4 - 1 <? 0)) with false. change (8 =? 0) with false. change (Standard =? Standard) with true. cbv iota. rewrite G.
  assert (SF : f64_same (f64_of_Z 3) (f64_of_Z 0) = false) by (vm_compute; reflexivity). rewrite SF. rewrite (made_ok 4 [97] [97] 8 (f64_of_Z 3) Standard) by (vm_compute; reflexivity). split; [reflexivity|]. split; vm_compute; reflexivity.
Qed.
Lemma moduli_example : exists fuel, GenModuli fuel 4 [8; 9; 8] [10] = Some (Ret (([193; 577; 353], [929]))).
Proof. exists 60%nat. vm_compute. reflexivity. Qed.
