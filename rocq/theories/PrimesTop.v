(** Top-level proofs about the prime generators. *)
From Coq Require Import Znumtheory Sorted.
From Verif Require Import Word Arith Ring RingProofs Codec Params Primes PrimesSpec PrimesProofs.

(** ** GenerateNTTPrimesQ *)
Lemma Q_more R n : forall fuel next prev b1 b2 ps v d, primesQ_loop fuel R n next prev b1 b2 ps = Some v -> primesQ_loop (fuel + d) R n next prev b1 b2 ps = Some v.
Proof.
  induction fuel as [|fuel IH]; intros next prev b1 b2 ps v d H; [discriminate|]. cbn [primesQ_loop Nat.add] in *. destruct (negb (b1 || b2)); [exact H|]. destruct (_ && (_ =? n)); [exact H|]. destruct (_ && (_ =? n)); [exact H|]. apply IH. exact H.
Qed.
Lemma Q_ends x R n : 0 < R < W -> 0 <= x < W -> forall fuel k next prev b1 b2 ps, at_upper x R next b1 k -> at_lower x R prev b2 k -> (1 <= fuel)%nat -> W <= (Z.of_nat k + Z.of_nat fuel - 1) * R ->
  primesQ_loop fuel R n next prev b1 b2 ps <> None.
Proof.
  intros HR Hx. induction fuel as [|fuel IH]; intros k next prev b1 b2 ps H1 H2 HF HW; [lia|]. cbn [primesQ_loop]. destruct (negb (b1 || b2)) eqn:EB; [discriminate|]. destruct (upper_step x R next b1 k HR Hx H1) as [U1 _]. destruct (lower_step x R prev b2 k HR Hx H2) as [L1 _]. cbv zeta in *.
  destruct (_ && (_ =? n)); [discriminate|]. destruct (_ && (_ =? n)); [discriminate|]. apply (IH (S k)); try assumption; [|lia]. destruct fuel as [|fuel]; [|lia]. exfalso.
  replace ((Z.of_nat k + Z.of_nat 1 - 1) * R) with (Z.of_nat k * R) in HW by lia. destruct b1; [unfold at_upper in H1; lia|]. destruct b2; [unfold at_lower in H2; lia|discriminate].
Qed.
Lemma enough_fuel R : 0 < R -> exists fuel, (1 <= fuel)%nat /\ W <= (Z.of_nat 0 + Z.of_nat fuel - 1) * R.
Proof. intros H. exists (Z.to_nat (W + 1)). assert (HW : 0 < W) by reflexivity. rewrite Z2Nat.id by lia. split; [lia|nia]. Qed.
Lemma shl1_ok n : 0 <= n <= 63 -> shl1 n = Ret (2 ^ n) /\ 0 <= 2 ^ n + 1 < W /\ 1 < 2 ^ n + 1.
Proof. intros H. unfold shl1. rewrite (proj2 (Z.ltb_ge _ _)) by lia. rewrite (proj2 (Z.ltb_lt _ _)) by lia. split; [reflexivity|]. assert (2 ^ n <= 2 ^ 63) by (apply Z.pow_le_mono_r; lia). assert (0 < 2 ^ n) by (apply Z.pow_pos_nonneg; lia). change (2 ^ 63) with 9223372036854775808 in *. unfold W. lia. Qed.
Lemma Q_sound logQ R n fuel : 0 <= logQ <= 63 -> 0 < R < W ->
  match GenerateNTTPrimesQ fuel logQ R n with
  | None => True
  | Some (Ret l) => first_of (class_prime (2 ^ logQ + 1) R) (nearer (2 ^ logQ + 1)) n l
  | Some Fail => False
  | Some Panic => ~ exists l, first_of (class_prime (2 ^ logQ + 1) R) (nearer (2 ^ logQ + 1)) n l
  end.
Proof.
  intros HL HR. destruct (shl1_ok logQ HL) as (E & B & B1). unfold GenerateNTTPrimesQ. rewrite E. unfold wadd, w64. rewrite (Z.mod_small R) by lia. rewrite (Z.mod_small (2 ^ logQ + 1)) by lia. set (x := 2 ^ logQ + 1) in *. clearbody x.
  assert (G : n <= 0 \/ Z.of_nat (length (filter IsPrime (rounds x R 0))) < n) by (cbn; lia).
  pose proof (Q_loop x R n HR B fuel 0 x x true true ltac:(unfold at_upper; lia) ltac:(unfold at_lower; lia) G) as Q. cbn [rounds filter] in Q. destruct (primesQ_loop _ _ _ _ _ _ _ _) as [[l| |]|]; try exact Q.
  - destruct Q as (k & E1 & E2 & E3). apply (rounds_first x R k); try assumption. lia.
  - destruct Q as (k & E1 & E2 & E3). apply (rounds_none x R k); try assumption. lia.
Qed.
Lemma Q_terminates logQ R n : 0 <= logQ <= 63 -> 0 < R < W -> exists fuel, GenerateNTTPrimesQ fuel logQ R n <> None.
Proof.
  intros HL HR. destruct (shl1_ok logQ HL) as (E & B & B1). destruct (enough_fuel R ltac:(lia)) as (fuel & F1 & F2). exists fuel. unfold GenerateNTTPrimesQ. rewrite E. unfold wadd, w64. rewrite (Z.mod_small R) by lia. rewrite (Z.mod_small (2 ^ logQ + 1)) by lia.
  apply (Q_ends (2 ^ logQ + 1) R n HR B fuel 0); [unfold at_upper; lia|unfold at_lower; lia|exact F1|exact F2].
Qed.
(** From soundness and termination to an equivalence. *)
Lemma gen_iff (run : nat -> option (res (list Z))) P (before : Z -> Z -> Prop) n : (forall a b : Z, before a b -> before b a -> False) ->
  (forall fuel, match run fuel with None => True | Some (Ret l) => first_of P before n l | Some Fail => False | Some Panic => ~ exists l, first_of P before n l end) ->
  (exists fuel, run fuel <> None) ->
  (forall l, (exists fuel, run fuel = Some (Ret l)) <-> first_of P before n l) /\ ((exists fuel, run fuel = Some Panic) <-> ~ exists l, first_of P before n l).
Proof.
  intros AS S (f & T). split.
  - intros l. split; [intros (g & E); specialize (S g); rewrite E in S; exact S|]. intros H. exists f. specialize (S f). destruct (run f) as [[l'| |]|]; [|contradiction| |contradiction T; reflexivity]; [f_equal; f_equal; apply (first_unique P before n); assumption|]. exfalso. apply S. exists l. exact H.
  - split; [intros (g & E); specialize (S g); rewrite E in S; exact S|]. intros H. exists f. specialize (S f). destruct (run f) as [[l'| |]|]; [|contradiction|reflexivity|contradiction T; reflexivity]. exfalso. apply H. exists l'. exact S.
Qed.
Lemma Q_iff logQ R n : 0 <= logQ <= 63 -> 0 < R < W ->
  (forall l, (exists fuel, GenerateNTTPrimesQ fuel logQ R n = Some (Ret l)) <-> first_of (class_prime (2 ^ logQ + 1) R) (nearer (2 ^ logQ + 1)) n l) /\
  ((exists fuel, GenerateNTTPrimesQ fuel logQ R n = Some Panic) <-> ~ exists l, first_of (class_prime (2 ^ logQ + 1) R) (nearer (2 ^ logQ + 1)) n l).
Proof. intros HL HR. apply gen_iff; [intros a b; apply nearer_asym|intros fuel; apply Q_sound; assumption|apply Q_terminates; assumption]. Qed.

(** ** GenerateNTTPrimesP *)
Fixpoint lowers (x R : Z) (k : nat) : list Z := match k with O => [] | S j => lowers x R j ++ (if 0 <? x - Z.of_nat k * R then [x - Z.of_nat k * R] else []) end.
Definition lcand (x R c : Z) : Prop := 0 < c < x /\ (R | c - x).
Lemma lowers_in x R k c : In c (lowers x R k) <-> exists i, (1 <= i <= k)%nat /\ 0 < c /\ c = x - Z.of_nat i * R.
Proof.
  induction k as [|k IH]; [split; [intros []|intros (i & H & _); lia]|]. cbn [lowers]. rewrite in_app_iff, IH. split.
  - intros [(i & H & R1)|H]; [exists i; split; [lia|exact R1]|]. destruct (Z.ltb_spec 0 (x - Z.of_nat (S k) * R)) as [L|L]; [|destruct H]. destruct H as [<-|[]]. exists (S k). split; [lia|]. split; [lia|reflexivity].
  - intros (i & H & B & E). destruct (Nat.eq_dec i (S k)) as [->|NE]; [|left; exists i; split; [lia|split; assumption]]. right. rewrite (proj2 (Z.ltb_lt _ _)) by lia. left. symmetry. exact E.
Qed.
Lemma lcand_index x R c : 0 < R -> lcand x R c -> exists i, (1 <= i)%nat /\ 0 < c /\ c = x - Z.of_nat i * R.
Proof. intros HR (B & k & E). assert (k < 0) by nia. exists (Z.to_nat (- k)). rewrite Z2Nat.id by lia. repeat split; lia. Qed.
Lemma lowers_first x R k n l : 0 < R -> l = firstn (Z.to_nat n) (filter IsPrime (lowers x R k)) -> Z.of_nat (length l) = n -> 1 <= n -> first_of (lower_prime x R) above n l.
Proof.
  intros HR El Ll Hn. apply (first_ext (fun c => lcand x R c /\ prime c)); [intros c; unfold lcand, lower_prime; tauto|]. apply (first_of_list (lcand x R) _ (lowers x R k)); try assumption.
  - clear - HR. induction k as [|k IH]; [constructor|]. cbn [lowers]. apply sorted_app. split; [exact IH|]. split; [destruct (_ <? _); repeat constructor|]. intros a b Ha Hb. apply lowers_in in Ha. destruct Ha as (i & Hi & _ & ->). destruct (_ <? _); [|destruct Hb]. destruct Hb as [<-|[]]. unfold above. nia.
  - intros c Hc. apply lowers_in in Hc. destruct Hc as (i & Hi & B & ->). split; [nia|]. exists (- Z.of_nat i). lia.
  - intros c d Hc Hd ND. apply lowers_in in Hc. destruct Hc as (i & Hi & _ & ->). destruct (lcand_index x R d HR Hd) as (j & Hj & Bd & ->). unfold above. destruct (le_lt_dec j k) as [Hjk|Hjk]; [|nia]. exfalso. apply ND. apply lowers_in. exists j. repeat split; [lia|lia|exact Bd].
Qed.
Lemma lowers_none x R k n : 0 < R -> x - Z.of_nat k * R <= R -> (n <= 0 \/ Z.of_nat (length (filter IsPrime (lowers x R k))) < n) -> ~ exists l, first_of (lower_prime x R) above n l.
Proof.
  intros HR H1 HN (l & Hl). apply (first_none (lcand x R) above (lowers x R k) n); [intros a H; unfold above in H; lia| |exact HN|exists l; revert Hl; apply first_ext; intros c; unfold lcand, lower_prime; tauto].
  intros c Hc. destruct (lcand_index x R c HR Hc) as (i & Hi & B & ->). apply lowers_in. exists i. split; [|split; [exact B|reflexivity]]. split; [exact Hi|]. destruct (le_lt_dec i k) as [L|L]; [exact L|exfalso]. nia.
Qed.
Lemma P_loop x R n : 0 < R < W -> 0 < x < W -> forall fuel k, 0 < x - Z.of_nat k * R -> (n <= 0 \/ Z.of_nat (length (filter IsPrime (lowers x R k))) < n) ->
  match primesP_loop fuel R n (x - Z.of_nat k * R) (filter IsPrime (lowers x R k)) with
  | None => True
  | Some (Ret l) => first_of (lower_prime x R) above n l
  | Some Fail => False
  | Some Panic => ~ exists l, first_of (lower_prime x R) above n l
  end.
Proof.
  intros HR Hx. induction fuel as [|fuel IH]; intros k HP HN; [exact I|]. cbn [primesP_loop]. destruct (Z.ltb_spec R (x - Z.of_nat k * R)) as [L|L]; [|apply (lowers_none x R k); [lia|lia|exact HN]].
  unfold wsub, w64. assert (0 <= Z.of_nat k * R) by nia. rewrite (Z.mod_small (x - Z.of_nat k * R - R)) by lia. replace (x - Z.of_nat k * R - R) with (x - Z.of_nat (S k) * R) in * by lia. rewrite app_if. specialize (IH (S k)).
  assert (FR : filter IsPrime (lowers x R (S k)) = filter IsPrime (lowers x R k) ++ (if IsPrime (x - Z.of_nat (S k) * R) then [x - Z.of_nat (S k) * R] else [])). { cbn [lowers]. rewrite filter_app, (proj2 (Z.ltb_lt _ _)) by lia. reflexivity. }
  destruct (IsPrime (x - Z.of_nat (S k) * R) && (_ =? n)) eqn:E1.
  - apply andb_true_iff in E1. destruct E1 as [E1 E2]. apply Z.eqb_eq in E2. rewrite <- FR in *. apply (lowers_first x R (S k)); [lia|symmetry; apply firstn_all2; lia|exact E2|]. rewrite FR, E1, app_length in E2. cbn [length] in E2. lia.
  - pose proof (not_full _ _ _ _ HN E1) as HN2. rewrite <- FR in *. apply IH; [lia|exact HN2].
Qed.
Lemma P_ends R n : 0 < R < W -> forall fuel x ps, 0 < x < W -> x < Z.of_nat fuel * R -> primesP_loop fuel R n x ps <> None.
Proof.
  intros HR. induction fuel as [|fuel IH]; intros x ps Hx HF; [lia|]. cbn [primesP_loop]. destruct (Z.ltb_spec R x) as [L|L]; [|discriminate]. unfold wsub, w64. rewrite (Z.mod_small (x - R)) by lia. destruct (_ && _); [discriminate|]. apply IH; lia.
Qed.
Lemma above_asym a b : above a b -> above b a -> False.
Proof. unfold above. lia. Qed.
Lemma P_iff logP R n : 0 <= logP <= 63 -> 0 < R < W ->
  (forall l, (exists fuel, GenerateNTTPrimesP fuel logP R n = Some (Ret l)) <-> first_of (lower_prime (2 ^ logP + 1) R) above n l) /\
  ((exists fuel, GenerateNTTPrimesP fuel logP R n = Some Panic) <-> ~ exists l, first_of (lower_prime (2 ^ logP + 1) R) above n l).
Proof.
  intros HL HR. destruct (shl1_ok logP HL) as (E & B & B1). unfold GenerateNTTPrimesP. rewrite E. unfold wadd, w64. rewrite (Z.mod_small R) by lia. rewrite (Z.mod_small (2 ^ logP + 1)) by lia. set (x := 2 ^ logP + 1) in *. clearbody x. apply gen_iff; [exact above_asym| |].
  - intros fuel. pose proof (P_loop x R n HR ltac:(lia) fuel 0 ltac:(lia)) as Q. cbn [lowers filter] in Q. replace (x - Z.of_nat 0 * R) with x in Q by lia. apply Q. cbn. lia.
  - exists (Z.to_nat (x + 1)). apply P_ends; [exact HR|lia|]. rewrite Z2Nat.id by lia. nia.
Qed.

(** ** GenerateNTTPrimes *)
Lemma class_one logQ e c : 0 <= e <= logQ -> (2 ^ e | c - (2 ^ logQ + 1)) -> c mod 2 ^ e = 1 mod 2 ^ e.
Proof.
  intros He [k Hk]. assert (E : 2 ^ logQ = 2 ^ (logQ - e) * 2 ^ e) by (rewrite <- Z.pow_add_r by lia; f_equal; lia). replace c with (1 + (k + 2 ^ (logQ - e)) * 2 ^ e) by lia. apply Z_mod_plus_full.
Qed.
Lemma gen_friendly logQ e n l : 1 <= e <= logQ -> logQ <= 61 -> (exists fuel, GenerateNTTPrimes fuel logQ (2 ^ e) n = Some (Ret l)) ->
  Z.of_nat (length l) = n /\ NoDup l /\ forall p, In p l -> prime p /\ p mod 2 ^ e = 1 /\ p < W /\ (logQ = 61 -> p < 2 ^ 61).
Proof.
  intros He HL (fuel & H). unfold GenerateNTTPrimes in H. rewrite (proj2 (Z.ltb_ge _ _)) in H by lia. assert (HR : 0 < 2 ^ e < W). { split; [apply Z.pow_pos_nonneg; lia|]. apply Z.le_lt_trans with (2 ^ 61); [apply Z.pow_le_mono_r; lia|reflexivity]. }
  assert (E2 : 2 <= 2 ^ e) by (change 2 with (2 ^ 1) at 1; apply Z.pow_le_mono_r; lia).
  destruct (Z.eqb_spec logQ 61) as [->|NE].
  - assert (F : first_of (lower_prime (2 ^ 61 + 1) (2 ^ e)) above n l) by (apply (P_iff 61 (2 ^ e) n ltac:(lia) HR); exists fuel; exact H). destruct F as (F1 & F2 & F3 & F4 & _). split; [exact F2|]. split; [apply (sorted_nodup above); [intros a A; unfold above in A; lia|exact F4]|]. intros p Hp. rewrite Forall_forall in F3. destruct (F3 p Hp) as (A & B & C). split; [exact C|].
    split; [rewrite (class_one 61 e p ltac:(lia) B); apply Z.mod_small; lia|]. assert (p <> 2 ^ 61). { intros ->. destruct B as [k Hk]. assert (1 = - k * 2 ^ e) by lia. assert (2 ^ e | 1) by (exists (- k); assumption). apply Z.divide_1_r_nonneg in H1; lia. } change (2 ^ 61) with 2305843009213693952 in *. unfold W. split; [lia|]. intros _. lia.
  - assert (F : first_of (class_prime (2 ^ logQ + 1) (2 ^ e)) (nearer (2 ^ logQ + 1)) n l) by (apply (Q_iff logQ (2 ^ e) n ltac:(lia) HR); exists fuel; exact H). destruct F as (F1 & F2 & F3 & F4 & _). split; [exact F2|]. split; [apply (sorted_nodup (nearer (2 ^ logQ + 1))); [intros a; apply nearer_irrefl|exact F4]|]. intros p Hp. rewrite Forall_forall in F3. destruct (F3 p Hp) as (A & _ & B & C). split; [exact C|].
    split; [rewrite (class_one logQ e p ltac:(lia) B); apply Z.mod_small; lia|]. split; [lia|]. intros X. contradiction.
Qed.
Lemma gen_dispatch fuel logQ R n : GenerateNTTPrimes fuel logQ R n = if 61 <? logQ then Some Panic else if logQ =? 61 then GenerateNTTPrimesP fuel 61 R n else GenerateNTTPrimesQ fuel logQ R n.
Proof. unfold GenerateNTTPrimes. destruct (61 <? logQ); [reflexivity|]. destruct (Z.eqb_spec logQ 61) as [->|]; reflexivity. Qed.

(** ** NextNTTPrime *)
Lemma len61 x : 0 <= x -> (61 <? Len64 x) = (2 ^ 61 <=? x).
Proof.
  intros H. unfold Len64. destruct (Z.eqb_spec x 0) as [->|N]; [reflexivity|]. destruct (Z.leb_spec (2 ^ 61) x) as [L|L].
  - apply Z.ltb_lt. apply Z.log2_le_pow2 in L; lia.
  - apply Z.ltb_ge. apply Z.log2_lt_pow2 in L; lia.
Qed.
Lemma next_more R : forall fuel x v d, next_loop fuel R x = Some v -> next_loop (fuel + d) R x = Some v.
Proof. induction fuel as [|fuel IH]; intros x v d H; [discriminate|]. cbn [next_loop Nat.add] in *. destruct (IsPrime x); [exact H|]. destruct (61 <? _); [exact H|]. apply IH. exact H. Qed.
Lemma next_loop_ok q R : 0 < R <= 2 ^ 61 -> 0 <= q -> forall fuel k, (1 <= k)%nat -> q + Z.of_nat k * R < 2 ^ 62 -> (forall i, (1 <= i < k)%nat -> ~ prime (q + Z.of_nat i * R)) ->
  match next_loop fuel R (q + Z.of_nat k * R) with
  | None => True
  | Some (Ret p) => exists j, (k <= j)%nat /\ p = q + Z.of_nat j * R /\ prime p /\ (forall i, (1 <= i < j)%nat -> ~ prime (q + Z.of_nat i * R)) /\ (j = k \/ p < 2 ^ 61)
  | Some Fail => exists j, (k < j)%nat /\ (forall i, (1 <= i < j)%nat -> ~ prime (q + Z.of_nat i * R)) /\ 2 ^ 61 <= q + Z.of_nat j * R
  | Some Panic => False
  end.
Proof.
  intros HR Hq. induction fuel as [|fuel IH]; intros k Hk HB HN; [exact I|]. cbn [next_loop]. destruct (IsPrime (q + Z.of_nat k * R)) eqn:EP.
  - exists k. split; [lia|]. split; [reflexivity|]. split; [apply IsPrime_spec; exact EP|]. split; [exact HN|left; reflexivity].
  - assert (HN2 : forall i, (1 <= i < S k)%nat -> ~ prime (q + Z.of_nat i * R)). { intros i Hi. destruct (Nat.eq_dec i k) as [->|NE]; [|apply HN; lia]. intros P. apply IsPrime_spec in P. congruence. }
    assert (0 <= Z.of_nat k * R) by nia. unfold wadd, w64. change (2 ^ 62) with 4611686018427387904 in *. change (2 ^ 61) with 2305843009213693952 in *. rewrite (Z.mod_small (q + Z.of_nat k * R + R)) by (unfold W; lia). replace (q + Z.of_nat k * R + R) with (q + Z.of_nat (S k) * R) in * by lia. rewrite len61 by nia. change (2 ^ 61) with 2305843009213693952. destruct (Z.leb_spec 2305843009213693952 (q + Z.of_nat (S k) * R)) as [L|L].
    + exists (S k). split; [lia|]. split; [exact HN2|exact L].
    + specialize (IH (S k) ltac:(lia) ltac:(lia) HN2). destruct (next_loop fuel R _) as [[p| |]|]; [| |exact IH|exact I].
      * destruct IH as (j & A & B & C & D & E). exists j. split; [lia|]. split; [exact B|]. split; [exact C|]. split; [exact D|]. destruct E as [-> |E]; [right; rewrite B; exact L|right; exact E].
      * destruct IH as (j & A & B & C). exists j. split; [lia|]. split; assumption.
Qed.
Lemma next_ends q R : 0 < R <= 2 ^ 61 -> 0 <= q -> forall fuel k, (1 <= k)%nat -> q + Z.of_nat k * R < 2 ^ 62 -> 2 ^ 62 <= q + (Z.of_nat k + Z.of_nat fuel) * R -> next_loop fuel R (q + Z.of_nat k * R) <> None.
Proof.
  intros HR Hq. induction fuel as [|fuel IH]; intros k Hk HB HF; [lia|]. cbn [next_loop]. destruct (IsPrime _); [discriminate|]. assert (0 <= Z.of_nat k * R) by nia. unfold wadd, w64. change (2 ^ 62) with 4611686018427387904 in *. change (2 ^ 61) with 2305843009213693952 in *. rewrite (Z.mod_small (q + Z.of_nat k * R + R)) by (unfold W; lia). replace (q + Z.of_nat k * R + R) with (q + Z.of_nat (S k) * R) in * by lia. rewrite len61 by nia. change (2 ^ 61) with 2305843009213693952. destruct (Z.leb_spec 2305843009213693952 (q + Z.of_nat (S k) * R)) as [L|L]; [discriminate|]. apply IH; lia.
Qed.
Lemma three_divides : ~ prime (2 ^ 61 + 1).
Proof. intros H. assert (D : (3 | 2 ^ 61 + 1)) by (exists 768614336404564651; reflexivity). apply (prime_divisors _ H) in D. change (2 ^ 61 + 1) with 2305843009213693953 in D. lia. Qed.
Lemma next_index q R c : 0 < R -> q < c -> (R | c - q) -> exists i, (1 <= i)%nat /\ c = q + Z.of_nat i * R.
Proof. intros HR Hc [k Hk]. exists (Z.to_nat k). assert (0 < k) by nia. rewrite Z2Nat.id by lia. split; lia. Qed.
(** The last candidate below 2^61 cannot jump over 2^61 + 1. *)
Lemma next_first q e : 0 <= e <= 61 -> q mod 2 ^ e = 1 mod 2 ^ e -> 0 <= q < 2 ^ 61 -> prime (q + 2 ^ e) -> q + 2 ^ e < 2 ^ 61.
Proof.
  intros He HM Hq HP. assert (HR : 0 < 2 ^ e) by (apply Z.pow_pos_nonneg; lia). assert (E : 2 ^ 61 = 2 ^ (61 - e) * 2 ^ e) by (rewrite <- Z.pow_add_r by lia; f_equal; lia).
  pose proof (Z.div_mod q (2 ^ e) ltac:(lia)) as D. rewrite HM in D. set (a := q / 2 ^ e) in *. clearbody a. destruct (Z.eq_dec e 0) as [->|NE].
  - change (2 ^ 0) with 1 in *. destruct (Z.eq_dec q (2 ^ 61 - 1)) as [->|N2]; [|lia]. exfalso. replace (2 ^ 61 - 1 + 1) with (2 ^ 61) in HP by lia. assert (D2 : (2 | 2 ^ 61)) by (exists (2 ^ 60); reflexivity). apply (prime_divisors _ HP) in D2. change (2 ^ 61) with 2305843009213693952 in D2. lia.
  - assert (2 <= 2 ^ e) by (change 2 with (2 ^ 1) at 1; apply Z.pow_le_mono_r; lia). rewrite Z.mod_small in D by lia. destruct (Z.lt_ge_cases (a + 1) (2 ^ (61 - e))) as [L|L]; [nia|]. assert (a < 2 ^ (61 - e)) by nia. assert (a + 1 = 2 ^ (61 - e)) by lia. assert (E2 : q + 2 ^ e = 2 ^ 61 + 1) by nia. rewrite E2 in HP. exfalso. exact (three_divides HP).
Qed.
Lemma next_spec q e : 0 <= e <= 61 -> q mod 2 ^ e = 1 mod 2 ^ e -> 0 <= q < 2 ^ 61 ->
  (exists fuel, NextNTTPrime fuel q (2 ^ e) <> None) /\
  (forall p, (exists fuel, NextNTTPrime fuel q (2 ^ e) = Some (Ret p)) <-> follows q (2 ^ e) p /\ p < 2 ^ 61) /\
  ((exists fuel, NextNTTPrime fuel q (2 ^ e) = Some Fail) <-> forall c, q < c < 2 ^ 61 -> (2 ^ e | c - q) -> ~ prime c) /\
  (forall fuel, NextNTTPrime fuel q (2 ^ e) <> Some Panic).
Proof.
  intros He HM Hq. assert (HR : 0 < 2 ^ e <= 2 ^ 61) by (split; [apply Z.pow_pos_nonneg; lia|apply Z.pow_le_mono_r; lia]). pose proof (next_first q e He HM Hq) as NF. set (R := 2 ^ e) in *. clearbody R. clear He HM.
  assert (E0 : forall fuel, NextNTTPrime fuel q R = next_loop fuel R (q + Z.of_nat 1 * R)). { intros fuel. unfold NextNTTPrime, wadd, w64. change (2 ^ 61) with 2305843009213693952 in *. rewrite (Z.mod_small R) by (unfold W; lia). rewrite Z.mod_small by (unfold W; lia). f_equal. lia. }
  assert (B1 : q + Z.of_nat 1 * R < 2 ^ 62) by (change (2 ^ 62) with (2 * 2 ^ 61); lia).
  assert (OK := fun fuel => next_loop_ok q R HR ltac:(lia) fuel 1 (le_n 1) B1 ltac:(intros i Hi; lia)).
  assert (T : exists fuel, NextNTTPrime fuel q R <> None). { exists (Z.to_nat (2 ^ 62)). rewrite E0. apply next_ends; [exact HR|lia|lia|exact B1|]. rewrite Z2Nat.id by (change (2 ^ 62) with 4611686018427387904; lia). change (2 ^ 62) with 4611686018427387904. nia. }
  assert (SR : forall fuel p, NextNTTPrime fuel q R = Some (Ret p) -> follows q R p /\ p < 2 ^ 61).
  { intros fuel p E. specialize (OK fuel). rewrite <- E0, E in OK. destruct OK as (j & A & B & C & D & F). split.
    - split; [exact C|]. split; [nia|]. split; [exists (Z.of_nat j); lia|]. intros c Hc Dc. destruct (next_index q R c ltac:(lia) ltac:(lia) Dc) as (i & Hi & ->). apply D. split; [exact Hi|]. nia.
    - destruct F as [-> |F]; [|exact F]. rewrite B in C |- *. replace (Z.of_nat 1 * R) with R in * by lia. apply NF. exact C. }
  assert (SF : forall fuel, NextNTTPrime fuel q R = Some Fail -> forall c, q < c < 2 ^ 61 -> (R | c - q) -> ~ prime c).
  { intros fuel E. specialize (OK fuel). rewrite <- E0, E in OK. destruct OK as (j & A & B & C). intros c Hc Dc. destruct (next_index q R c ltac:(lia) ltac:(lia) Dc) as (i & Hi & ->). apply B. split; [exact Hi|]. nia. }
  assert (SP : forall fuel, NextNTTPrime fuel q R <> Some Panic). { intros fuel E. specialize (OK fuel). rewrite <- E0, E in OK. exact OK. }
  split; [exact T|]. split; [|split; [|exact SP]].
  - intros p. split; [intros (fuel & E); apply (SR fuel); exact E|]. intros [(P1 & P2 & P3 & P4) P5]. destruct T as (fuel & T). exists fuel. destruct (NextNTTPrime fuel q R) as [[p'| |]|] eqn:E; [| |destruct (SP fuel E)|contradiction].
    + destruct (SR fuel p' E) as [(Q1 & Q2 & Q3 & Q4) Q5]. f_equal. f_equal. destruct (Z.lt_trichotomy p p') as [L|[L|L]]; [|symmetry; exact L|]; exfalso; [apply (Q4 p); [lia|exact P3|exact P1]|apply (P4 p'); [lia|exact Q3|exact Q1]].
    + exfalso. apply (SF fuel E p); [lia|exact P3|exact P1].
  - split; [intros (fuel & E); apply (SF fuel E)|]. intros H. destruct T as (fuel & T). exists fuel. destruct (NextNTTPrime fuel q R) as [[p'| |]|] eqn:E; [|reflexivity|destruct (SP fuel E)|contradiction]. destruct (SR fuel p' E) as [(Q1 & Q2 & Q3 & Q4) Q5]. exfalso. apply (H p'); [lia|exact Q3|exact Q1].
Qed.

(** ** PreviousNTTPrime *)
Lemma prev_more q R : forall fuel x v d, previous_loop fuel q R x = Some v -> previous_loop (fuel + d) q R x = Some v.
Proof. induction fuel as [|fuel IH]; intros x v d H; [discriminate|]. cbn [previous_loop Nat.add] in *. destruct (IsPrime x); [exact H|]. destruct (q <? R); [exact H|]. apply IH. exact H. Qed.
Lemma prev_loop_run q R j : 0 < R < W -> 0 <= q < W -> R <= q -> (forall i, (1 <= i < j)%nat -> ~ prime (w64 (q - Z.of_nat i * R))) -> prime (w64 (q - Z.of_nat j * R)) ->
  forall n k, (k + n = j)%nat -> (1 <= k)%nat -> previous_loop (S n) q R (w64 (q - Z.of_nat k * R)) = Some (Ret (w64 (q - Z.of_nat j * R))).
Proof.
  intros HR Hq HL HN HP. induction n as [|n IH]; intros k E Hk.
  - replace k with j by lia. cbn [previous_loop]. rewrite (proj2 (IsPrime_spec _) HP). reflexivity.
  - change (previous_loop (S (S n)) q R (w64 (q - Z.of_nat k * R))) with (if IsPrime (w64 (q - Z.of_nat k * R)) then Some (Ret (w64 (q - Z.of_nat k * R))) else if q <? R then Some Fail else previous_loop (S n) q R (wsub (w64 (q - Z.of_nat k * R)) R)). destruct (IsPrime (w64 (q - Z.of_nat k * R))) eqn:EP; [apply IsPrime_spec in EP; exfalso; apply (HN k); [lia|exact EP]|]. rewrite (proj2 (Z.ltb_ge _ _) HL). replace (wsub (w64 (q - Z.of_nat k * R)) R) with (w64 (q - Z.of_nat (S k) * R)); [apply IH; lia|]. unfold wsub, w64. rewrite Zminus_mod_idemp_l. f_equal. lia.
Qed.
Lemma prev_run q R j : 0 < R < W -> 0 <= q < W -> R <= q -> (1 <= j)%nat -> (forall i, (1 <= i < j)%nat -> ~ prime (w64 (q - Z.of_nat i * R))) -> prime (w64 (q - Z.of_nat j * R)) ->
  PreviousNTTPrime j q R = Some (Ret (w64 (q - Z.of_nat j * R))).
Proof.
  intros HR Hq HL Hj HN HP. unfold PreviousNTTPrime. unfold w64 at 1 2 3. rewrite (Z.mod_small R) by lia. rewrite (proj2 (Z.ltb_ge _ _) HL). unfold wsub. replace (q - R) with (q - Z.of_nat 1 * R) by lia. destruct j as [|j]; [lia|]. apply (prev_loop_run q R (S j)); try assumption; lia.
Qed.
Lemma prev_finds q R p : 0 < R < W -> 0 <= q < W -> precedes q R p -> exists fuel, PreviousNTTPrime fuel q R = Some (Ret p).
Proof.
  intros HR Hq (P1 & P2 & [k Hk] & P4). assert (0 < k) by nia. exists (Z.to_nat k). pose proof (prime_ge_2 p P1). assert (S1 : forall i, (1 <= i <= Z.to_nat k)%nat -> w64 (q - Z.of_nat i * R) = q - Z.of_nat i * R). { intros i Hi. unfold w64. apply Z.mod_small. assert (Z.of_nat i <= k) by lia. assert (0 <= Z.of_nat i * R) by nia. nia. }
  assert (E : q - Z.of_nat (Z.to_nat k) * R = p) by (rewrite Z2Nat.id by lia; lia). rewrite <- E at 1. rewrite <- S1 by lia. apply prev_run; try assumption; [nia|lia| |].
  - intros i Hi. rewrite S1 by lia. apply P4; [|exists (Z.of_nat i); lia]. rewrite <- E. nia.
  - rewrite S1 by lia. rewrite E. exact P1.
Qed.
Lemma prev_error q R : 0 < R < W -> 0 <= q < W -> ((exists fuel, PreviousNTTPrime fuel q R = Some Fail) <-> q < R).
Proof.
  intros HR Hq. unfold PreviousNTTPrime. unfold w64. rewrite (Z.mod_small R) by lia. destruct (Z.ltb_spec q R) as [L|L]; [split; [intros _; exact L|intros _; exists 0%nat; reflexivity]|]. split; [|lia]. intros (fuel & E). exfalso. revert E. generalize (wsub q R) as x. induction fuel as [|fuel IH]; intros x E; [discriminate|]. cbn [previous_loop] in E. destruct (IsPrime x); [discriminate|]. rewrite (proj2 (Z.ltb_ge _ _) L) in E. exact (IH _ E).
Qed.
Lemma prev_det q R f1 f2 v1 v2 : PreviousNTTPrime f1 q R = Some v1 -> PreviousNTTPrime f2 q R = Some v2 -> v1 = v2.
Proof. unfold PreviousNTTPrime. destruct (q <? w64 R); [congruence|]. intros H1 H2. apply (prev_more _ _ _ _ _ f2) in H1. apply (prev_more _ _ _ _ _ f1) in H2. rewrite Nat.add_comm in H2. congruence. Qed.
