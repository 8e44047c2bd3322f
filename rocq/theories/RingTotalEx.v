(** A modulus for which primitiveRoot does not return a primitive root. *)
From Verif Require Import Word ModRed Arith ModRedProofs SmallPrimes Ring RingProofs Pocklington RingTotal.
Local Open Scope Z_scope.

(** q - 1 = 2^5 * 13 * 17477 * 17491. *)
Definition odd_q : Z := 127167126113.
Lemma odd_q_prime : prime odd_q.
Proof. apply (cert_prime odd_q [(17477, 1%nat, 5); (17491, 1%nat, 5)]). vm_compute. reflexivity. Qed.
Lemma composite_factor : exists n l f, getFactors 2 n = Some l /\ In f l /\ ~ prime f.
Proof.
  exists (odd_q - 1), [2; 13; 305690207], 305690207. split; [vm_compute; reflexivity|]. split; [right; right; left; reflexivity|].
  intros H. destruct (prime_divisors _ H 17477) as [E|[E|[E|E]]]; [exists 17491; reflexivity|discriminate..].
Qed.
Lemma loop_mono f f' q g l r : (f <= f')%nat -> primitiveRoot_loop f q g l = Some r -> primitiveRoot_loop f' q g l = Some r.
Proof.
  revert f' g. induction f as [|f IH]; intros f' g Hf H; [discriminate|]. destruct f' as [|f']; [lia|]. cbn [primitiveRoot_loop] in *.
  destruct (root_ok _ _ _); [exact H|]. apply (IH f'); [lia|exact H].
Qed.
Lemma root_fuel q g : (1 < q - 1) -> 2 * q <= W -> primitiveRoot_loop 2 q 2 (factors_of (q - 1)) = Some g -> forall fuel, (2 <= fuel)%nat -> primitiveRoot fuel q = Some g.
Proof. intros Hq HW E fuel Hf. unfold primitiveRoot. rewrite getFactors_eq by lia. apply (loop_mono 2); assumption. Qed.
Lemma odd_root : primitiveRoot_loop 2 odd_q 2 (factors_of (odd_q - 1)) = Some 3.
Proof. vm_compute. reflexivity. Qed.
Lemma odd_power : ModExp 3 7276256 odd_q = 1.
Proof. vm_compute. reflexivity. Qed.
Lemma odd_W : 2 * odd_q <= W.
Proof. unfold Z.le. vm_compute. discriminate. Qed.
Lemma not_generator : exists q g k, prime q /\ q mod 2 ^ 5 = 1 /\ 2 * q <= W /\ (forall fuel, (2 <= fuel)%nat -> primitiveRoot fuel q = Some g) /\ 0 < k < q - 1 /\ g ^ k mod q = 1.
Proof.
  exists odd_q, 3, 7276256. split; [exact odd_q_prime|]. split; [reflexivity|]. split; [exact odd_W|].
  split; [apply root_fuel; [reflexivity|exact odd_W|exact odd_root]|]. split; [split; reflexivity|].
  rewrite <- (ModExp_correct 3 7276256 odd_q); [exact odd_power|discriminate|exact odd_W|split; [discriminate|reflexivity]|discriminate].
Qed.

(** ** Statements with powers *)
Lemma factors_unfold n : factors_of n = filter (fun p => n mod p =? 0) smallPrimes ++ (if rest_of n =? 1 then [] else [rest_of n]).
Proof. unfold factors_of. reflexivity. Qed.
Lemma factors_spec fuel n : (2 <= fuel)%nat -> 1 < n -> 2 * n <= W ->
  getFactors fuel n = Some (filter (fun p => n mod p =? 0) smallPrimes ++ (if rest_of n =? 1 then [] else [rest_of n])).
Proof. intros H1 H2 H3. rewrite (getFactors_eq fuel n H1 H2 H3). rewrite factors_unfold. reflexivity. Qed.
Lemma root_ok_powers q g l : 1 < q -> 2 * q <= W -> 0 <= g < q -> (forall d, In d l -> 0 < d) -> root_ok q g l = true -> forall d, In d l -> g ^ ((q - 1) / d) mod q <> 1.
Proof.
  intros Hq HW Hg Hl R d Hd E. unfold root_ok in R. apply andb_true_iff in R. destruct R as [_ R]. rewrite forallb_forall in R. specialize (R d Hd).
  rewrite ModExp_correct in R; [|lia|exact HW|lia|apply Z.div_pos; [lia|apply Hl; exact Hd]]. rewrite E in R. discriminate R.
Qed.
Lemma primitive_root_spec q : prime q -> 5 <= q -> 2 * q <= W -> exists g, 3 <= g < q /\
  (forall fuel, (Z.to_nat q <= fuel)%nat -> primitiveRoot fuel q = Some g) /\ forall d, In d (factors_of (q - 1)) -> g ^ ((q - 1) / d) mod q <> 1.
Proof.
  intros Hp Hq HW. destruct (primitive_root_total q Hp Hq HW) as (g & H1 & H2 & H3). exists g. split; [exact H1|]. split; [exact H3|].
  apply root_ok_powers; [lia|exact HW|lia| |exact H2]. intros d Hd. destruct (factors_good q Hp Hq HW) as [HG _]. destruct (HG d Hd) as [G1 _]. lia.
Qed.
Lemma generator_spec q : prime q -> 5 <= q -> 2 * q <= W -> rest_of (q - 1) = 1 \/ prime (rest_of (q - 1)) ->
  exists g, (forall fuel, (Z.to_nat q <= fuel)%nat -> primitiveRoot fuel q = Some g) /\ forall k, 0 <= k -> g ^ k mod q = 1 -> (q - 1 | k).
Proof.
  intros Hp Hq HW HR. destruct (primitive_root_total q Hp Hq HW) as (g & H1 & H2 & H3). exists g. split; [exact H3|]. intros k Hk E.
  apply (root_order q g (factors_of (q - 1)) Hp Hq HW); [|exact H1|exact H2|exact Hk|].
  - apply factors_complete; [change W with (2 ^ 64) in HW; lia|exact HR].
  - unfold eqm. rewrite E. symmetry. apply Z.mod_small. lia.
Qed.
Lemma rest_96 : rest_of 96 = 1.
Proof. vm_compute. reflexivity. Qed.
Lemma root_97 : primitiveRoot 200 97 = Some 5.
Proof. vm_compute. reflexivity. Qed.
Lemma fact_96 : getFactors 2 96 = Some [2; 3].
Proof. vm_compute. reflexivity. Qed.
Lemma ring_case : ring_moduli 4 [97; 193] /\ ring_moduli 4 [odd_q] /\ rest_of 96 = 1 /\ getFactors 2 96 = Some [2; 3] /\ primitiveRoot 200 97 = Some 5.
Proof.
  split; [|split; [|exact (conj rest_96 (conj fact_96 root_97))]].
  - split; [discriminate|]. split; [repeat constructor; cbn; intuition discriminate|]. intros q [<-|[<-|[]]].
    + split; [apply (cert_prime 97 [(3, 1%nat, 5); (2, 5%nat, 5)]); vm_compute; reflexivity|]. split; [reflexivity|]. unfold Z.le. vm_compute. discriminate.
    + split; [apply (cert_prime 193 [(3, 1%nat, 5); (2, 6%nat, 5)]); vm_compute; reflexivity|]. split; [reflexivity|]. unfold Z.le. vm_compute. discriminate.
  - split; [discriminate|]. split; [repeat constructor; intros []|]. intros q [<-|[]]. split; [exact odd_q_prime|]. split; [reflexivity|exact odd_W].
Qed.
