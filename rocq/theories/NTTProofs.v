(** Correctness and ranges of the forward and inverse transforms. *)
From Verif Require Import Word ModRed Arith ModRedProofs PolySpec PolyProofs Ring RingProofs NTT.

(** ** Lists *)
Lemma map2_length {A B C} (f : A -> B -> C) l1 l2 : length (map2 f l1 l2) = Nat.min (length l1) (length l2).
Proof. unfold map2. rewrite map_length, combine_length. reflexivity. Qed.

Lemma nth_map2 {A B C} (f : A -> B -> C) l1 l2 i d d1 d2 :
  (i < length l1)%nat -> (i < length l2)%nat -> nth i (map2 f l1 l2) d = f (nth i l1 d1) (nth i l2 d2).
Proof.
  revert l2 i. induction l1 as [|a l1 IH]; intros [|b l2] [|i] H1 H2; cbn in *; try lia; [reflexivity|].
  apply IH; lia.
Qed.

Lemma nth_firstn {A} n i (l : list A) d : (i < n)%nat -> nth i (firstn n l) d = nth i l d.
Proof.
  revert i l. induction n as [|n IH]; intros i l H; [lia|].
  destruct l as [|x l]; [destruct i; reflexivity|]. destruct i as [|i]; [reflexivity|]. cbn. apply IH. lia.
Qed.
Lemma nth_skipn {A} n i (l : list A) d : nth i (skipn n l) d = nth (n + i) l d.
Proof. revert l. induction n as [|n IH]; intros [|x l]; cbn; [reflexivity|reflexivity|destruct i; reflexivity|apply IH]. Qed.

Lemma Forall_nth_iff {A} (P : A -> Prop) l d : Forall P l <-> forall i, (i < length l)%nat -> P (nth i l d).
Proof.
  split.
  - intros H i Hi. rewrite Forall_forall in H. apply H, nth_In. exact Hi.
  - intros H. apply Forall_forall. intros x Hx. destruct (In_nth l x d Hx) as (i & Hi & <-). apply H. exact Hi.
Qed.

Lemma list_ext {A} (l l' : list A) d :
  length l = length l' -> (forall i, (i < length l)%nat -> nth i l d = nth i l' d) -> l = l'.
Proof. intros. eapply nth_ext; eassumption. Qed.

(** The words of a list lie in [0, B). *)
Definition below (B : Z) (l : list Z) : Prop := Forall (fun x => 0 <= x < B) l.

Lemma below_nth B l i : below B l -> (i < length l)%nat -> 0 <= nth i l 0 < B.
Proof. unfold below. intros H Hi. rewrite (Forall_nth_iff _ _ 0) in H. apply H. exact Hi. Qed.
Lemma below_intro B l : (forall i, (i < length l)%nat -> 0 <= nth i l 0 < B) -> below B l.
Proof. intros H. apply (Forall_nth_iff _ _ 0). exact H. Qed.
Lemma below_weaken B B' l : B <= B' -> below B l -> below B' l.
Proof. intros HB. apply Forall_impl. intros; lia. Qed.

(** ** Generic layers *)
Section Layer.
  Variable bf : Z -> Z -> Z -> Z * Z.   (* F x y *)

  Fixpoint glayer (psis : list Z) (t : nat) (xs : list Z) : list Z :=
    match psis with
    | [] => []
    | F :: psis' =>
        let lo := firstn t xs in
        let hi := firstn t (skipn t xs) in
        map2 (fun x y => fst (bf F x y)) lo hi ++ map2 (fun x y => snd (bf F x y)) lo hi
        ++ glayer psis' t (skipn (2 * t) xs)
    end.

  Lemma glayer_length psis t xs :
    length xs = (length psis * (2 * t))%nat -> length (glayer psis t xs) = length xs.
  Proof.
    revert xs. induction psis as [|F psis IH]; intros xs H; cbn [glayer length] in *.
    - cbn in H. lia.
    - rewrite !app_length, !map2_length, !firstn_length, !skipn_length, IH by (rewrite skipn_length; lia).
      rewrite skipn_length. lia.
  Qed.

  Lemma glayer_nth psis t xs i j :
    length xs = (length psis * (2 * t))%nat -> (i < length psis)%nat -> (j < t)%nat ->
    nth (i * (2 * t) + j) (glayer psis t xs) 0 =
      fst (bf (nth i psis 0) (nth (i * (2 * t) + j) xs 0) (nth (i * (2 * t) + t + j) xs 0)) /\
    nth (i * (2 * t) + t + j) (glayer psis t xs) 0 =
      snd (bf (nth i psis 0) (nth (i * (2 * t) + j) xs 0) (nth (i * (2 * t) + t + j) xs 0)).
  Proof.
    revert xs i. induction psis as [|F psis IH]; intros xs i H Hi Hj; [cbn in Hi; lia|].
    cbn [glayer length] in *.
    set (lo := firstn t xs). set (hi := firstn t (skipn t xs)).
    assert (Llo : length lo = t) by (unfold lo; rewrite firstn_length; lia).
    assert (Lhi : length hi = t) by (unfold hi; rewrite firstn_length, skipn_length; lia).
    set (A := map2 (fun x y => fst (bf F x y)) lo hi). set (B := map2 (fun x y => snd (bf F x y)) lo hi).
    assert (LA : length A = t) by (unfold A; rewrite map2_length; lia).
    assert (LB : length B = t) by (unfold B; rewrite map2_length; lia).
    destruct i as [|i].
    - cbn [Nat.mul Nat.add nth]. split.
      + rewrite app_nth1 by lia. unfold A. rewrite (nth_map2 _ _ _ _ _ 0 0) by lia.
        unfold lo, hi. rewrite !nth_firstn, nth_skipn by lia. reflexivity.
      + rewrite app_nth2 by lia. rewrite app_nth1 by lia. rewrite LA.
        replace (t + j - t)%nat with j by lia.
        unfold B. rewrite (nth_map2 _ _ _ _ _ 0 0) by lia.
        unfold lo, hi. rewrite !nth_firstn, nth_skipn by lia. reflexivity.
    - destruct (IH (skipn (2 * t) xs) i) as [E1 E2]; [rewrite skipn_length; lia|lia|exact Hj|].
      rewrite !nth_skipn in E1, E2. cbn [nth].
      replace (S i * (2 * t) + j)%nat with (2 * t + (i * (2 * t) + j))%nat by lia.
      replace (S i * (2 * t) + t + j)%nat with (2 * t + (i * (2 * t) + t + j))%nat by lia.
      rewrite !(app_nth2 A) by lia. rewrite !(app_nth2 B) by lia. rewrite LA, LB.
      replace (2 * t + (i * (2 * t) + j) - t - t)%nat with (i * (2 * t) + j)%nat by lia.
      replace (2 * t + (i * (2 * t) + t + j) - t - t)%nat with (i * (2 * t) + t + j)%nat by lia.
      split; assumption.
  Qed.
End Layer.

Lemma ntt_layer_glayer reduce psis t Q QInv xs :
  ntt_layer reduce psis t Q QInv xs = glayer (fun F x y => butterfly reduce x y F Q QInv) psis t xs.
Proof. revert xs. induction psis as [|F psis IH]; intros xs; [reflexivity|]. cbn [ntt_layer glayer]. rewrite IH. reflexivity. Qed.

Lemma inv_layer_glayer psis t Q QInv xs :
  inv_layer psis t Q QInv xs = glayer (fun F x y => invbutterfly x y F Q QInv) psis t xs.
Proof. revert xs. induction psis as [|F psis IH]; intros xs; [reflexivity|]. cbn [inv_layer glayer]. rewrite IH. reflexivity. Qed.

(** Every index below m*2t is of one of the two forms. *)
Lemma block_index m t n : (n < m * (2 * t))%nat ->
  exists i j, (i < m)%nat /\ (j < t)%nat /\ (n = i * (2 * t) + j \/ n = i * (2 * t) + t + j)%nat.
Proof.
  intros H. assert (Ht : (t <> 0)%nat) by nia.
  pose proof (Nat.div_mod n (2 * t) ltac:(lia)) as D.
  assert (Hm : (n mod (2 * t) < 2 * t)%nat) by (apply Nat.mod_upper_bound; lia).
  set (i := (n / (2 * t))%nat) in *. set (r := (n mod (2 * t))%nat) in *. clearbody i r.
  assert (i < m)%nat by nia.
  destruct (Nat.lt_ge_cases r t).
  - exists i, r. repeat split; try assumption. left. lia.
  - exists i, (r - t)%nat. repeat split; try assumption; [lia|]. right. lia.
Qed.

(** ** One butterfly *)
Section Modulus.
  Variables (q qInv : Z).
  Hypothesis Hq : 2 <= q.
  Hypothesis Hodd : Z.odd q = true.
  Hypothesis Hinv : eqm W (q * qInv) 1.

  (** Bound on the values after the round, from the bound before it. *)
  Definition next_bound (reduce : bool) (B : Z) : Z :=
    (if reduce then Z.max (4 * q) (B - 4 * q) else B) + 2 * q.

  Lemma butterfly_spec reduce B x y F w :
    2 * q <= W -> (reduce = true -> 4 * q < W) -> 0 <= B <= W -> next_bound reduce B <= W ->
    0 <= x < B -> 0 <= y < B -> 0 <= F < q -> eqm q F (w * W) ->
    let (X, Y) := butterfly reduce x y F q qInv in
    0 <= X < next_bound reduce B /\ 0 <= Y < next_bound reduce B /\
    eqm q X (x + w * y) /\ eqm q Y (x - w * y).
  Proof.
    intros HqW H4 HB HN Hx Hy HF Ew. unfold butterfly.
    assert (E2 : wmul 2 q = 2 * q \/ 2 * q = W).
    { destruct (Z.eq_dec (2 * q) W); [right; assumption|left; apply w64_small; lia]. }
    assert (E2' : wmul 2 q = 2 * q).
    { destruct E2 as [E|E]; [exact E|]. exfalso. 
      assert (Eq9 : q = 9223372036854775808) by (unfold W in E; lia). rewrite Eq9 in Hodd. discriminate Hodd. }
    rewrite E2'.
    assert (Hp : y * F < q * W) by nia.
    pose proof (MRedConstant_range y F q qInv ltac:(lia) HqW Hinv ltac:(lia) ltac:(lia) Hp) as RV.
    pose proof (MRedConstant_eqm y F q qInv ltac:(lia) HqW Hinv ltac:(lia) ltac:(lia) Hp) as EV.
    set (V := MRedConstant y F q qInv) in *.
    assert (EV' : eqm q V (w * y)).
    { apply odd_cancel_W; [lia|exact Hodd|]. rewrite EV, Ew. apply eqm_eq. ring. }
    assert (G : forall U b, 0 <= U < b -> b + 2 * q <= W -> eqm q U x ->
       0 <= wadd U V < b + 2 * q /\ 0 <= wsub (wadd U (2 * q)) V < b + 2 * q /\
       eqm q (wadd U V) (x + w * y) /\ eqm q (wsub (wadd U (2 * q)) V) (x - w * y)).
    { intros U b HU Hb EU.
      assert (A1 : wadd U V = U + V) by (apply w64_small; lia).
      assert (A2 : wadd U (2 * q) = U + 2 * q) by (apply w64_small; lia).
      rewrite A1, A2.
      assert (A3 : wsub (U + 2 * q) V = U + 2 * q - V) by (apply w64_small; lia).
      rewrite A3. split; [lia|]. split; [lia|]. split.
      - rewrite EU, EV'. reflexivity.
      - rewrite EU, EV'. apply (eqm_intro _ _ _ 2). ring. }
    destruct reduce; unfold next_bound in *.
    - specialize (H4 eq_refl).
      assert (E4 : wmul 4 q = 4 * q) by (apply w64_small; lia). rewrite E4.
      apply G; [|lia|].
      + unfold csub. destruct (Z.leb_spec (4 * q) x); [|lia].
        assert (wsub x (4 * q) = x - 4 * q) by (apply w64_small; lia). lia.
      + unfold csub. destruct (Z.leb_spec (4 * q) x); [|reflexivity].
        assert (E : wsub x (4 * q) = x - 4 * q) by (apply w64_small; lia).
        rewrite E. apply (eqm_intro _ _ _ (-4)). ring.
    - apply G; [lia|lia|reflexivity].
  Qed.

  Lemma invbutterfly_spec x y F w :
    6 * q <= W -> 0 <= x < 2 * q -> 0 <= y < 2 * q -> 0 <= F < q -> eqm q F (w * W) ->
    let (X, Y) := invbutterfly x y F q qInv in
    0 <= X < 2 * q /\ 0 <= Y < 2 * q /\ eqm q X (x + y) /\ eqm q Y (w * (x - y)).
  Proof.
    intros HqW Hx Hy HF Ew. unfold invbutterfly, wshl.
    assert (E2 : w64 (q * 2 ^ 1) = 2 * q) by (rewrite w64_small; lia).
    assert (E4 : w64 (q * 2 ^ 2) = 4 * q) by (rewrite w64_small; lia).
    rewrite E2, E4.
    assert (A1 : wadd x y = x + y) by (apply w64_small; lia).
    assert (A2 : wadd x (4 * q) = x + 4 * q) by (apply w64_small; lia).
    rewrite A1, A2.
    assert (A3 : wsub (x + 4 * q) y = x + 4 * q - y) by (apply w64_small; lia).
    rewrite A3.
    assert (Hp : (x + 4 * q - y) * F < q * W) by nia.
    split; [apply csub_range; lia|].
    split; [pose proof (MRedConstant_range (x + 4 * q - y) F q qInv ltac:(lia) ltac:(lia) Hinv ltac:(lia) ltac:(lia) Hp); lia|].
    split.
    - unfold csub. destruct (Z.leb_spec (2 * q) (x + y)); [|reflexivity].
      assert (E : wsub (x + y) (2 * q) = x + y - 2 * q) by (apply w64_small; lia).
      rewrite E. apply (eqm_intro _ _ _ (-2)). ring.
    - apply odd_cancel_W; [lia|exact Hodd|].
      rewrite MRedConstant_eqm by (try lia; try assumption). rewrite Ew.
      apply (eqm_intro _ _ _ (4 * w * W)). ring.
  Qed.

  (** ** One round *)
  Lemma ntt_layer_spec reduce B psis t xs (w : nat -> Z) :
    2 * q <= W -> (reduce = true -> 4 * q < W) -> 0 <= B <= W -> next_bound reduce B <= W ->
    length xs = (length psis * (2 * t))%nat -> below B xs ->
    (forall i, (i < length psis)%nat -> 0 <= nth i psis 0 < q /\ eqm q (nth i psis 0) (w i * W)) ->
    let ys := ntt_layer reduce psis t q qInv xs in
    length ys = length xs /\ below (next_bound reduce B) ys /\
    (forall i j, (i < length psis)%nat -> (j < t)%nat ->
       eqm q (nth (i * (2 * t) + j) ys 0)
         (nth (i * (2 * t) + j) xs 0 + w i * nth (i * (2 * t) + t + j) xs 0) /\
       eqm q (nth (i * (2 * t) + t + j) ys 0)
         (nth (i * (2 * t) + j) xs 0 - w i * nth (i * (2 * t) + t + j) xs 0)).
  Proof.
    intros HqW H4 HB HN Hlen Hbel Hpsi. cbv zeta. rewrite ntt_layer_glayer.
    set (bf := fun F x y => butterfly reduce x y F q qInv).
    assert (Hl := glayer_length bf psis t xs Hlen).
    assert (P : forall i j, (i < length psis)%nat -> (j < t)%nat ->
      let X := nth (i * (2 * t) + j) (glayer bf psis t xs) 0 in
      let Y := nth (i * (2 * t) + t + j) (glayer bf psis t xs) 0 in
      0 <= X < next_bound reduce B /\ 0 <= Y < next_bound reduce B /\
      eqm q X (nth (i * (2 * t) + j) xs 0 + w i * nth (i * (2 * t) + t + j) xs 0) /\
      eqm q Y (nth (i * (2 * t) + j) xs 0 - w i * nth (i * (2 * t) + t + j) xs 0)).
    { intros i j Hi Hj. cbv zeta.
      destruct (glayer_nth bf psis t xs i j Hlen Hi Hj) as [E1 E2]. rewrite E1, E2.
      destruct (Hpsi i Hi) as [HF EF].
      assert (Hx : 0 <= nth (i * (2 * t) + j) xs 0 < B) by (apply below_nth; [assumption|nia]).
      assert (Hy : 0 <= nth (i * (2 * t) + t + j) xs 0 < B) by (apply below_nth; [assumption|nia]).
      pose proof (butterfly_spec reduce B _ _ _ (w i) HqW H4 HB HN Hx Hy HF EF) as S.
      unfold bf. destruct (butterfly _ _ _ _ _ _) as [X Y]. exact S. }
    split; [exact Hl|]. split.
    - apply below_intro. intros n Hn. rewrite Hl, Hlen in Hn.
      destruct (block_index _ _ _ Hn) as (i & j & Hi & Hj & [-> | ->]); apply (P i j Hi Hj).
    - intros i j Hi Hj. apply (P i j Hi Hj).
  Qed.

  Lemma inv_layer_spec psis t xs (w : nat -> Z) :
    6 * q <= W ->
    length xs = (length psis * (2 * t))%nat -> below (2 * q) xs ->
    (forall i, (i < length psis)%nat -> 0 <= nth i psis 0 < q /\ eqm q (nth i psis 0) (w i * W)) ->
    let ys := inv_layer psis t q qInv xs in
    length ys = length xs /\ below (2 * q) ys /\
    (forall i j, (i < length psis)%nat -> (j < t)%nat ->
       eqm q (nth (i * (2 * t) + j) ys 0)
         (nth (i * (2 * t) + j) xs 0 + nth (i * (2 * t) + t + j) xs 0) /\
       eqm q (nth (i * (2 * t) + t + j) ys 0)
         (w i * (nth (i * (2 * t) + j) xs 0 - nth (i * (2 * t) + t + j) xs 0))).
  Proof.
    intros HqW Hlen Hbel Hpsi. cbv zeta. rewrite inv_layer_glayer.
    set (bf := fun F x y => invbutterfly x y F q qInv).
    assert (Hl := glayer_length bf psis t xs Hlen).
    assert (P : forall i j, (i < length psis)%nat -> (j < t)%nat ->
      let X := nth (i * (2 * t) + j) (glayer bf psis t xs) 0 in
      let Y := nth (i * (2 * t) + t + j) (glayer bf psis t xs) 0 in
      0 <= X < 2 * q /\ 0 <= Y < 2 * q /\
      eqm q X (nth (i * (2 * t) + j) xs 0 + nth (i * (2 * t) + t + j) xs 0) /\
      eqm q Y (w i * (nth (i * (2 * t) + j) xs 0 - nth (i * (2 * t) + t + j) xs 0))).
    { intros i j Hi Hj. cbv zeta.
      destruct (glayer_nth bf psis t xs i j Hlen Hi Hj) as [E1 E2]. rewrite E1, E2.
      destruct (Hpsi i Hi) as [HF EF].
      assert (Hx : 0 <= nth (i * (2 * t) + j) xs 0 < 2 * q) by (apply below_nth; [assumption|nia]).
      assert (Hy : 0 <= nth (i * (2 * t) + t + j) xs 0 < 2 * q) by (apply below_nth; [assumption|nia]).
      pose proof (invbutterfly_spec _ _ _ (w i) HqW Hx Hy HF EF) as S.
      unfold bf. destruct (invbutterfly _ _ _ _ _) as [X Y]. exact S. }
    split; [exact Hl|]. split.
    - apply below_intro. intros n Hn. rewrite Hl, Hlen in Hn.
      destruct (block_index _ _ _ Hn) as (i & j & Hi & Hj & [-> | ->]); apply (P i j Hi Hj).
    - intros i j Hi Hj. apply (P i j Hi Hj).
  Qed.
End Modulus.

(** ** The decimation-in-time invariant *)
Lemma Len64_pow2 s : Len64 (Z.of_nat (2 ^ s)) = Z.of_nat s + 1.
Proof.
  rewrite two_pow_nat. unfold Len64. pose proof (pow2_pos s).
  destruct (Z.eqb_spec (2 ^ Z.of_nat s) 0); [lia|]. rewrite Z.log2_pow2 by lia. reflexivity.
Qed.

Lemma pow2n_pos s : (1 <= 2 ^ s)%nat.
Proof. induction s; cbn [Nat.pow]; lia. Qed.

Section Evaluation.
  Variables (q psi : Z) (L : nat).

  (** After s rounds, with k = L - s left: the exponent of the point of block i. *)
  Definition zexp (k s i : nat) : Z := 2 ^ Z.of_nat k * (1 + 2 * rev_bits s (Z.of_nat i)).
  Definition Rsum (f : poly) (k s i j : nat) : Z :=
    bigsum (2 ^ s) (fun l => f (j + l * 2 ^ k)%nat * (psi ^ zexp k s i) ^ Z.of_nat l).
  Definition twid (k s i : nat) : Z := psi ^ zexp k s i.

  Lemma zexp_nonneg k s i : 0 <= zexp k s i.
  Proof. unfold zexp. pose proof (pow2_pos k). pose proof (rev_bits_range s (Z.of_nat i)). nia. Qed.

  Lemma rev_bits_even s i : rev_bits (S s) (Z.of_nat (2 * i)) = rev_bits s (Z.of_nat i).
  Proof.
    cbn [rev_bits]. replace (Z.of_nat (2 * i)) with (Z.of_nat i * 2) by lia.
    rewrite Z.mod_mul, Z.div_mul by lia. lia.
  Qed.
  Lemma rev_bits_odd s i : rev_bits (S s) (Z.of_nat (2 * i + 1)) = 2 ^ Z.of_nat s + rev_bits s (Z.of_nat i).
  Proof.
    cbn [rev_bits]. replace (Z.of_nat (2 * i + 1)) with (1 + Z.of_nat i * 2) by lia.
    rewrite Z.mod_add, Z.div_add by lia. change (1 mod 2) with 1. change (1 / 2) with 0.
    rewrite Z.add_0_l. lia.
  Qed.

  Lemma zexp_even k s i : zexp k (S s) (2 * i) = zexp k s i.
  Proof. unfold zexp. rewrite rev_bits_even. reflexivity. Qed.
  Lemma zexp_odd k s i : (S (s + k) = L)%nat -> zexp k (S s) (2 * i + 1) = zexp k s i + 2 ^ Z.of_nat L.
  Proof.
    intros E. unfold zexp. rewrite rev_bits_odd.
    replace (Z.of_nat L) with (Z.of_nat k + 1 + Z.of_nat s) by lia.
    rewrite !Z.pow_add_r by lia. change (2 ^ 1) with 2. ring.
  Qed.
  Lemma zexp_S k s i : zexp (S k) s i = 2 * zexp k s i.
  Proof. unfold zexp. rewrite pow2_S. ring. Qed.

  Lemma Rsum_0 f k j i : Rsum f k 0 i j = f j.
  Proof.
    unfold Rsum. cbn [Nat.pow bigsum Nat.mul]. rewrite Nat.add_0_r. change (Z.of_nat 0) with 0.
    rewrite Z.pow_0_r. ring.
  Qed.

  Lemma Rsum_gen f k s i i' j w :
    eqm q (psi ^ zexp k (S s) i') w -> eqm q (w * w) (psi ^ zexp (S k) s i) ->
    eqm q (Rsum f k (S s) i' j)
      (Rsum f (S k) s i j + w * Rsum f (S k) s i (j + 2 ^ k)).
  Proof.
    intros Ew Ez. unfold Rsum. replace (2 ^ S s)%nat with (2 * 2 ^ s)%nat by (cbn; lia).
    rewrite bigsum_double. rewrite <- bigsum_scale.
    assert (A : forall l, eqm q (w ^ (2 * Z.of_nat l)) ((psi ^ zexp (S k) s i) ^ Z.of_nat l)).
    { intros l. rewrite Z.pow_mul_r by lia. apply eqm_pow. rewrite Z.pow_2_r. exact Ez. }
    assert (B : forall l, eqm q ((psi ^ zexp k (S s) i') ^ Z.of_nat l) (w ^ Z.of_nat l)) by (intros; apply eqm_pow; assumption).
    assert (P : forall l, (j + 2 * l * 2 ^ k = j + l * 2 ^ S k)%nat) by (intros; cbn [Nat.pow]; lia).
    assert (P' : forall l, (j + (2 * l + 1) * 2 ^ k = j + 2 ^ k + l * 2 ^ S k)%nat) by (intros; cbn [Nat.pow]; lia).
    apply eqm_add.
    - apply bigsum_eqm. intros l Hl. rewrite B, P.
      replace (Z.of_nat (2 * l)) with (2 * Z.of_nat l) by lia. rewrite A. reflexivity.
    - apply bigsum_eqm. intros l Hl. rewrite B, P'.
      replace (Z.of_nat (2 * l + 1)) with (2 * Z.of_nat l + 1) by lia.
      rewrite Z.pow_add_r by (clear; lia). rewrite Z.pow_1_r, A. apply eqm_eq. ring.
  Qed.

  Lemma Rsum_even f k s i j : 
    eqm q (Rsum f k (S s) (2 * i) j)
      (Rsum f (S k) s i j + twid k s i * Rsum f (S k) s i (j + 2 ^ k)).
  Proof.
    apply Rsum_gen.
    - rewrite zexp_even. reflexivity.
    - apply eqm_eq. unfold twid. rewrite zexp_S. rewrite <- Z.pow_add_r by apply zexp_nonneg.
      f_equal. lia.
  Qed.
  Lemma Rsum_odd f k s i j : eqm q (psi ^ 2 ^ Z.of_nat L) (-1) -> (S (s + k) = L)%nat ->
    eqm q (Rsum f k (S s) (2 * i + 1) j)
      (Rsum f (S k) s i j - twid k s i * Rsum f (S k) s i (j + 2 ^ k)).
  Proof.
    intros Hpsi E. rewrite (Rsum_gen f k s i (2 * i + 1) j (- twid k s i)).
    - apply eqm_eq. ring.
    - rewrite zexp_odd by exact E. rewrite Z.pow_add_r by (try apply zexp_nonneg; apply Z.pow_nonneg; lia).
      rewrite Hpsi. apply eqm_eq. unfold twid. ring.
    - apply eqm_eq. rewrite zexp_S. replace (2 * zexp k s i) with (zexp k s i + zexp k s i) by lia.
      rewrite Z.pow_add_r by apply zexp_nonneg. unfold twid. ring.
  Qed.

  Lemma Rsum_final f i : Rsum f 0 L i 0 = peval (2 ^ L) f (psi ^ (2 * rev_bits L (Z.of_nat i) + 1)).
  Proof.
    unfold Rsum, peval. apply bigsum_ext. intros l Hl.
    replace (0 + l * 2 ^ 0)%nat with l by (cbn [Nat.pow]; lia).
    do 3 f_equal. unfold zexp. change (2 ^ Z.of_nat 0) with 1. lia.
  Qed.

  Lemma Rsum_scale f g c k s i j : (s + k = L)%nat -> (j < 2 ^ k)%nat ->
    (forall n, (n < 2 ^ L)%nat -> eqm q (f n) (c * g n)) ->
    eqm q (Rsum f k s i j) (c * Rsum g k s i j).
  Proof.
    intros E Hj H. unfold Rsum. rewrite <- bigsum_scale. apply bigsum_eqm. intros l Hl.
    rewrite H.
    - apply eqm_eq. ring.
    - rewrite <- E, Nat.pow_add_r. nia.
  Qed.

  (** The entry of the table used by block i of the round with s rounds done. *)
  Lemma table_exp k s i : (S (s + k) = L)%nat -> (i < 2 ^ s)%nat ->
    rev_bits L (Z.of_nat (2 ^ s + i)) = zexp k s i.
  Proof.
    intros E Hi. rewrite <- E. replace (S (s + k)) with (s + S k)%nat by lia.
    rewrite rev_bits_split by lia. unfold zexp.
    assert (Hi' : Z.of_nat i < 2 ^ Z.of_nat s) by (rewrite <- two_pow_nat; lia).
    pose proof (pow2_pos s).
    rewrite Nat2Z.inj_add, two_pow_nat.
    assert (D : (2 ^ Z.of_nat s + Z.of_nat i) / 2 ^ Z.of_nat s = 1).
    { replace (2 ^ Z.of_nat s + Z.of_nat i) with (Z.of_nat i + 1 * 2 ^ Z.of_nat s) by ring.
      rewrite Z.div_add by lia. rewrite Z.div_small by lia. reflexivity. }
    rewrite D. 
    assert (R1 : rev_bits (S k) 1 = 2 ^ Z.of_nat k).
    { cbn [rev_bits]. change (1 / 2) with 0. change (1 mod 2) with 1. rewrite rev_bits_0. lia. }
    rewrite R1, pow2_S.
    assert (RS : forall n x y, 0 <= x -> 0 <= y -> rev_bits n (y * 2 ^ Z.of_nat n + x) = rev_bits n x).
    { clear. induction n as [|n IH]; intros x y Hx Hy; [reflexivity|]. cbn [rev_bits].
      rewrite pow2_S. replace (y * (2 * 2 ^ Z.of_nat n) + x) with (x + (y * 2 ^ Z.of_nat n) * 2) by ring.
      rewrite Z.mod_add, Z.div_add by lia.
      rewrite (Z.add_comm (x / 2)), IH by (try lia; apply Z.div_pos; lia). reflexivity. }
    replace (2 ^ Z.of_nat s + Z.of_nat i) with (1 * 2 ^ Z.of_nat s + Z.of_nat i) by ring.
    rewrite RS by lia. ring.
  Qed.
End Evaluation.

Lemma firstn_skipn_len {A} m (l : list A) : (2 * m <= length l)%nat -> length (firstn m (skipn m l)) = m.
Proof. intros. rewrite firstn_length, skipn_length. lia. Qed.
Lemma firstn_skipn_nth {A} m (l : list A) i d : (i < m)%nat -> nth i (firstn m (skipn m l)) d = nth (m + i) l d.
Proof. intros. rewrite nth_firstn by assumption. apply nth_skipn. Qed.

(** ** The whole forward transform *)
Section Forward.
  Variables (q qInv psi : Z) (L : nat) (tbl : list Z).
  Hypothesis Hq : 2 <= q.
  Hypothesis Hodd : Z.odd q = true.
  Hypothesis Hinv : eqm W (q * qInv) 1.
  Hypothesis Hpsi : eqm q (psi ^ 2 ^ Z.of_nat L) (-1).
  Hypothesis Htlen : length tbl = (2 ^ L)%nat.
  Hypothesis Htbl : forall k, (k < 2 ^ L)%nat -> nth k tbl 0 = (psi ^ rev_bits L (Z.of_nat k) * W) mod q.

  Lemma tbl_entry k s i : (S (s + k) = L)%nat -> (i < 2 ^ s)%nat ->
    0 <= nth (2 ^ s + i) tbl 0 < q /\ eqm q (nth (2 ^ s + i) tbl 0) (twid psi k s i * W).
  Proof.
    intros E Hi.
    assert (H : (2 ^ s + i < 2 ^ L)%nat).
    { rewrite <- E. replace (S (s + k)) with (1 + s + k)%nat by lia. rewrite !Nat.pow_add_r.
      change (2 ^ 1)%nat with 2%nat. pose proof (pow2n_pos k). nia. }
    rewrite Htbl by exact H. split; [apply Z.mod_pos_bound; lia|].
    rewrite eqm_mod. rewrite (table_exp L k s i E Hi). reflexivity.
  Qed.

  Definition round_bound (B : Z) (s : nat) : Z :=
    match s with O => B | _ => if Nat.even s then B + 4 * q else B + 2 * q end.

  Lemma ntt_rounds_spec B f k : forall s xs, (s + k = L)%nat -> (2 <= L)%nat ->
    4 * q <= B -> B + 4 * q <= W ->
    length xs = (2 ^ L)%nat -> below (match k with O => B + 2 * q | _ => round_bound B s end) xs ->
    (forall i j, (i < 2 ^ s)%nat -> (j < 2 ^ k)%nat ->
       eqm q (nth (i * 2 ^ k + j) xs 0) (Rsum psi f k s i j)) ->
    let ys := ntt_rounds k (2 ^ s) tbl q qInv xs in
    length ys = (2 ^ L)%nat /\ below (B + 2 * q) ys /\
    (forall i, (i < 2 ^ L)%nat -> eqm q (nth i ys 0) (Rsum psi f 0 L i 0)).
  Proof.
    induction k as [|k IH]; intros s xs E HL HB4 HB Hlen Hbel Hval; cbv zeta.
    - cbn [ntt_rounds]. split; [exact Hlen|]. split; [exact Hbel|]. intros i Hi.
      assert (s = L) by lia. subst s. specialize (Hval i O Hi ltac:(cbn; lia)).
      replace (i * 2 ^ 0 + 0)%nat with i in Hval by (cbn [Nat.pow]; lia). exact Hval.
    - cbn [ntt_rounds]. 
      assert (E' : (S (s + k) = L)%nat) by lia.
      assert (EL : (2 ^ L = 2 ^ s * (2 * 2 ^ k))%nat).
      { rewrite <- E, Nat.pow_add_r. cbn [Nat.pow]. lia. }
      pose proof (pow2n_pos s) as Ps. pose proof (pow2n_pos k) as Pk.
      set (psis := firstn (2 ^ s) (skipn (2 ^ s) tbl)).
      assert (Lp : length psis = (2 ^ s)%nat) by (apply firstn_skipn_len; nia).
      set (red := reduce_flag (2 ^ s) (2 ^ k)).
      assert (Hrb : 0 <= round_bound B s <= W).
      { unfold round_bound. destruct s; [lia|]. destruct (Nat.even (S s)); lia. }
      assert (Hred : red = match s with O => false | _ => match k with O => true | _ => Nat.even s end end).
      { unfold red, reduce_flag. destruct s as [|s]; [reflexivity|].
        assert (H2 : (2 <= 2 ^ S s)%nat) by (cbn [Nat.pow]; pose proof (pow2n_pos s); lia).
        destruct (Nat.eqb_spec (2 ^ S s) 1); [lia|].
        destruct k as [|k]; [reflexivity|].
        assert (H3 : (2 <= 2 ^ S k)%nat) by (cbn [Nat.pow]; pose proof (pow2n_pos k); lia).
        destruct (Nat.eqb_spec (2 ^ S k) 1); [lia|].
        rewrite Len64_pow2. rewrite Z.add_1_r, Z.odd_succ.
        rewrite <- Nat2Z.inj_succ || idtac.
        clear. generalize (S s). clear. intros n. 
        destruct (Nat.Even_or_Odd n) as [[m ->]|[m ->]].
        - rewrite Nat.even_mul. cbn [Nat.even orb]. rewrite Nat2Z.inj_mul. rewrite Z.even_mul. reflexivity.
        - rewrite Nat.even_add, Nat.even_mul. rewrite Nat2Z.inj_add, Nat2Z.inj_mul, Z.even_add, Z.even_mul. reflexivity. }
      assert (Hnext : next_bound q red (round_bound B s) <=
                      match k with O => B + 2 * q | _ => round_bound B (S s) end).
      { unfold next_bound, round_bound. rewrite Hred. destruct s as [|s].
        - destruct k; [lia|]. cbn [Nat.even]. lia.
        - destruct k as [|k].
          + destruct (Nat.even (S s)); lia.
          + rewrite (Nat.even_succ (S s)). rewrite <- (Nat.negb_even (S s)).
            destruct (Nat.even (S s)); cbn [negb]; lia. }
      assert (HnW : next_bound q red (round_bound B s) <= W).
      { destruct k; [lia|]. unfold round_bound in Hnext at 2. destruct (Nat.even (S s)); lia. }
      destruct (ntt_layer_spec q qInv Hq Hodd Hinv red (round_bound B s) psis (2 ^ k) xs (twid psi k s))
        as (Hl & Hb & Hv); try lia.
      + exact Hbel.
      + intros i Hi. rewrite Lp in Hi. unfold psis. rewrite firstn_skipn_nth by exact Hi.
        apply tbl_entry; assumption.
      + replace (2 * 2 ^ s)%nat with (2 ^ S s)%nat by (cbn [Nat.pow]; lia).
        apply IH; try lia.
        * apply (below_weaken _ _ _ Hnext). exact Hb.
        * rewrite Lp in Hv. intros i j Hi Hj.
          assert (Hi2 : (i / 2 < 2 ^ s)%nat).
          { apply Nat.div_lt_upper_bound; [lia|]. cbn [Nat.pow] in Hi. lia. }
          destruct (Hv (i / 2)%nat j Hi2 Hj) as [V1 V2].
          assert (A1 := Hval (i / 2)%nat j Hi2 ltac:(cbn [Nat.pow]; lia)).
          assert (A2 := Hval (i / 2)%nat (j + 2 ^ k)%nat Hi2 ltac:(cbn [Nat.pow]; lia)).
          replace (2 ^ S k)%nat with (2 * 2 ^ k)%nat in A1, A2 by (cbn [Nat.pow]; lia).
          replace (i / 2 * (2 * 2 ^ k) + (j + 2 ^ k))%nat with (i / 2 * (2 * 2 ^ k) + 2 ^ k + j)%nat in A2 by lia.
          pose proof (Nat.div_mod i 2 ltac:(lia)) as D.
          pose proof (Nat.mod_upper_bound i 2 ltac:(lia)) as M.
          assert (Hc : (i = 2 * (i / 2) \/ i = 2 * (i / 2) + 1)%nat) by lia.
          clear D M. set (i2 := (i / 2)%nat) in *. clearbody i2. destruct Hc as [-> | ->].
          -- rewrite Rsum_even.
             replace (2 * i2 * 2 ^ k + j)%nat with (i2 * (2 * 2 ^ k) + j)%nat by lia.
             rewrite V1, A1, A2. reflexivity.
          -- rewrite (Rsum_odd q psi L) by assumption.
             replace ((2 * i2 + 1) * 2 ^ k + j)%nat with (i2 * (2 * 2 ^ k) + 2 ^ k + j)%nat by lia.
             rewrite V2, A1, A2. reflexivity.
  Qed.
End Forward.

(** ** The inverse transform *)
Section Inverse.
  Variables (q qInv psi psiInv : Z) (L : nat) (tbl : list Z).
  Hypothesis Hq : 2 <= q.
  Hypothesis Hq6 : 6 * q <= W.
  Hypothesis Hodd : Z.odd q = true.
  Hypothesis Hinv : eqm W (q * qInv) 1.
  Hypothesis Hpsi : eqm q (psi ^ 2 ^ Z.of_nat L) (-1).
  Hypothesis Hpi : eqm q (psi * psiInv) 1.
  Hypothesis Htlen : length tbl = (2 ^ L)%nat.
  Hypothesis Htbl : forall k, (k < 2 ^ L)%nat -> nth k tbl 0 = (psiInv ^ rev_bits L (Z.of_nat k) * W) mod q.

  Lemma twid_inv k s i : eqm q (twid psi k s i * twid psiInv k s i) 1.
  Proof.
    unfold twid. rewrite <- Z.pow_mul_l. rewrite (eqm_pow q _ _ (zexp k s i) Hpi).
    rewrite Z.pow_1_l by apply zexp_nonneg. reflexivity.
  Qed.

  (** One round of the inverse, with s rounds left after it. *)
  Lemma inv_round k s xs :
    (S (s + k) = L)%nat -> length xs = (2 ^ L)%nat -> below (2 * q) xs ->
    let ys := inv_layer (firstn (2 ^ s) (skipn (2 ^ s) tbl)) (2 ^ k) q qInv xs in
    length ys = (2 ^ L)%nat /\ below (2 * q) ys /\
    forall i j, (i < 2 ^ s)%nat -> (j < 2 ^ k)%nat ->
      let x := nth (2 * i * 2 ^ k + j) xs 0 in
      let y := nth ((2 * i + 1) * 2 ^ k + j) xs 0 in
      eqm q (nth (i * 2 ^ S k + j) ys 0) (x + y) /\
      eqm q (nth (i * 2 ^ S k + (j + 2 ^ k)) ys 0) (twid psiInv k s i * (x - y)).
  Proof.
    intros E Hlen Hbel. cbv zeta.
    assert (EL : (2 ^ L = 2 ^ s * (2 * 2 ^ k))%nat).
    { rewrite <- E. replace (S (s + k)) with (s + S k)%nat by lia. rewrite Nat.pow_add_r. cbn [Nat.pow]. lia. }
    pose proof (pow2n_pos s) as Ps. pose proof (pow2n_pos k) as Pk.
    set (psis := firstn (2 ^ s) (skipn (2 ^ s) tbl)).
    assert (Lp : length psis = (2 ^ s)%nat) by (apply firstn_skipn_len; clear - Htlen EL Pk; nia).
    destruct (inv_layer_spec q qInv Hq Hodd Hinv psis (2 ^ k) xs (twid psiInv k s)) as (Hl & Hb & Hv).
    - exact Hq6.
    - rewrite Lp, Hlen. exact EL.
    - exact Hbel.
    - intros i Hi. rewrite Lp in Hi. unfold psis. rewrite firstn_skipn_nth by exact Hi.
      apply (tbl_entry q psiInv L tbl); assumption.
    - split; [rewrite Hl; exact Hlen|]. split; [exact Hb|].
      rewrite Lp in Hv. intros i j Hi Hj. destruct (Hv i j Hi Hj) as [V1 V2].
      replace (2 * i * 2 ^ k + j)%nat with (i * (2 * 2 ^ k) + j)%nat by (clear; lia).
      replace ((2 * i + 1) * 2 ^ k + j)%nat with (i * (2 * 2 ^ k) + 2 ^ k + j)%nat by (clear; lia).
      replace (i * 2 ^ S k + (j + 2 ^ k))%nat with (i * (2 * 2 ^ k) + 2 ^ k + j)%nat by (clear; cbn [Nat.pow]; lia).
      replace (i * 2 ^ S k + j)%nat with (i * (2 * 2 ^ k) + j)%nat by (clear; cbn [Nat.pow]; lia).
      split; assumption.
  Qed.

  Lemma inv_rounds_below s : forall k xs, (s + k = L)%nat -> length xs = (2 ^ L)%nat -> below (2 * q) xs ->
    let ys := inv_rounds s (2 ^ k) tbl q qInv xs in length ys = (2 ^ L)%nat /\ below (2 * q) ys.
  Proof.
    induction s as [|s IH]; intros k xs E Hlen Hbel; cbv zeta; cbn [inv_rounds]; [split; assumption|].
    destruct (inv_round k s xs) as (Hl & Hb & _); try assumption; try lia.
    replace (2 * 2 ^ k)%nat with (2 ^ S k)%nat by (cbn [Nat.pow]; lia).
    apply IH; try assumption. lia.
  Qed.

  (** Values of f, transformed back, give 2^s times f. *)
  Lemma inv_rounds_value f s : forall k xs, (s + k = L)%nat -> length xs = (2 ^ L)%nat -> below (2 * q) xs ->
    forall c, (forall i j, (i < 2 ^ s)%nat -> (j < 2 ^ k)%nat ->
       eqm q (nth (i * 2 ^ k + j) xs 0) (c * Rsum psi f k s i j)) ->
    forall j, (j < 2 ^ L)%nat -> eqm q (nth j (inv_rounds s (2 ^ k) tbl q qInv xs) 0) (c * 2 ^ Z.of_nat s * f j).
  Proof.
    induction s as [|s IH]; intros k xs E Hlen Hbel c Hval j Hj; cbn [inv_rounds].
    - assert (k = L) by lia. subst k. specialize (Hval O j ltac:(cbn; lia) Hj).
      cbn [Nat.mul Nat.add] in Hval. rewrite Hval, Rsum_0. apply eqm_eq. change (2 ^ Z.of_nat 0) with 1. ring.
    - assert (E' : (S (s + k) = L)%nat) by lia.
      destruct (inv_round k s xs) as (Hl & Hb & Hv); try assumption.
      replace (2 * 2 ^ k)%nat with (2 ^ S k)%nat by (cbn [Nat.pow]; lia).
      rewrite (IH (S k) _ ltac:(lia) Hl Hb (2 * c)).
      + apply eqm_eq. rewrite pow2_S. ring.
      + intros i j' Hi Hj'.
        assert (C : forall jj, (jj < 2 ^ k)%nat ->
          let x := nth (2 * i * 2 ^ k + jj) xs 0 in let y := nth ((2 * i + 1) * 2 ^ k + jj) xs 0 in
          let A := Rsum psi f (S k) s i jj in let B := Rsum psi f (S k) s i (jj + 2 ^ k) in
          eqm q x (c * (A + twid psi k s i * B)) /\ eqm q y (c * (A - twid psi k s i * B))).
        { intros jj Hjj. cbv zeta.
          rewrite (Hval (2 * i)%nat jj) by (cbn [Nat.pow]; lia).
          rewrite (Hval (2 * i + 1)%nat jj) by (cbn [Nat.pow]; lia).
          rewrite Rsum_even, (Rsum_odd q psi L) by assumption. split; reflexivity. }
        destruct (Nat.lt_ge_cases j' (2 ^ k)) as [Hlt|Hge].
        * destruct (Hv i j' Hi Hlt) as [V _]. destruct (C j' Hlt) as [X Y]. cbv zeta in X, Y.
          rewrite V, X, Y. apply eqm_eq. ring.
        * assert (Hlt : (j' - 2 ^ k < 2 ^ k)%nat) by (cbn [Nat.pow] in Hj'; lia).
          destruct (Hv i (j' - 2 ^ k)%nat Hi Hlt) as [_ V]. destruct (C _ Hlt) as [X Y]. cbv zeta in X, Y.
          replace (j' - 2 ^ k + 2 ^ k)%nat with j' in * by lia.
          rewrite V, X, Y.
          match goal with |- eqm q (?v * (c * (?a + ?w * ?b) - _)) _ =>
            transitivity (2 * c * (w * v) * b); [apply eqm_eq; ring|] end.
          rewrite twid_inv. apply eqm_eq. ring.
      + exact Hj.
  Qed.

  (** Conversely the transformed-back f determines the values. *)
  Lemma inv_rounds_onto f s : forall k xs, (s + k = L)%nat -> length xs = (2 ^ L)%nat -> below (2 * q) xs ->
    (forall j, (j < 2 ^ L)%nat -> eqm q (nth j (inv_rounds s (2 ^ k) tbl q qInv xs) 0) (f j)) ->
    forall i j, (i < 2 ^ s)%nat -> (j < 2 ^ k)%nat ->
      eqm q (Rsum psi f k s i j) (2 ^ Z.of_nat s * nth (i * 2 ^ k + j) xs 0).
  Proof.
    induction s as [|s IH]; intros k xs E Hlen Hbel Hval i j Hi Hj; cbn [inv_rounds] in Hval.
    - assert (k = L) by lia. subst k. assert (i = O) by (cbn in Hi; lia). subst i.
      cbn [Nat.mul Nat.add]. rewrite Rsum_0, <- Hval by exact Hj. apply eqm_eq. change (2 ^ Z.of_nat 0) with 1. ring.
    - assert (E' : (S (s + k) = L)%nat) by lia.
      destruct (inv_round k s xs) as (Hl & Hb & Hv); try assumption.
      replace (2 * 2 ^ k)%nat with (2 ^ S k)%nat in Hval by (cbn [Nat.pow]; lia).
      specialize (IH (S k) _ ltac:(lia) Hl Hb Hval).
      assert (Hi2 : (i / 2 < 2 ^ s)%nat).
      { apply Nat.div_lt_upper_bound; [lia|]. cbn [Nat.pow] in Hi. lia. }
      destruct (Hv (i / 2)%nat j Hi2 Hj) as [V1 V2].
      assert (A1 := IH (i / 2)%nat j Hi2 ltac:(cbn [Nat.pow]; lia)).
      assert (A2 := IH (i / 2)%nat (j + 2 ^ k)%nat Hi2 ltac:(cbn [Nat.pow]; lia)).
      pose proof (Nat.div_mod i 2 ltac:(lia)) as D.
      pose proof (Nat.mod_upper_bound i 2 ltac:(lia)) as M.
      assert (Hc : (i = 2 * (i / 2) \/ i = 2 * (i / 2) + 1)%nat) by lia.
      clear D M. set (i2 := (i / 2)%nat) in *. clearbody i2.
      assert (TI := twid_inv k s i2).
      destruct Hc as [-> | ->].
      + rewrite Rsum_even, A1, A2, V1, V2, pow2_S.
        match goal with |- eqm q (?p * (?x + ?y) + ?w * (?p * (?v * _))) _ =>
          transitivity (p * (x + y) + (w * v) * (p * (x - y))); [apply eqm_eq; ring|] end.
        rewrite TI. apply eqm_eq. ring.
      + rewrite (Rsum_odd q psi L) by assumption. rewrite A1, A2, V1, V2, pow2_S.
        match goal with |- eqm q (?p * (?x + ?y) - ?w * (?p * (?v * _))) _ =>
          transitivity (p * (x + y) - (w * v) * (p * (x - y))); [apply eqm_eq; ring|] end.
        rewrite TI. apply eqm_eq. ring.
  Qed.
End Inverse.
