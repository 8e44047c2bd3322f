(** Proofs about the automorphisms and the Galois elements. *)
From Coq Require Import FinFun Permutation Znumtheory.
From Verif Require Import Word ModRed Arith ModRedProofs PolySpec PolyProofs Ring RingProofs NTT NTTProofs RingOps RNSSpec RowProofs OpsProofs Automorphism.

Lemma land_mask x n : 0 <= n -> Z.land x (2 ^ n - 1) = x mod 2 ^ n.
Proof.
  intros Hn. replace (2 ^ n - 1) with (Z.ones n) by (rewrite Z.ones_equiv; lia). apply Z.land_ones. exact Hn.
Qed.

Lemma w64_mod_pow2 x n : 0 <= n <= 64 -> w64 x mod 2 ^ n = x mod 2 ^ n.
Proof.
  intros Hn. unfold w64. symmetry. apply Zmod_div_mod.
  - apply Z.pow_pos_nonneg; lia.
  - reflexivity.
  - exists (2 ^ (64 - n)). change W with (2 ^ 64). rewrite <- Z.pow_add_r by lia. f_equal. lia.
Qed.

Lemma nth_map_seq {A} (f : nat -> A) n i d : (i < n)%nat -> nth i (map f (seq 0 n)) d = f i.
Proof.
  intros Hi. rewrite (nth_indep _ d (f O)) by (rewrite map_length, seq_length; exact Hi).
  rewrite map_nth, seq_nth by exact Hi. reflexivity.
Qed.

Lemma nth_map_any {A B} (f : A -> B) l i d d' : (i < length l)%nat -> nth i (map f l) d' = f (nth i l d).
Proof. intros Hi. rewrite (nth_indep _ d' (f d)) by (rewrite map_length; exact Hi). apply map_nth. Qed.

Lemma built_nth_root c r : 2 <= c -> built_ring c r ->
  exists L, wf_ring L L r /\ rNthRoot r = 2 ^ Z.of_nat (S L) /\
    forall i, (i < length (rmods r))%nat -> c * mq (rmod r i) <= W.
Proof.
  intros Hc (fuel & N & ms & E & HN & Hms).
  assert (H2 : forall q, In q ms -> 2 * q <= W).
  { intros q Hq. specialize (Hms q Hq). unfold W in *. nia. }
  destruct (NewRing_wf fuel N ms r HN H2 E) as (L & EN & Hw & Em).
  exists L. split; [exact Hw|]. split.
  - unfold NewRing, NewRingWithCustomNTT in E.
    destruct (_ || _); [discriminate|]. destruct (Nat.eqb _ _); [discriminate|].
    destruct (negb _); [discriminate|]. destruct (negb _); [discriminate|]. destruct (negb _); [discriminate|].
    destruct (sequence _); [|discriminate]. injection E as <-. cbn [rNthRoot]. rewrite EN.
    rewrite Nat2Z.inj_succ, Z.pow_succ_r by lia. reflexivity.
  - intros i Hi. apply Hms. rewrite <- Em. unfold moduli. apply in_map. apply nth_In. exact Hi.
Qed.

(** ** Powers of odd numbers modulo powers of two *)
Lemma odd_pow_pow2 g : Z.odd g = true -> forall j, exists m, g ^ 2 ^ Z.of_nat j = 1 + 2 ^ Z.of_nat j * m.
Proof.
  intros Hg. assert (H : forall j, exists m, g ^ 2 ^ Z.of_nat (S j) = 1 + 2 ^ Z.of_nat (S j) * m).
  { induction j as [|j [m IH]].
    - apply Z.odd_spec in Hg. destruct Hg as [k ->]. exists (2 * k * k + 2 * k). change (2 ^ Z.of_nat 1) with 2. ring.
    - exists (m + 2 ^ Z.of_nat j * m * m).
      rewrite (Nat2Z.inj_succ (S j)), (Z.pow_succ_r 2 (Z.of_nat (S j))) by lia. rewrite Z.mul_comm, Z.pow_mul_r by (try apply Z.pow_nonneg; lia).
      rewrite IH. rewrite !Nat2Z.inj_succ, !Z.pow_succ_r by lia. ring. }
  intros [|j]; [exists (g - 1); change (2 ^ Z.of_nat 0) with 1; ring|apply H].
Qed.

Lemma five_pow_pow2 : forall j, exists m, Z.odd m = true /\ 5 ^ 2 ^ Z.of_nat j = 1 + 2 ^ Z.of_nat (j + 2) * m.
Proof.
  induction j as [|j (m & Ho & IH)]; [exists 1; split; reflexivity|].
  exists (m + 2 ^ Z.of_nat (S j) * m * m). split.
  - rewrite Nat2Z.inj_succ, Z.pow_succ_r by lia. rewrite <- !Z.mul_assoc. rewrite Z.odd_add_mul_2. exact Ho.
  - replace (5 ^ 2 ^ Z.of_nat (S j)) with ((5 ^ 2 ^ Z.of_nat j) ^ 2).
    + rewrite IH. replace (2 ^ Z.of_nat (S j + 2)) with (4 * 2 ^ Z.of_nat (S j)).
      * replace (2 ^ Z.of_nat (j + 2)) with (2 * 2 ^ Z.of_nat (S j)).
        -- set (P := 2 ^ Z.of_nat (S j)). ring.
        -- rewrite <- Z.pow_succ_r by lia. f_equal. lia.
      * change 4 with (2 ^ 2). rewrite <- Z.pow_add_r by lia. f_equal. lia.
    + rewrite <- Z.pow_mul_r by (try apply Z.pow_nonneg; lia). f_equal. rewrite Nat2Z.inj_succ, Z.pow_succ_r by lia. ring.
Qed.

Lemma odd_pow g e : Z.odd g = true -> 0 <= e -> Z.odd (g ^ e) = true.
Proof.
  intros Hg He. destruct (Z.eq_dec e 0) as [->|]; [reflexivity|]. rewrite Z.odd_pow by lia. exact Hg.
Qed.

Lemma eqm_odd n a b : eqm (2 ^ Z.of_nat (S n)) a b -> Z.odd a = Z.odd b.
Proof.
  intros E. assert (P : 0 < 2 ^ Z.of_nat n) by (apply Z.pow_pos_nonneg; lia).
  apply eqm_elim in E; [|rewrite Nat2Z.inj_succ, Z.pow_succ_r by lia; lia]. destruct E as [k ->].
  rewrite Nat2Z.inj_succ, Z.pow_succ_r by lia. replace (b + k * (2 * 2 ^ Z.of_nat n)) with (b + 2 * (k * 2 ^ Z.of_nat n)) by ring.
  apply Z.odd_add_mul_2.
Qed.

Lemma odd_cancel n g a b : Z.odd g = true -> eqm (2 ^ Z.of_nat n) (g * a) (g * b) -> eqm (2 ^ Z.of_nat n) a b.
Proof.
  intros Hg. apply eqm_cancel; [pose proof (Z.pow_pos_nonneg 2 (Z.of_nat n)); lia|].
  rewrite Z.gcd_comm. apply odd_gcd_pow2; [exact Hg|lia].
Qed.

(** ** The NTT-domain index *)
Definition galpt (L : nat) (g : Z) (i : nat) : Z := (g * (2 * rev_bits L (Z.of_nat i) + 1)) mod 2 ^ Z.of_nat (S L).

Lemma galpt_odd L g i : Z.odd g = true -> Z.odd (galpt L g i) = true.
Proof.
  intros Hg. rewrite <- (eqm_odd L (g * (2 * rev_bits L (Z.of_nat i) + 1))).
  - rewrite Z.odd_mul, Hg. rewrite Z.add_comm, Z.odd_add_mul_2. reflexivity.
  - unfold galpt. rewrite eqm_mod. reflexivity.
Qed.

Lemma galpt_half L g i : Z.odd g = true -> galpt L g i = 2 * ((galpt L g i - 1) / 2) + 1 /\ 0 <= (galpt L g i - 1) / 2 < 2 ^ Z.of_nat L.
Proof.
  intros Hg. pose proof (galpt_odd L g i Hg) as Ho.
  assert (R : 0 <= galpt L g i < 2 * 2 ^ Z.of_nat L).
  { unfold galpt. rewrite <- Z.pow_succ_r, <- Nat2Z.inj_succ by lia. apply Z.mod_pos_bound. apply Z.pow_pos_nonneg; lia. }
  revert R Ho. generalize (galpt L g i). intros t R Ho. apply Z.odd_spec in Ho. destruct Ho as [k ->].
  replace (2 * k + 1 - 1) with (k * 2) by ring. rewrite Z.div_mul by lia. lia.
Qed.

Lemma index_spec c r g : 2 <= c -> built_ring c r -> Z.odd g = true ->
  exists L, wf_ring L L r /\ length (PermuteNTTIndex r g) = rN r /\
  forall i, (i < rN r)%nat -> 
    0 <= nth i (PermuteNTTIndex r g) 0 < Z.of_nat (rN r) /\
    2 * rev_bits L (nth i (PermuteNTTIndex r g) 0) + 1 = galpt L g i.
Proof.
  intros Hc Hb Hg. destruct (built_nth_root c r Hc Hb) as (L & Hw & HR & _). exists L.
  split; [exact Hw|]. pose proof (wfr_N _ _ _ Hw) as HN. pose proof (wfr_logN _ _ _ Hw) as HL.
  unfold PermuteNTTIndex. rewrite map_length, seq_length. split; [reflexivity|]. intros i Hi.
  rewrite nth_map_seq by exact Hi.
  assert (HLen : Len64 (rNthRoot r) - 2 = Z.of_nat L).
  { unfold Len64. rewrite HR. destruct (Z.eqb_spec (2 ^ Z.of_nat (S L)) 0) as [E|_]; [exfalso; revert E; apply Z.pow_nonzero; lia|].
    rewrite Z.log2_pow2 by lia. lia. }
  rewrite HLen.
  assert (Hi' : 0 <= Z.of_nat i < 2 ^ Z.of_nat L) by (rewrite <- two_pow_nat; lia).
  rewrite (BitReverse64_rev_bits L (Z.of_nat i)) by lia.
  pose proof (rev_bits_range L (Z.of_nat i)) as Hr.
  assert (HLW : 2 ^ Z.of_nat L <= 2 ^ 60) by (apply Z.pow_le_mono_r; lia).
  assert (E1 : wadd (wmul 2 (rev_bits L (Z.of_nat i))) 1 = 2 * rev_bits L (Z.of_nat i) + 1).
  { unfold wadd, wmul, w64. clear - Hr HLW. assert (W = 2 ^ 64) by reflexivity. rewrite (Z.mod_small (2 * _)) by lia. apply Z.mod_small. lia. }
  rewrite E1, HR, land_mask by lia. unfold wmul. rewrite w64_mod_pow2 by lia. fold (galpt L g i).
  destruct (galpt_half L g i Hg) as [Ht Hh].
  assert (E2 : wshr (wsub (galpt L g i) 1) 1 = (galpt L g i - 1) / 2).
  { unfold wshr, wsub, w64. assert (W = 2 ^ 64) by reflexivity. rewrite Z.mod_small; [reflexivity|].
    clear - Ht Hh HLW H. set (t := galpt L g i) in *. clearbody t. set (h := (t - 1) / 2) in *. clearbody h. lia. }
  rewrite E2. rewrite BitReverse64_rev_bits by lia.
  pose proof (rev_bits_range L ((galpt L g i - 1) / 2)) as Hr2. split.
  - rewrite HN, two_pow_nat. exact Hr2.
  - rewrite rev_bits_invol by exact Hh. symmetry. exact Ht.
Qed.

Lemma index_perm c r g : 2 <= c -> built_ring c r -> Z.odd g = true ->
  Permutation (PermuteNTTIndex r g) (map Z.of_nat (seq 0 (rN r))).
Proof.
  intros Hc Hb Hg. destruct (index_spec c r g Hc Hb Hg) as (L & Hw & Hlen & Hspec).
  pose proof (wfr_N _ _ _ Hw) as HN.
  apply NoDup_Permutation_bis.
  - apply (NoDup_nth _ 0). rewrite Hlen. intros i j Hi Hj E.
    destruct (Hspec i Hi) as [_ Si], (Hspec j Hj) as [_ Sj]. rewrite E, Sj in Si.
    assert (C : eqm (2 ^ Z.of_nat (S L)) (2 * rev_bits L (Z.of_nat i) + 1) (2 * rev_bits L (Z.of_nat j) + 1)).
    { apply (odd_cancel _ g); [exact Hg|]. unfold eqm. symmetry. exact Si. }
    unfold eqm in C. rewrite Nat2Z.inj_succ, Z.pow_succ_r in C by lia.
    pose proof (rev_bits_range L (Z.of_nat i)). pose proof (rev_bits_range L (Z.of_nat j)).
    rewrite !Z.mod_small in C by lia.
    assert (E' : rev_bits L (Z.of_nat i) = rev_bits L (Z.of_nat j)) by lia.
    apply (f_equal (rev_bits L)) in E'. rewrite !rev_bits_invol in E' by (rewrite <- two_pow_nat; lia). lia.
  - rewrite map_length, seq_length, Hlen. lia.
  - intros x Hx. apply (In_nth _ _ 0) in Hx. destruct Hx as (i & Hi & <-). rewrite Hlen in Hi.
    destruct (Hspec i Hi) as [R _]. apply in_map_iff. exists (Z.to_nat (nth i (PermuteNTTIndex r g) 0)).
    split; [lia|]. apply in_seq. lia.
Qed.

Lemma values_pauto L m g X i j : wf_modp L m -> 0 <= g -> Z.odd g = true ->
  2 * rev_bits L (Z.of_nat j) + 1 = galpt L g i ->
  eqm (mq m) (values m L (pauto (2 ^ L) (Z.to_nat g) X) i) (values m L X j).
Proof.
  intros Hw Hg0 Hg E. unfold values. rewrite peval_pauto; [|pose proof (pow2n_pos L); lia|apply pt_root; exact Hw].
  unfold peval. apply bigsum_eqm. intros k Hk. apply eqm_mul; [reflexivity|]. apply eqm_pow. clear k Hk. rewrite !pt_rev, E, Z2Nat.id by exact Hg0.
  pose proof (rev_bits_range L (Z.of_nat i)) as Hr.
  rewrite <- Z.pow_mul_r by lia. unfold galpt. set (e := 2 * rev_bits L (Z.of_nat i) + 1) in *.
  rewrite (Z.mul_comm g e).
  pose proof (Z.div_mod (e * g) (2 ^ Z.of_nat (S L))) as D. pose proof (Z.pow_pos_nonneg 2 (Z.of_nat (S L))) as P.
  pose proof (Z.mod_pos_bound (e * g) (2 ^ Z.of_nat (S L))) as M.
  assert (Q : 0 <= e * g / 2 ^ Z.of_nat (S L)) by (apply Z.div_pos; [apply Z.mul_nonneg_nonneg; lia|lia]).
  revert D P M Q. generalize (e * g / 2 ^ Z.of_nat (S L)). generalize (e * g mod 2 ^ Z.of_nat (S L)). intros rr d D P M Q.
  rewrite D by lia. rewrite Z.pow_add_r, Z.pow_mul_r by lia.
  assert (U : eqm (mq m) (psi_of m ^ 2 ^ Z.of_nat (S L)) 1).
  { rewrite Nat2Z.inj_succ, Z.pow_succ_r by lia. rewrite Z.mul_comm, Z.pow_mul_r by (try apply Z.pow_nonneg; lia).
    etransitivity; [apply (eqm_pow _ _ _ 2 (wf_psi L m Hw))|]. reflexivity. }
  etransitivity; [apply eqm_mul; [apply (eqm_pow _ _ _ d U)|reflexivity]|]. rewrite Z.pow_1_l by exact Q. apply eqm_eq. ring.
Qed.

Lemma permute_ntt_index c r L level B p out g X : 2 <= c -> built_ring c r -> rN r = (2 ^ L)%nat -> 0 <= g -> Z.odd g = true ->
  rns_ntt r L level B p X ->
  rns_ntt r L level B (PermuteNTTLvl r level p g out) (pauto (rN r) (Z.to_nat g) X).
Proof.
  intros Hc Hb HNL Hg0 Hg (H1 & H2 & H3). destruct (index_spec c r g Hc Hb Hg) as (L' & Hw & Hlen & Hspec).
  assert (L' = L) by (pose proof (wfr_N _ _ _ Hw); apply (Nat.pow_inj_r 2); lia). subst L'.
  split; [exact H1|]. unfold PermuteNTTLvl, PermuteNTTWithIndexLvl. split; [rewrite lvl_length; lia|]. intros i Hi.
  rewrite lvl_nth_lt by lia. destruct (H3 i Hi) as [Hl Hk].
  assert (Hm : wf_modp L (rmod r i)) by (apply (wf_ring_mod L L); [exact Hw|lia]).
  split; [rewrite map_length, Hlen; exact HNL|]. intros k Hk'. rewrite <- HNL in Hk'.
  rewrite (nth_map_any _ _ _ 0) by lia.
  destruct (Hspec k Hk') as [R E]. unfold prow. set (x := nth k (PermuteNTTIndex r g) 0) in *. clearbody x.
  destruct (Hk (Z.to_nat x)) as [Bx Ex]; [lia|]. split; [exact Bx|]. rewrite Ex. symmetry. rewrite HNL.
  apply values_pauto; try assumption. rewrite Z2Nat.id by lia. exact E.
Qed.

Lemma permute_ntt_add c r L level B B' p out g X Y : 2 <= c -> built_ring c r -> rN r = (2 ^ L)%nat -> 0 <= g -> Z.odd g = true ->
  (forall i, (i <= level)%nat -> B (mq (rmod r i)) + B' (mq (rmod r i)) <= W + 1) ->
  rns_ntt r L level B p X -> rns_ntt r L level B' out Y ->
  rns_ntt r L level (fun q => B q + B' q) (PermuteNTTWithIndexAndAddNoModLvl r level p (PermuteNTTIndex r g) out)
    (padd Y (pauto (rN r) (Z.to_nat g) X)).
Proof.
  intros Hc Hb HNL Hg0 Hg HW (H1 & H2 & H3) (_ & H2' & H3'). destruct (index_spec c r g Hc Hb Hg) as (L' & Hw & Hlen & Hspec).
  assert (L' = L) by (pose proof (wfr_N _ _ _ Hw); apply (Nat.pow_inj_r 2); lia). subst L'.
  split; [exact H1|]. unfold PermuteNTTWithIndexAndAddNoModLvl. split; [rewrite lvl_length; lia|]. intros i Hi.
  rewrite lvl_nth_lt by lia. destruct (H3 i Hi) as [Hl Hk]. destruct (H3' i Hi) as [Hl' Hk2]. specialize (HW i Hi).
  assert (Hm : wf_modp L (rmod r i)) by (apply (wf_ring_mod L L); [exact Hw|lia]).
  unfold prow at 2. split; [rewrite map2_length, Hlen, Hl'; lia|]. intros k Hk'.
  rewrite (nth_map2 _ _ _ _ _ 0 0) by lia.
  destruct (Hspec k) as [R E]; [lia|]. unfold prow. set (x := nth k (PermuteNTTIndex r g) 0) in *. clearbody x.
  destruct (Hk (Z.to_nat x)) as [Bx Ex]; [lia|]. destruct (Hk2 k Hk') as [Bo Eo].
  set (u := nth k (nth i out []) 0) in *. set (v := nth (Z.to_nat x) (nth i p []) 0) in *. clearbody u v.
  assert (EW : wadd u v = u + v) by (unfold wadd, w64; apply Z.mod_small; lia). rewrite EW. split; [lia|].
  rewrite Eo, Ex. rewrite values_add. apply eqm_add; [reflexivity|]. symmetry. rewrite HNL.
  apply values_pauto; try assumption. rewrite Z2Nat.id by lia. exact E.
Qed.

(** ** The coefficient-domain permutation *)
Lemma upd_length l i v : length (upd l i v) = length l.
Proof. revert i. induction l as [|x l IH]; intros [|i]; cbn; auto. Qed.
Lemma upd_nth_eq l i v d : (i < length l)%nat -> nth i (upd l i v) d = v.
Proof. revert i. induction l as [|x l IH]; intros [|i] H; cbn in *; try lia. apply IH. lia. Qed.
Lemma upd_nth_neq l i j v d : i <> j -> nth j (upd l i v) d = nth j l d.
Proof. revert i j. induction l as [|x l IH]; intros [|i] [|j] H; cbn in *; try lia; auto. Qed.

Lemma fold_upd_length (f : nat -> nat) (v : nat -> Z) n : forall out,
  length (fold_left (fun o i => upd o (f i) (v i)) (seq 0 n) out) = length out.
Proof.
  induction n as [|n IH]; intros out; [reflexivity|]. rewrite seq_S, fold_left_app. cbn. rewrite upd_length. apply IH.
Qed.

Lemma fold_upd_nth (f : nat -> nat) (v : nat -> Z) n out i : (i < n)%nat -> (f i < length out)%nat ->
  (forall j, (j < n)%nat -> f j = f i -> j = i) ->
  nth (f i) (fold_left (fun o i => upd o (f i) (v i)) (seq 0 n) out) 0 = v i.
Proof.
  induction n as [|n IH]; intros Hi Hl Hinj; [lia|]. rewrite seq_S, fold_left_app. cbn.
  destruct (Nat.eq_dec i n) as [->|Hne].
  - apply upd_nth_eq. rewrite fold_upd_length. exact Hl.
  - rewrite upd_nth_neq.
    + apply IH; [lia|exact Hl|]. intros j Hj. apply Hinj. lia.
    + intros E. apply Hne. symmetry. apply Hinj; [lia|exact E].
Qed.

Lemma mulmod_inj L g i j : Nat.odd g = true -> (i < 2 ^ L)%nat -> (j < 2 ^ L)%nat ->
  ((g * i) mod 2 ^ L = (g * j) mod 2 ^ L)%nat -> i = j.
Proof.
  intros Hg Hi Hj E. pose proof (pow2n_pos L).
  assert (C : eqm (2 ^ Z.of_nat L) (Z.of_nat i) (Z.of_nat j)).
  { apply (odd_cancel _ (Z.of_nat g)).
    - rewrite <- Hg. clear. apply Bool.eq_iff_eq_true. rewrite Z.odd_spec, Nat.odd_spec. split.
      + intros [k Hk]. exists (Z.to_nat k). lia.
      + intros [k Hk]. exists (Z.of_nat k). lia.
    - unfold eqm. rewrite <- two_pow_nat, <- !Nat2Z.inj_mul, <- !Nat2Z.inj_mod. f_equal. exact E. }
  unfold eqm in C. rewrite <- two_pow_nat in C. rewrite !Z.mod_small in C by lia. lia.
Qed.

Lemma mulmod_surj L g k : Nat.odd g = true -> (k < 2 ^ L)%nat -> exists i, (i < 2 ^ L)%nat /\ ((g * i) mod 2 ^ L = k)%nat.
Proof.
  intros Hg Hk. pose proof (pow2n_pos L).
  assert (S : bSurjective (2 ^ L) (fun i => (g * i) mod 2 ^ L)%nat).
  { apply bInjective_bSurjective.
    - intros i Hi. apply Nat.mod_upper_bound. lia.
    - intros i j Hi Hj. apply mulmod_inj; assumption. }
  destruct (S k Hk) as (i & Hi & E). exists i. split; assumption.
Qed.

Lemma pauto_at L g X i : Nat.odd g = true -> (i < 2 ^ L)%nat ->
  pauto (2 ^ L) g X ((g * i) mod 2 ^ L)%nat = if Nat.even ((g * i) / 2 ^ L) then X i else - X i.
Proof.
  intros Hg Hi. unfold pauto. rewrite (bigsum_single _ i).
  - unfold pmono. rewrite Nat.eqb_refl. destruct (Nat.even _); ring.
  - exact Hi.
  - intros j Hj Hne. unfold pmono. destruct (Nat.eqb_spec ((g * i) mod 2 ^ L)%nat ((g * j) mod 2 ^ L)%nat) as [E|]; [|ring].
    exfalso. apply Hne. apply (mulmod_inj L g); auto.
Qed.

Lemma Nodd_Z g : 0 <= g -> Z.odd g = true -> Nat.odd (Z.to_nat g) = true.
Proof.
  intros H0 H. apply Nat.odd_spec. apply Z.odd_spec in H. destruct H as [k ->]. exists (Z.to_nat k). lia.
Qed.

Lemma permute_row_index L g i : (L <= 60)%nat -> 0 <= g -> (i < 2 ^ L)%nat ->
  Z.to_nat (Z.land (wmul (Z.of_nat i) g) (Z.of_nat (2 ^ L) - 1)) = ((Z.to_nat g * i) mod 2 ^ L)%nat /\
  Z.land (wshr (wmul (Z.of_nat i) g) (Len64 (Z.of_nat (2 ^ L) - 1))) 1 = if Nat.even ((Z.to_nat g * i) / 2 ^ L) then 0 else 1.
Proof.
  intros HL Hg Hi. pose proof (pow2n_pos L) as P. rewrite two_pow_nat. split.
  - rewrite land_mask by lia. unfold wmul. rewrite w64_mod_pow2 by lia. apply Nat2Z.inj.
    rewrite Z2Nat.id by (apply Z.mod_pos_bound; rewrite <- two_pow_nat; lia).
    rewrite Nat2Z.inj_mod, Nat2Z.inj_mul, two_pow_nat, Z2Nat.id by lia. f_equal. ring.
  - destruct L as [|L].
    + assert (i = 0)%nat by (cbn in Hi; lia). subst i. rewrite Nat.mul_0_r. reflexivity.
    + assert (HLen : Len64 (2 ^ Z.of_nat (S L) - 1) = Z.of_nat (S L)).
      { unfold Len64. assert (2 <= 2 ^ Z.of_nat (S L)) by (rewrite Nat2Z.inj_succ, Z.pow_succ_r by lia; pose proof (Z.pow_pos_nonneg 2 (Z.of_nat L)); lia).
        destruct (Z.eqb_spec (2 ^ Z.of_nat (S L) - 1) 0) as [E|_]; [lia|].
        rewrite Z.sub_1_r, Z.log2_pred_pow2 by lia. lia. }
      rewrite HLen. change 1 with (2 ^ 1 - 1) at 1. rewrite land_mask by lia. unfold wshr, wmul.
      set (x := Z.of_nat i * g). assert (Hx : x = Z.of_nat (Z.to_nat g * i)) by (unfold x; rewrite Nat2Z.inj_mul, Z2Nat.id by lia; ring).
      assert (E : (w64 x / 2 ^ Z.of_nat (S L)) mod 2 ^ 1 = (x / 2 ^ Z.of_nat (S L)) mod 2 ^ 1).
      { assert (H := w64_mod_pow2 x (Z.of_nat (S L) + 1) ltac:(lia)). rewrite Z.pow_add_r in H by lia.
        pose proof (Z.pow_pos_nonneg 2 (Z.of_nat (S L))) as P2.
        rewrite !Z.rem_mul_r in H by lia. apply (f_equal (fun z => z / 2 ^ Z.of_nat (S L))) in H.
        rewrite !(Z.mul_comm (2 ^ Z.of_nat (S L))) in H. rewrite !Z.div_add in H by lia.
        rewrite !Z.mod_div in H by lia. rewrite !Z.add_0_l in H. exact H. }
      rewrite E. rewrite Hx, <- two_pow_nat, <- Nat2Z.inj_div. generalize (Z.to_nat g * i / 2 ^ S L)%nat. intros d.
      change (2 ^ 1) with 2. rewrite Zmod_even. destruct (Nat.even d) eqn:Ed.
      * apply Nat.even_spec in Ed. destruct Ed as [e ->]. rewrite Nat2Z.inj_mul, Z.even_mul. reflexivity.
      * assert (Od : Nat.odd d = true) by (rewrite <- Nat.negb_even, Ed; reflexivity). apply Nat.odd_spec in Od. destruct Od as [e ->].
        replace (Z.of_nat (2 * e + 1)) with (1 + 2 * Z.of_nat e) by lia. rewrite Z.even_add_mul_2. reflexivity.
Qed.

Lemma permute_row_repr L g q row out X : (L <= 60)%nat -> 0 <= g -> Z.odd g = true -> q < W ->
  length out = (2 ^ L)%nat -> row_repr (2 ^ L) q (q + 1) row X ->
  row_repr (2 ^ L) q (q + 1) (permute_row (2 ^ L) q g row out) (pauto (2 ^ L) (Z.to_nat g) X).
Proof.
  intros HL Hg0 Hg HqW Hout [Hl Hk]. pose proof (Nodd_Z g Hg0 Hg) as Hgn.
  unfold permute_row.
  set (f := fun i => Z.to_nat (Z.land (wmul (Z.of_nat i) g) (Z.of_nat (2 ^ L) - 1))).
  set (v := fun i => Z.lor (wmul (nth i row 0) (Z.lxor (Z.land (wshr (wmul (Z.of_nat i) g) (Len64 (Z.of_nat (2 ^ L) - 1))) 1) 1))
                           (wmul (wsub q (nth i row 0)) (Z.land (wshr (wmul (Z.of_nat i) g) (Len64 (Z.of_nat (2 ^ L) - 1))) 1))).
  change (row_repr (2 ^ L) q (q + 1) (fold_left (fun o i => upd o (f i) (v i)) (seq 0 (2 ^ L)) out) (pauto (2 ^ L) (Z.to_nat g) X)).
  split; [rewrite fold_upd_length; exact Hout|]. intros k Hk'.
  destruct (mulmod_surj L (Z.to_nat g) k Hgn Hk') as (i & Hi & E).
  assert (Hf : forall j, (j < 2 ^ L)%nat -> f j = ((Z.to_nat g * j) mod 2 ^ L)%nat).
  { intros j Hj. apply (proj1 (permute_row_index L g j HL Hg0 Hj)). }
  assert (Ev : nth k (fold_left (fun o i => upd o (f i) (v i)) (seq 0 (2 ^ L)) out) 0 = v i).
  { rewrite <- E, <- Hf by exact Hi. apply fold_upd_nth.
    - exact Hi.
    - rewrite Hf, E, Hout by exact Hi. exact Hk'.
    - intros j Hj Ej. rewrite !Hf in Ej by assumption. apply (mulmod_inj L (Z.to_nat g)); assumption. }
  rewrite Ev. rewrite <- E, pauto_at by assumption. unfold v.
  rewrite (proj2 (permute_row_index L g i HL Hg0 Hi)). destruct (Hk i Hi) as [Hb He].
  set (x := nth i row 0) in *. clearbody x.
  assert (Wx : w64 x = x) by (apply Z.mod_small; lia).
  assert (Wq : wsub q x = q - x) by (unfold wsub, w64; apply Z.mod_small; lia).
  assert (Wq' : w64 (q - x) = q - x) by (apply Z.mod_small; lia).
  destruct (Nat.even _).
  - change (Z.lxor 0 1) with 1. unfold wmul. rewrite Z.mul_1_r, Z.mul_0_r, Wx. change (w64 0) with 0. rewrite Z.lor_0_r. split; assumption.
  - change (Z.lxor 1 1) with 0. rewrite Wq. unfold wmul. rewrite Z.mul_1_r, Z.mul_0_r, Wq'. change (w64 0) with 0. rewrite Z.lor_0_l.
    split; [lia|]. rewrite <- (eqm_opp q _ _ He). apply (eqm_intro _ _ _ 1). ring.
Qed.

(** Applied to a whole polynomial: rows up to the last modulus. *)
Lemma permute_poly c r p out g X : 2 <= c -> built_ring c r -> 0 <= g -> Z.odd g = true ->
  (forall i, (i < length (rmods r))%nat -> length (nth i out []) = rN r) ->
  rns_repr r (length (rmods r) - 1) (fun q => q + 1) p X ->
  rns_repr r (length (rmods r) - 1) (fun q => q + 1) (Permute r p g out) (pauto (rN r) (Z.to_nat g) X).
Proof.
  intros Hc Hb Hg0 Hg Hout (H1 & H2 & H3). destruct (built_nth_root c r Hc Hb) as (L & Hw & _ & HW).
  pose proof (wfr_N _ _ _ Hw) as HN. pose proof (wfr_logN _ _ _ Hw) as HL.
  split; [exact H1|]. unfold Permute. split; [rewrite lvl_length; lia|]. intros i Hi.
  rewrite lvl_nth_lt by lia. rewrite HN in *. unfold prow. apply permute_row_repr.
  - lia.
  - exact Hg0.
  - exact Hg.
  - specialize (HW i ltac:(lia)). pose proof (wf_ge L _ (wf_ring_mod L L r i Hw ltac:(lia))). unfold W in *. nia.
  - apply Hout. lia.
  - apply H3. exact Hi.
Qed.

(** ** The Galois group *)
Lemma pow2_succ n : 2 ^ Z.of_nat (S n) = 2 * 2 ^ Z.of_nat n.
Proof. rewrite Nat2Z.inj_succ, Z.pow_succ_r by lia. reflexivity. Qed.

Lemma pow_1_plus x c : 0 <= c -> eqm (x * x) ((1 + x) ^ c) (1 + c * x).
Proof.
  revert c. apply natlike_ind; [reflexivity|]. intros c Hc IH. rewrite Z.pow_succ_r by exact Hc.
  etransitivity; [apply eqm_mul; [reflexivity|exact IH]|]. apply (eqm_intro _ _ _ c). rewrite <- Z.add_1_r. ring.
Qed.

Lemma five_order n : forall d, 0 <= d -> eqm (2 ^ Z.of_nat (n + 2)) (5 ^ d) 1 -> (2 ^ Z.of_nat n | d).
Proof.
  induction n as [|n IH]; intros d Hd E; [apply Z.divide_1_l|].
  assert (P : 0 < 2 ^ Z.of_nat n) by (apply Z.pow_pos_nonneg; lia).
  assert (E2 : 2 ^ Z.of_nat (n + 2) = 4 * 2 ^ Z.of_nat n) by (replace (n + 2)%nat with (S (S n)) by lia; rewrite !pow2_succ; ring).
  assert (E3 : 2 ^ Z.of_nat (S n + 2) = 8 * 2 ^ Z.of_nat n) by (replace (S n + 2)%nat with (S (S (S n))) by lia; rewrite !pow2_succ; ring).
  destruct (IH d Hd) as [c Ec].
  { apply eqm_elim in E; [|lia]. destruct E as [k ->]. apply (eqm_intro _ _ _ (2 * k)). rewrite E2, E3. ring. }
  destruct (five_pow_pow2 n) as (m & Hm & E5).
  assert (Hc : 0 <= c) by nia.
  assert (F : eqm (8 * 2 ^ Z.of_nat n) (5 ^ d) (1 + c * (4 * 2 ^ Z.of_nat n * m))).
  { replace d with (2 ^ Z.of_nat n * c) by lia. rewrite Z.pow_mul_r by lia. rewrite E5, E2.
    pose proof (pow_1_plus (4 * 2 ^ Z.of_nat n * m) c Hc) as Q.
    destruct (Z.eq_dec (4 * 2 ^ Z.of_nat n * m) 0) as [Z0|Z0].
    - rewrite Z0. rewrite Z.add_0_r, Z.mul_0_r, Z.pow_1_l by exact Hc. reflexivity.
    - apply eqm_elim in Q; [|apply Z.neq_mul_0; split; exact Z0]. destruct Q as [k ->].
      apply (eqm_intro _ _ _ (k * (2 * 2 ^ Z.of_nat n * m * m))). ring. }
  rewrite E3 in E. rewrite F in E. apply eqm_elim in E; [|lia]. destruct E as [k Ek].
  assert (G : c * m = 2 * k) by nia.
  assert (O : Z.even c = true).
  { apply (f_equal Z.even) in G. rewrite !Z.even_mul in G. cbn in G. rewrite <- (Z.negb_odd m), Hm in G. destruct (Z.even c); auto. }
  apply Z.even_spec in O. destruct O as [c' ->]. exists c'. rewrite Ec, pow2_succ. ring.
Qed.

Lemma five_period n a b : 0 <= a -> 0 <= b ->
  (eqm (2 ^ Z.of_nat (n + 2)) (5 ^ a) (5 ^ b) <-> eqm (2 ^ Z.of_nat n) a b).
Proof.
  assert (H : forall a b, 0 <= a <= b -> (eqm (2 ^ Z.of_nat (n + 2)) (5 ^ a) (5 ^ b) <-> eqm (2 ^ Z.of_nat n) a b)).
  { clear a b. intros a b Hab. assert (P : 0 < 2 ^ Z.of_nat n) by (apply Z.pow_pos_nonneg; lia).
    replace (5 ^ b) with (5 ^ a * 5 ^ (b - a)) by (rewrite <- Z.pow_add_r by lia; f_equal; lia). split; intros E.
    - assert (D : (2 ^ Z.of_nat n | b - a)).
      { apply five_order; [lia|]. apply (odd_cancel _ (5 ^ a)); [apply odd_pow; [reflexivity|lia]|].
        rewrite <- E, Z.mul_1_r. reflexivity. }
      destruct D as [k Ek]. apply (eqm_intro _ _ _ (- k)). lia.
    - symmetry in E. apply eqm_elim in E; [|lia]. destruct E as [k Ek].
      assert (Hk : 0 <= k) by nia.
      replace (b - a) with (2 ^ Z.of_nat n * k) by lia. rewrite Z.pow_mul_r by lia.
      destruct (five_pow_pow2 n) as (m & _ & ->).
      etransitivity; [|apply eqm_mul; [reflexivity|apply (eqm_pow _ 1)]].
      + rewrite Z.pow_1_l, Z.mul_1_r by exact Hk. reflexivity.
      + apply (eqm_intro _ _ _ (- m)). ring. }
  intros Ha Hb. destruct (Z_le_gt_dec a b).
  - apply H. lia.
  - split; intros E; symmetry; symmetry in E; apply H; (lia || exact E).
Qed.

Lemma five_generates n : forall g, Z.odd g = true -> exists k, 0 <= k /\
  (eqm (2 ^ Z.of_nat (n + 2)) g (5 ^ k) \/ eqm (2 ^ Z.of_nat (n + 2)) g (- 5 ^ k)).
Proof.
  induction n as [|n IH]; intros g Hg.
  - exists 0. split; [lia|]. change (2 ^ Z.of_nat (0 + 2)) with 4. change (5 ^ 0) with 1.
    apply Z.odd_spec in Hg. destruct Hg as [k ->]. destruct (Z.Even_or_Odd k) as [[j ->] | [j ->]].
    + left. apply (eqm_intro _ _ _ j). ring.
    + right. apply (eqm_intro _ _ _ (j + 1)). ring.
  - destruct (IH g Hg) as (k & Hk & Hs).
    assert (P : 0 < 2 ^ Z.of_nat n) by (apply Z.pow_pos_nonneg; lia).
    assert (E2 : 2 ^ Z.of_nat (n + 2) = 4 * 2 ^ Z.of_nat n) by (replace (n + 2)%nat with (S (S n)) by lia; rewrite !pow2_succ; ring).
    assert (E3 : 2 ^ Z.of_nat (S n + 2) = 8 * 2 ^ Z.of_nat n) by (replace (S n + 2)%nat with (S (S (S n))) by lia; rewrite !pow2_succ; ring).
    destruct (five_pow_pow2 n) as (m & Hm & E5).
    assert (O5 : Z.odd (m * 5 ^ k) = true) by (rewrite Z.odd_mul, Hm, odd_pow; auto).
    assert (A : 5 ^ (k + 2 ^ Z.of_nat n) = 5 ^ k + 4 * 2 ^ Z.of_nat n * (m * 5 ^ k)).
    { rewrite Z.pow_add_r by lia. rewrite E5, E2. ring. }
    rewrite E2 in Hs. rewrite E3.
    assert (S : exists s, (s = 1 \/ s = -1) /\ eqm (4 * 2 ^ Z.of_nat n) g (s * 5 ^ k)).
    { destruct Hs as [Hs|Hs]; [exists 1|exists (-1)]; (split; [auto|]); rewrite Hs; apply eqm_eq; ring. }
    clear Hs. destruct S as (s & Hs & E). apply eqm_elim in E; [|lia]. destruct E as [t ->].
    destruct (Z.Even_or_Odd t) as [[j ->] | [j ->]].
    + exists k. split; [exact Hk|]. destruct Hs as [-> | ->]; [left|right]; apply (eqm_intro _ _ _ j); ring.
    + exists (k + 2 ^ Z.of_nat n). split; [lia|]. rewrite A. apply Z.odd_spec in O5. destruct O5 as [l ->].
      destruct Hs as [-> | ->]; [left; apply (eqm_intro _ _ _ (j - l)); ring|right; apply (eqm_intro _ _ _ (j + l + 1)); ring].
Qed.

Section Galois.
  Variables (c : Z) (r : Ring).
  Hypothesis Hc : 2 <= c.
  Hypothesis Hb : built_ring c r.
  Let M := 2 * Z.of_nat (rN r).
  Notation gal := (GaloisElementForColumnRotationBy r).

  Lemma gal_setup : exists n, rN r = (2 ^ (n + 1))%nat /\ (n <= 59)%nat /\ rNthRoot r = 2 ^ Z.of_nat (n + 2) /\ M = 2 ^ Z.of_nat (n + 2).
  Proof.
    destruct (built_nth_root c r Hc Hb) as (L & Hw & HR & _).
    pose proof (wfr_N _ _ _ Hw) as HN. pose proof (wfr_logN _ _ _ Hw) as HL.
    exists (L - 1)%nat. replace (L - 1 + 1)%nat with L by lia. replace (L - 1 + 2)%nat with (S L) by lia.
    repeat split; try assumption; try lia. unfold M. rewrite HN, two_pow_nat, pow2_succ. reflexivity.
  Qed.

  Lemma gal_val k : exists n, rN r = (2 ^ (n + 1))%nat /\ M = 2 ^ Z.of_nat (n + 2) /\ gal k = (5 ^ (k mod 2 ^ Z.of_nat (n + 2))) mod M.
  Proof.
    destruct gal_setup as (n & HN & Hn & HR & HM). exists n. split; [exact HN|]. split; [exact HM|].
    unfold GaloisElementForColumnRotationBy. rewrite HR, land_mask by lia. rewrite HM.
    assert (P : 0 < 2 ^ Z.of_nat n) by (apply Z.pow_pos_nonneg; lia).
    assert (E2 : 2 ^ Z.of_nat (n + 2) = 4 * 2 ^ Z.of_nat n) by (replace (n + 2)%nat with (S (S n)) by lia; rewrite !pow2_succ; ring).
    assert (U : 2 ^ Z.of_nat (n + 2) <= 2 ^ 61) by (apply Z.pow_le_mono_r; lia).
    apply ModExp_correct.
    - lia.
    - assert (2 ^ 62 <= W) by (vm_compute; discriminate). change (2 ^ 62) with (2 * 2 ^ 61) in H. lia.
    - split; [discriminate|reflexivity].
    - apply Z.mod_pos_bound. lia.
  Qed.

  Lemma gal_eqm n k e : rN r = (2 ^ (n + 1))%nat -> 0 <= e -> eqm (2 ^ Z.of_nat n) k e -> eqm M (gal k) (5 ^ e).
  Proof.
    intros HN He E. destruct (gal_val k) as (n' & HN' & HM & ->).
    assert (n' = n) by (assert (n' + 1 = n + 1)%nat by (apply (Nat.pow_inj_r 2); lia); lia). subst n'.
    rewrite eqm_mod. rewrite HM. assert (P : 0 < 2 ^ Z.of_nat n) by (apply Z.pow_pos_nonneg; lia).
    assert (E2 : 2 ^ Z.of_nat (n + 2) = 4 * 2 ^ Z.of_nat n) by (replace (n + 2)%nat with (S (S n)) by lia; rewrite !pow2_succ; ring).
    apply five_period; [apply Z.mod_pos_bound; lia|exact He|].
    rewrite <- E. rewrite E2. pose proof (Z.div_mod k (4 * 2 ^ Z.of_nat n) ltac:(lia)) as D.
    revert D. generalize (k mod (4 * 2 ^ Z.of_nat n)). intros rr D.
    apply (eqm_intro _ _ _ (- 4 * (k / (4 * 2 ^ Z.of_nat n)))). lia.
  Qed.

  Lemma gal_range k : 0 < gal k < M /\ Z.odd (gal k) = true.
  Proof.
    destruct (gal_val k) as (n & HN & HM & E).
    assert (P : 0 < 2 ^ Z.of_nat n) by (apply Z.pow_pos_nonneg; lia).
    assert (E2 : 2 ^ Z.of_nat (n + 2) = 4 * 2 ^ Z.of_nat n) by (replace (n + 2)%nat with (S (S n)) by lia; rewrite !pow2_succ; ring).
    assert (O : Z.odd (gal k) = true).
    { rewrite (eqm_odd (n + 1) (gal k) (5 ^ (k mod 2 ^ Z.of_nat (n + 2)))).
      - apply odd_pow; [reflexivity|]. apply Z.mod_pos_bound. lia.
      - replace (S (n + 1)) with (n + 2)%nat by lia. rewrite E, HM. apply eqm_mod. }
    split; [|exact O]. assert (R : 0 <= gal k < M) by (rewrite E; apply Z.mod_pos_bound; lia).
    destruct (Z.eq_dec (gal k) 0) as [Z0|]; [rewrite Z0 in O; discriminate|lia].
  Qed.

  Lemma half_N n : rN r = (2 ^ (n + 1))%nat -> Z.of_nat (rN r) / 2 = 2 ^ Z.of_nat n.
  Proof. intros ->. rewrite two_pow_nat. replace (n + 1)%nat with (S n) by lia. rewrite pow2_succ, Z.mul_comm. apply Z.div_mul. lia. Qed.

  Lemma gal_add k l : (gal k * gal l) mod M = gal (k + l).
  Proof.
    destruct gal_setup as (n & HN & Hn & HR & HM).
    assert (P : 0 < 2 ^ Z.of_nat n) by (apply Z.pow_pos_nonneg; lia).
    pose proof (gal_range (k + l)) as [R _]. rewrite <- (Z.mod_small (gal (k + l)) M) by lia.
    change (eqm M (gal k * gal l) (gal (k + l))).
    pose proof (Z.mod_pos_bound k _ P). pose proof (Z.mod_pos_bound l _ P).
    rewrite (gal_eqm n k (k mod 2 ^ Z.of_nat n)), (gal_eqm n l (l mod 2 ^ Z.of_nat n)) by (try assumption; try lia; symmetry; apply eqm_mod).
    rewrite <- Z.pow_add_r by lia. symmetry. apply (gal_eqm n); [exact HN|lia|]. symmetry.
    apply eqm_add; apply eqm_mod.
  Qed.

  Lemma gal_eq_iff k l : gal k = gal l <-> k mod (Z.of_nat (rN r) / 2) = l mod (Z.of_nat (rN r) / 2).
  Proof.
    destruct gal_setup as (n & HN & Hn & HR & HM). rewrite (half_N n HN).
    assert (P : 0 < 2 ^ Z.of_nat n) by (apply Z.pow_pos_nonneg; lia).
    pose proof (Z.mod_pos_bound k _ P). pose proof (Z.mod_pos_bound l _ P).
    pose proof (gal_range k) as [Rk _]. pose proof (gal_range l) as [Rl _].
    assert (Ek := gal_eqm n k (k mod 2 ^ Z.of_nat n) HN ltac:(lia) ltac:(symmetry; apply eqm_mod)).
    assert (El := gal_eqm n l (l mod 2 ^ Z.of_nat n) HN ltac:(lia) ltac:(symmetry; apply eqm_mod)).
    split; intros E.
    - assert (F : eqm (2 ^ Z.of_nat n) (k mod 2 ^ Z.of_nat n) (l mod 2 ^ Z.of_nat n)).
      { apply five_period; [lia|lia|]. rewrite <- HM. rewrite <- Ek, <- El, E. reflexivity. }
      rewrite !eqm_mod in F. exact F.
    - rewrite E in Ek. rewrite <- El in Ek. unfold eqm in Ek. rewrite !Z.mod_small in Ek by lia. exact Ek.
  Qed.

  Lemma gal_0 : gal 0 = 1.
  Proof.
    destruct gal_setup as (n & HN & Hn & HR & HM).
    assert (E := gal_eqm n 0 0 HN ltac:(lia) ltac:(reflexivity)). pose proof (gal_range 0) as [R O].
    change (5 ^ 0) with 1 in E. unfold eqm in E. rewrite !Z.mod_small in E by lia. exact E.
  Qed.

  Lemma inverse_odd g : 0 <= g < W -> Z.odd g = true ->
    0 < InverseGaloisElement r g < M /\ Z.odd (InverseGaloisElement r g) = true /\ (g * InverseGaloisElement r g) mod M = 1.
  Proof.
    intros Hg Ho. destruct gal_setup as (n & HN & Hn & HR & HM).
    assert (P : 0 < 2 ^ Z.of_nat n) by (apply Z.pow_pos_nonneg; lia).
    assert (E2 : 2 ^ Z.of_nat (n + 2) = 4 * 2 ^ Z.of_nat n) by (replace (n + 2)%nat with (S (S n)) by lia; rewrite !pow2_succ; ring).
    assert (U : 2 ^ Z.of_nat (n + 2) <= 2 ^ 61) by (apply Z.pow_le_mono_r; lia).
    assert (W62 : 2 * 2 ^ 61 <= W) by (vm_compute; discriminate).
    assert (E : InverseGaloisElement r g = g ^ (M - 1) mod M).
    { unfold InverseGaloisElement. rewrite HR, <- HM. apply ModExp_correct; lia. }
    assert (Oi : Z.odd (InverseGaloisElement r g) = true).
    { rewrite (eqm_odd (n + 1) _ (g ^ (M - 1))).
      - apply odd_pow; [exact Ho|lia].
      - replace (S (n + 1)) with (n + 2)%nat by lia. rewrite E, <- HM. apply eqm_mod. }
    assert (R : 0 <= InverseGaloisElement r g < M) by (rewrite E; apply Z.mod_pos_bound; lia).
    repeat split.
    - destruct (Z.eq_dec (InverseGaloisElement r g) 0) as [Z0|]; [rewrite Z0 in Oi; discriminate|lia].
    - lia.
    - exact Oi.
    - rewrite E, Z.mul_mod_idemp_r by lia. rewrite <- Z.pow_succ_r by lia. replace (Z.succ (M - 1)) with M by lia.
      rewrite HM. destruct (odd_pow_pow2 g Ho (n + 2)) as [m ->]. rewrite Z.mul_comm, Z.mod_add by lia. apply Z.mod_small. lia.
  Qed.

  Lemma inverse_gal k : InverseGaloisElement r (gal k) = gal (- k).
  Proof.
    pose proof (gal_range k) as [Rk Ok]. pose proof (gal_range (- k)) as [Rk' Ok'].
    assert (MW : M <= W).
    { destruct gal_setup as (n & HN & Hn & HR & HM). rewrite HM. change W with (2 ^ 64). apply Z.pow_le_mono_r; lia. }
    destruct (inverse_odd (gal k) ltac:(lia) Ok) as (Ri & _ & Ei).
    pose proof (gal_add k (- k)) as Ea. rewrite Z.add_opp_diag_r, gal_0 in Ea.
    assert (C : eqm M (InverseGaloisElement r (gal k)) (gal (- k))).
    { destruct gal_setup as (n & HN & Hn & HR & HM). rewrite HM. apply (odd_cancel _ (gal k)); [exact Ok|]. rewrite <- HM.
      unfold eqm. rewrite Ei, Ea. reflexivity. }
    unfold eqm in C. rewrite !Z.mod_small in C by lia. exact C.
  Qed.

  Lemma gal_generates g : 0 <= g < M -> Z.odd g = true ->
    exists k, 0 <= k < Z.of_nat (rN r) / 2 /\ (g = gal k \/ g = M - gal k).
  Proof.
    intros Hg Ho. destruct gal_setup as (n & HN & Hn & HR & HM). rewrite (half_N n HN).
    assert (P : 0 < 2 ^ Z.of_nat n) by (apply Z.pow_pos_nonneg; lia).
    destruct (five_generates n g Ho) as (k & Hk & E). exists (k mod 2 ^ Z.of_nat n).
    split; [apply Z.mod_pos_bound; exact P|]. pose proof (gal_range (k mod 2 ^ Z.of_nat n)) as [R _].
    assert (G := gal_eqm n (k mod 2 ^ Z.of_nat n) k HN Hk (eqm_mod _ _)).
    rewrite <- HM in E. destruct E as [E|E]; [left|right].
    - rewrite <- G in E. unfold eqm in E. rewrite !Z.mod_small in E by lia. exact E.
    - assert (E' : eqm M g (M - gal (k mod 2 ^ Z.of_nat n))).
      { rewrite E. rewrite <- (eqm_opp _ _ _ G). apply (eqm_intro _ _ _ (-1)). ring. }
      unfold eqm in E'. rewrite !Z.mod_small in E' by lia. exact E'.
  Qed.

  Lemma row_rotation : GaloisElementForRowRotation r = M - 1 /\ (GaloisElementForRowRotation r * GaloisElementForRowRotation r) mod M = 1 /\
    forall k, GaloisElementForRowRotation r <> gal k.
  Proof.
    destruct gal_setup as (n & HN & Hn & HR & HM).
    assert (P : 0 < 2 ^ Z.of_nat n) by (apply Z.pow_pos_nonneg; lia).
    assert (E2 : 2 ^ Z.of_nat (n + 2) = 4 * 2 ^ Z.of_nat n) by (replace (n + 2)%nat with (S (S n)) by lia; rewrite !pow2_succ; ring).
    assert (E : GaloisElementForRowRotation r = M - 1) by (unfold GaloisElementForRowRotation; rewrite HR, HM; reflexivity).
    split; [exact E|]. split.
    - rewrite E. replace ((M - 1) * (M - 1)) with (1 + (M - 2) * M) by ring. rewrite Z.mod_add by lia. apply Z.mod_small. lia.
    - intros k Ek. pose proof (Z.mod_pos_bound k _ P).
      assert (G := gal_eqm n k (k mod 2 ^ Z.of_nat n) HN ltac:(lia) ltac:(symmetry; apply eqm_mod)).
      rewrite <- Ek, E in G. rewrite HM, E2 in G. apply eqm_elim in G; [|lia]. destruct G as [j Ej].
      assert (F : eqm 4 (5 ^ (k mod 2 ^ Z.of_nat n)) 1).
      { rewrite (eqm_pow 4 5 1); [|reflexivity]. rewrite Z.pow_1_l by lia. reflexivity. }
      apply eqm_elim in F; [|lia]. destruct F as [l El]. rewrite El in Ej. lia.
  Qed.
End Galois.

Lemma galois_powers_spec n gen : (n <= 64)%nat -> forall cnt last i, (i < cnt)%nat ->
  nth i (galois_powers cnt gen (2 ^ Z.of_nat n - 1) last) 0 = (last * gen ^ Z.of_nat (S i)) mod 2 ^ Z.of_nat n.
Proof.
  intros Hn. assert (P : 0 < 2 ^ Z.of_nat n) by (apply Z.pow_pos_nonneg; lia).
  induction cnt as [|cnt IH]; intros last i Hi; [lia|]. cbn [galois_powers].
  assert (E : Z.land (wmul last gen) (2 ^ Z.of_nat n - 1) = (last * gen) mod 2 ^ Z.of_nat n).
  { rewrite land_mask by lia. unfold wmul. apply w64_mod_pow2. lia. }
  rewrite E. destruct i as [|i]; cbn [nth].
  - change (Z.of_nat 1) with 1. rewrite Z.pow_1_r. reflexivity.
  - rewrite IH by lia. rewrite Z.mul_mod_idemp_l by lia. f_equal.
    rewrite (Nat2Z.inj_succ (S i)), (Z.pow_succ_r gen (Z.of_nat (S i))) by lia. ring.
Qed.
Lemma galois_powers_length gen mask : forall cnt last, length (galois_powers cnt gen mask last) = cnt.
Proof. induction cnt as [|cnt IH]; intros; cbn; auto. Qed.

Lemma galois_params c r : 2 <= c -> built_ring c r ->
  let l := GenGaloisParams (Z.of_nat (rN r)) GaloisGen in
  length l = Nat.div (rN r) 2 /\
  forall i, (i < Nat.div (rN r) 2)%nat -> nth i l 0 = GaloisElementForColumnRotationBy r (Z.of_nat i).
Proof.
  intros Hc Hb. destruct (gal_setup c r Hc Hb) as (n & HN & Hn & HR & HM). cbv zeta. unfold GenGaloisParams.
  assert (P : 0 < 2 ^ Z.of_nat n) by (apply Z.pow_pos_nonneg; lia).
  assert (U : 2 ^ Z.of_nat n <= 2 ^ 59) by (apply Z.pow_le_mono_r; lia).
  assert (EN : Z.of_nat (rN r) = 2 * 2 ^ Z.of_nat n) by (rewrite HN, two_pow_nat; replace (n + 1)%nat with (S n) by lia; apply pow2_succ).
  assert (W62 : 64 * 2 ^ 59 <= W * 2) by (vm_compute; discriminate). assert (C59 : 2 ^ 59 * 32 = W) by reflexivity.
  assert (E2 : 2 ^ Z.of_nat (n + 2) = 4 * 2 ^ Z.of_nat n) by (replace (n + 2)%nat with (S (S n)) by lia; rewrite !pow2_succ; ring).
  assert (Hshr : Z.to_nat (wshr (Z.of_nat (rN r)) 1) = (2 ^ n)%nat).
  { unfold wshr. rewrite EN. change (2 ^ 1) with 2. rewrite Z.mul_comm, Z.div_mul, <- two_pow_nat by lia. lia. }
  assert (Hmask : wsub (wshl (Z.of_nat (rN r)) 1) 1 = 2 ^ Z.of_nat (n + 2) - 1).
  { unfold wshl, wsub, w64. rewrite EN, E2. change (2 ^ 1) with 2. clear - P U C59. rewrite (Z.mod_small (2 * _ * 2)) by lia. rewrite Z.mod_small; lia. }
  assert (Hdiv : (rN r / 2 = 2 ^ n)%nat).
  { rewrite HN. rewrite Nat.add_1_r, Nat.pow_succ_r', Nat.mul_comm. apply Nat.div_mul. lia. }
  rewrite Hshr, Hmask, Hdiv. pose proof (pow2n_pos n). split; [cbn [length]; rewrite galois_powers_length; lia|].
  intros i Hi. destruct (gal_val c r Hc Hb (Z.of_nat i)) as (n' & HN' & HM' & E).
  assert (n' = n) by (assert (n' + 1 = n + 1)%nat by (apply (Nat.pow_inj_r 2); lia); lia). subst n'.
  rewrite E. rewrite (Z.mod_small (Z.of_nat i)) by (rewrite E2, <- two_pow_nat; lia). rewrite HM'.
  destruct i as [|i]; cbn [nth].
  - rewrite Z.pow_0_r, Z.mod_small; lia.
  - rewrite galois_powers_spec by lia. rewrite Z.mul_1_l. reflexivity.
Qed.

(** ** Consequences used in the theorem statements *)
Lemma pauto_comp_mod N q g h a : (0 < N)%nat -> Nat.odd h = true ->
  peq N q (pauto N h (pauto N g a)) (pauto N ((g * h) mod (2 * N)) a).
Proof.
  intros HN Hh. rewrite pauto_comp by assumption. rewrite pauto_mod by assumption. rewrite Nat.mul_comm. reflexivity.
Qed.

Lemma pauto_id N q a : (0 < N)%nat -> peq N q (pauto N 1 a) a.
Proof.
  intros HN k Hk. unfold pauto. rewrite (bigsum_single _ k).
  - unfold pmono. rewrite Nat.mul_1_l, Nat.mod_small, Nat.div_small, Nat.eqb_refl by lia. cbn. apply eqm_eq. ring.
  - exact Hk.
  - intros j Hj Hne. unfold pmono. rewrite Nat.mul_1_l, Nat.mod_small by lia. destruct (Nat.eqb_spec k j); [lia|ring].
Qed.

Lemma rns_repr_peq r level B p X Y : (forall q, peq (rN r) q X Y) -> rns_repr r level B p X -> rns_repr r level B p Y.
Proof.
  intros E (H1 & H2 & H3). split; [exact H1|]. split; [exact H2|]. intros i Hi. destruct (H3 i Hi) as [Hl Hk]. split; [exact Hl|].
  intros k Hk'. destruct (Hk k Hk') as [? Hx]. split; [assumption|]. rewrite Hx. apply E. exact Hk'.
Qed.
Lemma rns_ntt_peq r L level B p X Y : rN r = (2 ^ L)%nat -> (forall q, peq (rN r) q X Y) -> rns_ntt r L level B p X -> rns_ntt r L level B p Y.
Proof.
  intros HN E (H1 & H2 & H3). split; [exact H1|]. split; [exact H2|]. intros i Hi. destruct (H3 i Hi) as [Hl Hk]. split; [exact Hl|].
  intros k Hk'. destruct (Hk k Hk') as [? Hx]. split; [assumption|]. rewrite Hx. apply values_peq. rewrite <- HN. apply E.
Qed.

Lemma built_N_pos c r : 2 <= c -> built_ring c r -> (0 < rN r)%nat.
Proof. intros Hc Hb. destruct (built_nth_root c r Hc Hb) as (L & Hw & _). rewrite (wfr_N _ _ _ Hw). pose proof (pow2n_pos L). lia. Qed.

Lemma permute_twice c r p out out' g h X : 2 <= c -> built_ring c r -> 0 <= g -> Z.odd g = true -> 0 <= h -> Z.odd h = true ->
  (forall i, (i < length (rmods r))%nat -> length (nth i out []) = rN r /\ length (nth i out' []) = rN r) ->
  rns_repr r (length (rmods r) - 1) canon p X ->
  rns_repr r (length (rmods r) - 1) (fun q => q + 1) (Permute r (Permute r p g out) h out')
    (pauto (rN r) (Nat.modulo (Z.to_nat g * Z.to_nat h) (2 * rN r)) X).
Proof.
  intros Hc Hb Hg Og Hh Oh Hout HX. pose proof (built_N_pos c r Hc Hb) as HN.
  apply (rns_repr_peq _ _ _ _ (pauto (rN r) (Z.to_nat h) (pauto (rN r) (Z.to_nat g) X))).
  - intros q. apply pauto_comp_mod; [exact HN|apply Nodd_Z; assumption].
  - apply (permute_poly c); try assumption; [apply Hout|]. apply (permute_poly c); try assumption; [apply Hout|].
    destruct HX as (H1 & H2 & H3). split; [exact H1|]. split; [exact H2|]. intros i Hi. destruct (H3 i Hi) as [Hl Hk].
    split; [exact Hl|]. intros k Hk'. destruct (Hk k Hk'). unfold canon in *. split; [lia|assumption].
Qed.

Lemma mod_to_nat g h M : 0 <= g -> 0 <= h -> (g * h) mod Z.of_nat M = 1 -> ((Z.to_nat g * Z.to_nat h) mod M = 1)%nat.
Proof.
  intros Hg Hh E. apply Nat2Z.inj. rewrite Nat2Z.inj_mod, Nat2Z.inj_mul, !Z2Nat.id by assumption. exact E.
Qed.

Lemma permute_inverse c r p out out' g X : 2 <= c -> built_ring c r -> 0 <= g < W -> Z.odd g = true ->
  (forall i, (i < length (rmods r))%nat -> length (nth i out []) = rN r /\ length (nth i out' []) = rN r) ->
  rns_repr r (length (rmods r) - 1) canon p X ->
  rns_repr r (length (rmods r) - 1) (fun q => q + 1) (Permute r (Permute r p g out) (InverseGaloisElement r g) out') X.
Proof.
  intros Hc Hb Hg Og Hout HX. pose proof (built_N_pos c r Hc Hb) as HN.
  destruct (inverse_odd c r Hc Hb g Hg Og) as (Ri & Oi & Ei).
  assert (H := permute_twice c r p out out' g (InverseGaloisElement r g) X Hc Hb ltac:(lia) Og ltac:(lia) Oi Hout HX).
  rewrite mod_to_nat in H.
  - revert H. apply rns_repr_peq. intros q. apply pauto_id. exact HN.
  - lia.
  - lia.
  - rewrite Nat2Z.inj_mul. exact Ei.
Qed.

Lemma permute_ntt_twice c r L level B p out out' g h X : 2 <= c -> built_ring c r -> rN r = (2 ^ L)%nat ->
  0 <= g -> Z.odd g = true -> 0 <= h -> Z.odd h = true ->
  rns_ntt r L level B p X ->
  rns_ntt r L level B (PermuteNTTLvl r level (PermuteNTTLvl r level p g out) h out')
    (pauto (rN r) (Nat.modulo (Z.to_nat g * Z.to_nat h) (2 * rN r)) X).
Proof.
  intros Hc Hb HL Hg Og Hh Oh HX. pose proof (built_N_pos c r Hc Hb) as HN.
  apply (rns_ntt_peq _ _ _ _ _ (pauto (rN r) (Z.to_nat h) (pauto (rN r) (Z.to_nat g) X))); [exact HL| |].
  - intros q. apply pauto_comp_mod; [exact HN|apply Nodd_Z; assumption].
  - apply (permute_ntt_index c); try assumption. apply (permute_ntt_index c); assumption.
Qed.
Lemma permute_ntt_inverse c r L level B p out out' g X : 2 <= c -> built_ring c r -> rN r = (2 ^ L)%nat ->
  0 <= g < W -> Z.odd g = true -> rns_ntt r L level B p X ->
  rns_ntt r L level B (PermuteNTTLvl r level (PermuteNTTLvl r level p g out) (InverseGaloisElement r g) out') X.
Proof.
  intros Hc Hb HL Hg Og HX. pose proof (built_N_pos c r Hc Hb) as HN.
  destruct (inverse_odd c r Hc Hb g Hg Og) as (Ri & Oi & Ei).
  assert (H := permute_ntt_twice c r L level B p out out' g (InverseGaloisElement r g) X Hc Hb HL ltac:(lia) Og ltac:(lia) Oi HX).
  rewrite mod_to_nat in H.
  - revert H. apply rns_ntt_peq; [exact HL|]. intros q. apply pauto_id. exact HN.
  - lia.
  - lia.
  - rewrite Nat2Z.inj_mul. exact Ei.
Qed.

(** The automorphism respects the ring structure. *)
Lemma pauto_morphism N q g a b : (0 < N)%nat -> Nat.odd g = true ->
  peq N q (pauto N g (padd a b)) (padd (pauto N g a) (pauto N g b)) /\
  peq N q (pauto N g (pmul N a b)) (pmul N (pauto N g a) (pauto N g b)) /\
  peq N q (pauto N g pone) pone.
Proof.
  intros HN Hg. split; [apply pauto_add|]. split; [apply pauto_mul; assumption|apply pauto_one; exact HN].
Qed.
