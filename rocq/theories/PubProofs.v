(** The parameter sets of the repository meet the conditions of the theorems. *)
From Coq Require Import ZArith Znumtheory List Lia Bool Arith.
From Verif Require Import Word Arith ModRed PolySpec Ring RingProofs RingOps RNSSpec RowProofs OpsProofs Float64 Codec Params ParamsSpec ParamsProofs Gadget GadgetSpec Frlwe FrlweSetup FrlweTop RlweSpec Rlwe Ckks CkksSpec FckksSpec DrawSpec RingTotal FParams PubParams PubSpec PubTotal Proth.
Import ListNotations.
Local Open Scope Z_scope.

(** ** Blocks *)
Lemma max_in l x : In x l -> x <= fold_right Z.max 0 l.
Proof. induction l as [|y l IH]; [intros []|]. cbn [In fold_right]. intros [->|H]; [lia|]. specialize (IH H). lia. Qed.
Lemma largest_block_le size ms i : (0 < size)%nat -> (i * size < length ms)%nat -> product (block_of size i ms) <= largest_block size ms.
Proof.
  intros Hs Hi. apply max_in, in_map_iff. exists i. split; [reflexivity|]. apply in_seq. assert (H := proj2 (ceil_div_lt (length ms) size i Hs) Hi). lia.
Qed.
Lemma product_ge1 l : (forall x, In x l -> 1 <= x) -> 1 <= product l.
Proof. induction l as [|x l IH]; intros H; cbn; [lia|]. assert (1 <= x) by (apply H; left; reflexivity). assert (1 <= product l) by (apply IH; intros y Hy; apply H; right; exact Hy). unfold product in *. nia. Qed.
Lemma product_firstn_le l n : (forall x, In x l -> 1 <= x) -> product (firstn n l) <= product l.
Proof.
  revert n. induction l as [|x l IH]; intros n H; [rewrite firstn_nil; lia|]. assert (Hx : 1 <= x) by (apply H; left; reflexivity).
  assert (Hl : forall y, In y l -> 1 <= y) by (intros y Hy; apply H; right; exact Hy). assert (G := product_ge1 l Hl). destruct n as [|n]; cbn [firstn].
  - change (product []) with 1. change (product (x :: l)) with (x * product l). nia.
  - change (x * product (firstn n l) <= x * product l). specialize (IH n Hl). nia.
Qed.
Lemma block_prefix size i n ms : block_of size i (firstn n ms) = firstn (Nat.min size (n - i * size)) (skipn (i * size) ms).
Proof. unfold block_of. rewrite skipn_firstn_comm, firstn_firstn. reflexivity. Qed.
Lemma block_prefix_le size i n ms : (forall x, In x ms -> 1 <= x) -> product (block_of size i (firstn n ms)) <= product (block_of size i ms).
Proof.
  intros H. rewrite block_prefix. unfold block_of. set (l := skipn (i * size) ms).
  assert (Hl : forall x, In x l -> 1 <= x). { intros x Hx. apply H. unfold l in Hx. rewrite <- (firstn_skipn (i * size) ms). apply in_or_app. right. exact Hx. }
  replace (firstn (Nat.min size (n - i * size)) l) with (firstn (n - i * size) (firstn size l)) by (rewrite firstn_firstn; f_equal; lia).
  apply product_firstn_le. intros x Hx. apply Hl. rewrite <- (firstn_skipn size l). apply in_or_app. left. exact Hx.
Qed.
Lemma ceil_div_mono a b c : (0 < c)%nat -> (a <= b)%nat -> (ceil_div a c <= ceil_div b c)%nat.
Proof. intros Hc H. unfold ceil_div. apply Nat.div_le_mono; lia. Qed.
Lemma blocks_ok rQ rP Qs level : moduli rQ = Qs -> (forall q, In q Qs -> 1 <= q) -> (level < length Qs)%nat -> (0 < length (rmods rP))%nat ->
  blocks_below rQ level (maxLevel rP) (largest_block (length (rmods rP)) Qs).
Proof.
  intros M H1 Hl HP i Hi. unfold maxLevel in *. replace (length (rmods rP) - 1 + 1)%nat with (length (rmods rP)) in * by lia. set (a := length (rmods rP)) in *. clearbody a.
  unfold RlweSpec.prefix. rewrite M. apply Z.le_trans with (1 := block_prefix_le a i (S level) Qs H1). apply largest_block_le; [exact HP|]. apply (ceil_div_lt _ a i HP) in Hi. lia.
Qed.
Lemma room_ok Qs Ps Ts gamma n level DQ : (0 < gamma)%nat -> (0 < length Ps)%nat -> (level < length Qs)%nat -> 0 <= DQ -> 0 <= largest_block gamma (Ps ++ Qs) ->
  5 * (Z.of_nat (ceil_div (length Qs) (length Ps)) * (Z.of_nat n * (DQ * largest_block gamma (Ps ++ Qs)))) <= product Ts -> FckksSpec.room Qs Ps Ts gamma n level DQ.
Proof.
  intros Hg HP Hl HD HR H. exists (largest_block gamma (Ps ++ Qs)). split.
  - intros j Hj. apply largest_block_le; [exact Hg|]. rewrite app_length. lia.
  - assert (C := ceil_div_mono (level + 1) (length Qs) (length Ps) HP ltac:(lia)). apply Z.le_trans with (2 := H). apply Z.mul_le_mono_nonneg_l; [lia|]. apply Z.mul_le_mono_nonneg_r; [|lia].
    apply Z.mul_nonneg_nonneg; [lia|]. apply Z.mul_nonneg_nonneg; assumption.
Qed.
Lemma fit_ok rQ rP B : (forall q, In q (moduli rQ) -> 2 * B < q) -> (forall q, In q (moduli rP) -> 2 * B < q) -> 0 <= B -> (0 < length (rmods rQ))%nat -> errors_fit rQ rP B.
Proof.
  intros HQ HP HB HN. assert (G : forall r i, (i < length (rmods r))%nat -> In (mq (rmod r i)) (moduli r)).
  { intros r i Hi. unfold moduli. apply in_map. unfold rmod. apply nth_In. exact Hi. }
  split; [apply HQ, G; exact HN|]. split; intros i Hi; [specialize (HQ _ (G rQ i Hi))|specialize (HP _ (G rP i Hi))]; lia.
Qed.

(** ** The checks *)
Lemma certs_ok : forallb proth_ok pub_certs = true.
Proof. vm_compute. reflexivity. Qed.
Definition certified (q : Z) : bool := existsb (fun c => Z.eqb q (fst (fst c))) pub_certs.
Lemma certified_prime q : certified q = true -> prime q.
Proof.
  intros H. apply existsb_exists in H. destruct H as (((q' & e) & a) & Hin & E). apply Z.eqb_eq in E. cbn [fst] in E. subst q'. apply (proth_prime q e a). exact (proj1 (forallb_forall _ _) certs_ok _ Hin).
Qed.
Fixpoint nodupb (l : list Z) : bool := match l with [] => true | x :: l => negb (existsb (Z.eqb x) l) && nodupb l end.
Lemma nodupb_ok l : nodupb l = true -> NoDup l.
Proof.
  induction l as [|x l IH]; [constructor|]. cbn [nodupb]. rewrite andb_true_iff, negb_true_iff. intros [H1 H2]. constructor; [|exact (IH H2)].
  intros Hin. assert (E : existsb (Z.eqb x) l = true) by (apply existsb_exists; exists x; split; [exact Hin|apply Z.eqb_refl]). congruence.
Qed.
Definition moduli_b (e : Z) (ms : list Z) : bool := nodupb ms && forallb (fun q => certified q && (q mod 2 ^ e =? 1) && (38 <? q) && (9 * q <=? W)) ms.
Lemma moduli_ok e ms : moduli_b e ms = true -> (forall q, In q ms -> 38 < q /\ 9 * q <= W) /\ forall B, 2 ^ 61 <= B -> good_moduli (2 ^ e) B ms.
Proof.
  unfold moduli_b. rewrite andb_true_iff, forallb_forall. intros [H1 H2]. assert (H3 : forall q, In q ms -> prime q /\ q mod 2 ^ e = 1 /\ 38 < q /\ 9 * q <= W).
  { intros q Hq. specialize (H2 q Hq). rewrite !andb_true_iff, Z.eqb_eq, Z.ltb_lt, Z.leb_le in H2. destruct H2 as (((A & B) & C) & D). split; [apply certified_prime; exact A|tauto]. }
  split; [intros q Hq; apply (H3 q Hq)|]. intros B HB. split; [apply nodupb_ok; exact H1|]. intros q Hq. destruct (H3 q Hq) as (A & B' & C & D). split; [exact A|]. split; [exact B'|]. change W with (2 ^ 64) in D. lia.
Qed.
Definition set_b (s : pset) : bool :=
  let k := Z.of_nat (sLogN s) in
  (4 <=? k) && (k <=? 17) && Nat.leb 1 (length (sQ s)) && Nat.leb (length (sQ s)) 100 && Nat.leb 1 (length (sP s)) && Nat.leb (length (sP s)) 18 && ((sType s =? Standard) || (sType s =? ConjugateInvariant)) &&
  moduli_b (degree_exp k (sType s)) (sP s ++ sQ s) && (0 <? sLogSlots s) && (sLogSlots s <=? degree_exp k (sType s) - 2) && (negb (sType s =? Standard) || (largest_block (length (sP s)) (sQ s) <=? product (sP s))) &&
  (1000 * product (sP s ++ sQ s) <? 1001 * 2 ^ sLogQP s).
Definition fast_b (s : pset) : bool :=
  let k := Z.of_nat (sLogN s) in
  (4 <=? k) && (k <=? 17) && Nat.leb 1 (length (sQ s)) && Nat.leb (length (sQ s)) 100 && Nat.leb 1 (length (sP s)) && Nat.leb (length (sP s)) 18 && (sType s =? Standard) &&
  moduli_b (k + 1) (sP s ++ sQ s) && (0 <=? sLogSlots s) && (sLogSlots s <=? k - 1) && Nat.leb 1 (length (sT s)) && Nat.leb (length (sT s)) 18 && Nat.leb 1 (sGamma s) && Nat.leb (sGamma s) 18 && moduli_b (k + 1) (sT s) &&
  (0 <=? largest_block (length (sP s)) (sQ s)) && (0 <=? largest_block (sGamma s) (sP s ++ sQ s)) &&
  (5 * (Z.of_nat (ceil_div (length (sQ s)) (length (sP s))) * (2 ^ k * (largest_block (length (sP s)) (sQ s) * largest_block (sGamma s) (sP s ++ sQ s)))) <=? product (sT s)).
Lemma sets_ok : forallb set_b ckks_sets = true.
Proof. vm_compute. reflexivity. Qed.
Lemma fasts_ok : forallb fast_b fast_sets = true.
Proof. vm_compute. reflexivity. Qed.

(** ** The sets of ckks *)
Lemma good_incl M B l l' : incl l' l -> NoDup l' -> good_moduli M B l -> good_moduli M B l'.
Proof. intros HI HD [_ H]. split; [exact HD|]. intros x Hx. apply H, HI, Hx. Qed.
Lemma nodup_app_l {A} (a b : list A) : NoDup (a ++ b) -> NoDup a.
Proof. induction a as [|x a IH]; [constructor|]. cbn. intros H. inversion H as [|? ? H1 H2]; subst. constructor; [intros Hi; apply H1, in_or_app; left; exact Hi|exact (IH H2)]. Qed.
Lemma nodup_app_r {A} (a b : list A) : NoDup (a ++ b) -> NoDup b.
Proof. induction a as [|x a IH]; [intros H; exact H|]. cbn. intros H. inversion H as [|? ? H1 H2]; subst. exact (IH H2). Qed.
Lemma nodup_app_disj {A} (a b : list A) x : NoDup (a ++ b) -> In x a -> ~ In x b.
Proof. induction a as [|y a IH]; [intros _ []|]. cbn. intros H [->|Hx]; inversion H as [|? ? H1 H2]; subst; [intros Hb; apply H1, in_or_app; right; exact Hb|exact (IH H2 Hx)]. Qed.

Lemma set_admissible s : set_b s = true -> let k := Z.of_nat (sLogN s) in
  admissible k (sQ s) (sP s) (sType s) /\ NoDup (sP s ++ sQ s) /\ (forall q, In q (sP s ++ sQ s) -> 38 < q /\ 9 * q <= W) /\ (1 <= length (sP s) <= 18)%nat /\
  0 < sLogSlots s <= degree_exp k (sType s) - 2 /\ (sType s = Standard -> largest_block (length (sP s)) (sQ s) <= product (sP s)) /\ 1000 * product (sP s ++ sQ s) < 1001 * 2 ^ sLogQP s.
Proof.
  intros H k. unfold set_b in H. fold k in H. rewrite !andb_true_iff, !Nat.leb_le, !Z.leb_le, !Z.ltb_lt, !orb_true_iff, negb_true_iff, !Z.eqb_eq, Z.leb_le in H.
  destruct H as (((((((((((H1 & H2) & H3) & H4) & H5) & H6) & H7) & H8) & H9) & H10) & H11) & H12).
  destruct (moduli_ok _ _ H8) as [S1 S2]. assert (HD := proj1 (S2 (2 ^ 61) ltac:(lia))).
  split; [|split; [exact HD|split; [exact S1|split; [lia|split; [lia|split; [|exact H12]]]]]].
  - split; [lia|]. split; [exact H7|]. split; [lia|]. split; [lia|]. split; (eapply good_incl; [| |apply S2]); try (intros x Hx; apply in_or_app; tauto); try lia; [exact (nodup_app_r _ _ HD)|exact (nodup_app_l _ _ HD)].
  - intros E. destruct H11 as [H11|H11]; [|exact H11]. rewrite E in H11. discriminate H11.
Qed.
Lemma new_rings fuel logn q p hh sg P : NewParameters fuel logn q p hh sg Standard = (P, None) -> p <> [] ->
  exists rQ rP, ringQ P = Some rQ /\ ringP P = Some rP /\ NewRing fuel (2 ^ logn) q = inl rQ /\ NewRing fuel (2 ^ logn) p = inl rP.
Proof.
  intros H HP. destruct (new_fields _ _ _ _ _ _ _ _ H) as (_ & _ & _ & _ & _ & _ & _ & _ & I). unfold initRings in I. cbn [logN qi pi ringType sigma h ringP] in I.
  assert (NEW : forall ms r, NewRingFromType fuel (2 ^ logn) ms Standard = inl r -> NewRing fuel (2 ^ logn) ms = inl r).
  { intros ms r E. unfold NewRingFromType in E. change (Standard =? Standard) with true in E. cbv iota in E. unfold NewRing. destruct (NewRingWithCustomNTT _ _ _ _); [injection E as ->; reflexivity|discriminate E]. }
  destruct (NewRingFromType fuel (2 ^ logn) q Standard) as [rq|] eqn:EQ; [|discriminate I]. destruct p as [|y p']; [contradiction|]. cbn [length Nat.eqb] in I.
  destruct (NewRingFromType fuel (2 ^ logn) (y :: p') Standard) as [rp|] eqn:EP; [|discriminate I]. injection I as <-. cbn [ringQ ringP]. exists rq, rp. split; [reflexivity|]. split; [reflexivity|]. split; apply NEW; assumption.
Qed.
Lemma pow_le_60 k : (k <= 17)%nat -> 2 ^ Z.of_nat k <= 2 ^ 60.
Proof. intros H. apply Z.pow_le_mono_r; lia. Qed.
Lemma pair_ok fuel k qs ps rQ rP : (k <= 17)%nat -> NewRing fuel (2 ^ Z.of_nat k) qs = inl rQ -> NewRing fuel (2 ^ Z.of_nat k) ps = inl rP ->
  NoDup (ps ++ qs) -> (forall q, In q (ps ++ qs) -> 9 * q <= W) -> ring_pair rQ rP.
Proof.
  intros Hk EQ EP HD H9. assert (HN := pow_le_60 k Hk).
  destruct (NewRing_built 9 fuel _ qs rQ ltac:(lia) HN ltac:(intros q Hq; apply H9, in_or_app; right; exact Hq) EQ) as (B1 & M1 & N1).
  destruct (NewRing_built 9 fuel _ ps rP ltac:(lia) HN ltac:(intros q Hq; apply H9, in_or_app; left; exact Hq) EP) as (B2 & M2 & N2).
  split; [exact B1|]. split; [exact B2|]. split; [lia|]. intros q Hq Hp. rewrite M1 in Hq. rewrite M2 in Hp. exact (nodup_app_disj ps qs q HD Hp Hq).
Qed.
Lemma sigma_set : f64_same DefaultSigma (f64_of_Z 0) = false.
Proof. vm_compute. reflexivity. Qed.
Lemma ckks_sets_ok s : In s ckks_sets -> exists P rQ rP,
  (exists f0, forall fuel, (f0 <= fuel)%nat -> Ckks_NewParametersFromLiteral fuel (ckks_literal s) = Ret (mkCkks P (sLogSlots s) (f64_of_Z (2 ^ sLogScale s)), None)) /\
  ringQ P = Some rQ /\ ringP P = Some rP /\ moduli rQ = sQ s /\ moduli rP = sP s /\ rN rQ = (2 ^ sLogN s)%nat /\ rN rP = (2 ^ sLogN s)%nat /\ h P = 2 ^ (Z.of_nat (sLogN s) - 1) /\ sigma P = DefaultSigma /\ ringType P = sType s /\
  1000 * product (sP s ++ sQ s) < 1001 * 2 ^ sLogQP s /\
  (sType s = Standard -> ring_pair rQ rP /\ key_levels rQ rP (maxLevel rQ) (maxLevel rP) /\ errors_fit rQ rP 19 /\
     forall level, (level < length (sQ s))%nat -> blocks_below rQ level (maxLevel rP) (product (sP s))).
Proof.
  intros Hin. assert (HB := proj1 (forallb_forall _ _) sets_ok s Hin). destruct (set_admissible s HB) as (HA & HD & H9 & LP & LS & LB & LQP). clear HB. set (k := Z.of_nat (sLogN s)) in *.
  assert (Hk : (sLogN s <= 17)%nat) by (destruct HA as (HA & _); unfold k in HA; lia).
  destruct (ckks_total k (sQ s) (sP s) 0 DefaultSigma (sType s) (sLogSlots s) (f64_of_Z (2 ^ sLogScale s)) HA ltac:(lia)) as (P & (f1 & F1) & R & E1 & E2 & E3 & E6 & E4 & E5).
  assert (NP : sP s <> []) by (intros E; rewrite E in LP; cbn in LP; lia).
  destruct R as [(rQ & Q1 & Q2 & Q3 & _) [[RP _]|(rP & P1 & P2 & P3 & _)]]; [rewrite E3 in RP; contradiction|]. exists P, rQ, rP.
  assert (EN : forall r, Z.of_nat (rN r) = 2 ^ logN P -> rN r = (2 ^ sLogN s)%nat) by (intros r Hr; apply Nat2Z.inj; rewrite Hr, E1, two_pow_nat; reflexivity).
  split; [exists f1; intros fuel Hf; specialize (F1 fuel Hf); unfold slots_used in F1; rewrite (proj2 (Z.eqb_neq (sLogSlots s) 0)) in F1 by lia; exact F1|].
  split; [exact Q1|]. split; [exact P1|]. split; [rewrite Q2; exact E2|]. split; [rewrite P2; exact E3|]. split; [exact (EN rQ Q3)|]. split; [exact (EN rP P3)|]. split; [exact E4|]. split; [rewrite E5, sigma_set; reflexivity|]. split; [exact E6|]. split; [exact LQP|].
  intros ET. rewrite ET in HA.
  destruct (new_parameters_total k (sQ s) (sP s) (if 0 =? 0 then int_wrap (2 ^ (k - 1)) else 0) (if f64_same DefaultSigma (f64_of_Z 0) then DefaultSigma else DefaultSigma) Standard HA) as (P' & (f2 & F2) & _).
  assert (G2 := F2 (Nat.max f1 f2) ltac:(lia)). assert (G1 := F1 (Nat.max f1 f2) ltac:(lia)). set (fu := Nat.max f1 f2) in *. clearbody fu. rewrite ET in G1.
  assert (EP : P' = P).
  { unfold Ckks_NewParametersFromLiteral, NewParametersFromLiteral in G1. cbn [clRlwe clLogSlots clScale lQ lLogQ lP lLogP lH lLogN lSigma lType] in G1.
    replace ((0 =? 0) && (k - 1 <? 0)) with false in G1 by (symmetry; apply andb_false_iff; right; apply Z.ltb_ge; destruct HA; lia). cbn [bind] in G1. rewrite G2 in G1.
    unfold Ckks_NewParameters in G1. destruct (Equals P' zeroParams) as [[|]| |]; cbn [bind] in G1; try discriminate. destruct (ringQ P'); [|discriminate]. destruct (_ || _); [discriminate|]. injection G1; intros; assumption. }
  subst P'. destruct (new_rings _ _ _ _ _ _ _ G2 NP) as (rQ' & rP' & A1 & A2 & A3 & A4). rewrite Q1 in A1. injection A1 as <-. rewrite P1 in A2. injection A2 as <-.
  assert (MQ : moduli rQ = sQ s) by (rewrite Q2; exact E2). assert (MP : moduli rP = sP s) by (rewrite P2; exact E3).
  assert (LQ' : length (rmods rQ) = length (sQ s)) by (rewrite moduli_length, MQ; reflexivity). assert (LP' : length (rmods rP) = length (sP s)) by (rewrite moduli_length, MP; reflexivity).
  assert (LQ : (1 <= length (sQ s) <= 100)%nat) by apply HA.
  split; [exact (pair_ok fu (sLogN s) (sQ s) (sP s) rQ rP Hk A3 A4 HD (fun q Hq => proj2 (H9 q Hq)))|]. split; [unfold key_levels, maxLevel; rewrite LQ', LP'; lia|].
  split; [apply fit_ok; [rewrite MQ; intros q Hq; specialize (H9 q ltac:(apply in_or_app; right; exact Hq)); lia|rewrite MP; intros q Hq; specialize (H9 q ltac:(apply in_or_app; left; exact Hq)); lia|lia|rewrite LQ'; lia]|].
  intros level Hl i Hi. apply Z.le_trans with (2 := LB ET). rewrite <- LP' in *.
  apply (blocks_ok rQ rP (sQ s) level MQ ltac:(intros q Hq; specialize (H9 q ltac:(apply in_or_app; right; exact Hq)); lia) Hl ltac:(lia) i Hi).
Qed.

(** ** The sets of the fast key switching *)
Lemma fast_checked s : fast_b s = true -> let k := Z.of_nat (sLogN s) in let DQ := largest_block (length (sP s)) (sQ s) in
  fast_admissible k (sQ s) (sP s) (sT s) /\ sType s = Standard /\ (forall q, In q (sP s ++ sQ s) -> 38 < q /\ 9 * q <= W) /\ 0 <= sLogSlots s <= k - 1 /\ sizes_ok (2 ^ k) (sQ s) (sP s) (sT s) (sGamma s) /\ 0 <= DQ /\ 0 <= largest_block (sGamma s) (sP s ++ sQ s) /\
  5 * (Z.of_nat (ceil_div (length (sQ s)) (length (sP s))) * (2 ^ k * (DQ * largest_block (sGamma s) (sP s ++ sQ s)))) <= product (sT s).
Proof.
  intros H k DQ. unfold fast_b in H. fold k in H. fold DQ in H. rewrite !andb_true_iff, !Nat.leb_le, !Z.leb_le, !Z.eqb_eq in H.
  destruct H as (((((((((((((((((H1 & H2) & H3) & H4) & H5) & H6) & H7) & H8) & H9) & H10) & H11) & H12) & H13) & H14) & H15) & H16) & H17) & H18).
  destruct (moduli_ok _ _ H8) as [S1 S2]. destruct (moduli_ok _ _ H15) as [T1 T2]. assert (HD := proj1 (S2 (2 ^ 61) ltac:(lia))).
  split.
  { split.
    - split; [lia|]. split; [left; reflexivity|]. split; [lia|]. split; [lia|]. split; (eapply good_incl; [| |apply S2]); try (intros x Hx; apply in_or_app; tauto); try lia; [exact (nodup_app_r _ _ HD)|exact (nodup_app_l _ _ HD)].
    - split; [intros E; rewrite E in H5; cbn in H5; lia|]. split; [exact HD|]. split; [intros E; rewrite E in H11; cbn in H11; lia|]. apply T2. lia. }
  split; [exact H7|]. split; [exact S1|]. split; [lia|]. split; [|split; [exact H16|split; [exact H17|exact H18]]].
  split; [apply pow_le_60; unfold k in H2; lia|]. split; [|lia]. intros q Hq. rewrite !in_app_iff in Hq. destruct Hq as [Hq|[Hq|Hq]]; [apply S1, in_or_app; right; exact Hq|apply S1, in_or_app; left; exact Hq|apply T1, Hq].
Qed.
Lemma fast_sets_ok s : In s fast_sets -> let DQ := largest_block (length (sP s)) (sQ s) in exists p ks conv,
  fast_setup (sQ s) (sP s) (sT s) (sGamma s) p ks conv (sLogN s) /\ errors_fit (fpQ p) (fpP p) 19 /\
  (forall level, (level < length (sQ s))%nat -> blocks_below (fpQ p) level (maxLevel (fpP p)) DQ /\ FckksSpec.room (sQ s) (sP s) (sT s) (sGamma s) (rN (fpQ p)) level DQ) /\
  exists C F, (exists f0, forall rfuel, (f0 <= rfuel)%nat -> Fckks_NewParametersFromLiteral rfuel (fast_literal s) (sLogSlots s) (f64_of_Z (2 ^ sLogScale s)) = Ret (C, F)) /\ fast_rings F = Some p /\
    cRlwe C = fRlwe F /\ cLogSlots C = slots_used (Z.of_nat (sLogN s)) Standard (sLogSlots s) /\ cScale C = f64_of_Z (2 ^ sLogScale s).
Proof.
  intros Hin DQ. assert (HB := proj1 (forallb_forall _ _) fasts_ok s Hin). destruct (fast_checked s HB) as (HA & ET & H9 & LS & HZ & D0 & R0 & RM). clear HB. fold DQ in D0, RM. set (k := Z.of_nat (sLogN s)) in *.
  destruct (fckks_total k (sQ s) (sP s) (sT s) DefaultSigma 0 (sGamma s) (sLogSlots s) (f64_of_Z (2 ^ sLogScale s)) HA LS) as (C & F & HF & C1 & C2 & C3 & p & f0 & FR & NF).
  assert (NF0 := NF f0 (le_n f0)). destruct (fast_constructors f0 (2 ^ k) (sQ s) (sP s) (sT s) (sGamma s) p HZ NF0) as [[ks HK] [conv HC]]. exists p, ks, conv.
  assert (FP := NewFParams_ok f0 (2 ^ k) (sQ s) (sP s) (sT s) (sGamma s) p HZ NF0).
  assert (EN : rN (fpQ p) = (2 ^ sLogN s)%nat) by (apply Nat2Z.inj; rewrite (fk_nQ _ _ _ _ _ _ FP), two_pow_nat; reflexivity).
  assert (MQ := fk_mQ _ _ _ _ _ _ FP). assert (MP := fk_mP _ _ _ _ _ _ FP). assert (LQ := fk_hQ _ _ _ _ _ _ FP). assert (LP := fk_hP _ _ _ _ _ _ FP).
  assert (LQ' : length (rmods (fpQ p)) = length (sQ s)) by (rewrite moduli_length, MQ; reflexivity). assert (LP' : length (rmods (fpP p)) = length (sP s)) by (rewrite moduli_length, MP; reflexivity).
  split; [exists f0, (2 ^ k); split; [exact HZ|]; split; [exact NF0|]; split; [exact HK|]; split; [exact HC|exact EN]|].
  split; [apply fit_ok; [rewrite MQ; intros q Hq; specialize (H9 q ltac:(apply in_or_app; right; exact Hq)); lia|rewrite MP; intros q Hq; specialize (H9 q ltac:(apply in_or_app; left; exact Hq)); lia|lia|rewrite LQ'; lia]|].
  split.
  - intros level Hl. split.
    + unfold DQ. rewrite <- LP'. apply (blocks_ok (fpQ p) (fpP p) (sQ s) level MQ); [|exact Hl|lia]. intros q Hq. specialize (H9 q ltac:(apply in_or_app; right; exact Hq)). lia.
    + apply room_ok; [apply HZ|exact LP|exact Hl|exact D0|exact R0|]. rewrite EN, two_pow_nat. exact RM.
  - exists C, F. split; [|split; [exact FR|split; [exact C1|split; [exact C2|exact C3]]]]. destruct HF as [f1 HF]. exists f1. intros rfuel Hf. unfold fast_literal, rlwe_literal. rewrite ET. fold k. exact (HF rfuel Hf).
Qed.
