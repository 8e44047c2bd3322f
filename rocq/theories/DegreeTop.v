(** Ciphertexts whose ring degree is switched. *)
From Verif Require Import Word ModRed Arith ModRedProofs PolySpec PolyProofs SmallPrimes Ring RingProofs NTT NTTProofs RingOps RNSSpec RowProofs OpsProofs OpsProps Repr
  AutoProps EncSpec EncNtt BasisExt Frlwe RlweSpec Rlwe RlweKeys RlweEnc RlweBase FrlweSetup CISwap Degree DegreeSpec DegreeProofs.
Local Open Scope Z_scope.

Lemma some_inj' {A} (x y : A) : Some x = Some y -> x = y.
Proof. congruence. Qed.

Lemma each_poly_ok {A} (f : rows -> rows -> option A) d : forall ctIn ctOut : list rows, (length ctOut <= length ctIn)%nat ->
  (forall j, (j < length ctOut)%nat -> exists x, f (nth j ctIn []) (nth j ctOut []) = Some x) ->
  exists l, each_poly f ctIn ctOut = Some l /\ length l = length ctOut /\
    forall j, (j < length ctOut)%nat -> f (nth j ctIn []) (nth j ctOut []) = Some (nth j l d).
Proof.
  intros ctIn ctOut. revert ctIn. induction ctOut as [|o ctOut IH]; intros ctIn Hl H.
  - exists []. split; [destruct ctIn; reflexivity|]. split; [reflexivity|]. intros j Hj. cbn in Hj. lia.
  - destruct ctIn as [|p ctIn]; [cbn in Hl; lia|]. cbn [each_poly].
    destruct (H O ltac:(cbn; lia)) as [x Ex]. cbn [nth] in Ex. rewrite Ex.
    destruct (IH ctIn ltac:(cbn in Hl; lia)) as (l & El & Ll & Nl).
    { intros j Hj. apply (H (S j)). cbn. lia. }
    rewrite El. exists (x :: l). split; [reflexivity|]. split; [cbn; rewrite Ll; reflexivity|].
    intros [|j] Hj; [exact Ex|]. cbn [nth]. apply Nl. cbn in Hj. lia.
Qed.

(** ** The powers of the secret *)
Lemma inflate_ppow gap n s i k : (0 < gap)%nat -> (0 < n)%nat -> (k < n * gap)%nat -> ppow (n * gap) (inflate gap s) i k = inflate gap (ppow n s i) k.
Proof.
  intros Hg Hn. revert k. induction i as [|i IH]; intros k Hk; cbn [ppow].
  - unfold pone, inflate. destruct (Nat.eqb_spec k 0) as [-> | Hk0].
    + rewrite Nat.mod_0_l, Nat.div_0_l by lia. reflexivity.
    + destruct (Nat.eqb_spec (k mod gap) 0) as [E|E]; [|reflexivity]. destruct (Nat.eqb_spec (k / gap) 0) as [E'|E']; [|reflexivity].
      pose proof (Nat.div_mod k gap ltac:(lia)). lia.
  - assert (P : peq (n * gap) 0 (pmul (n * gap) (ppow (n * gap) (inflate gap s) i) (inflate gap s)) (pmul (n * gap) (inflate gap (ppow n s i)) (inflate gap s))).
    { apply pmul_peq; [|reflexivity]. apply peq_exact. exact IH. }
    apply eqm_0. rewrite (P k Hk). apply eqm_eq. apply inflate_mul; assumption.
Qed.

Lemma phase_inflate gap n d C s : (0 < gap)%nat -> (0 < n)%nat ->
  peq (n * gap) 0 (phase (n * gap) d (fun j => inflate gap (C j)) (inflate gap s)) (inflate gap (phase n d C s)).
Proof.
  intros Hg Hn k Hk. apply eqm_eq. unfold phase, psum.
  transitivity (bigsum d (fun i => inflate gap (pmul n (C i) (ppow n s i)) k)).
  - apply bigsum_ext. intros i Hi. rewrite <- inflate_mul by assumption. apply eqm_0.
    assert (P : peq (n * gap) 0 (pmul (n * gap) (inflate gap (C i)) (ppow (n * gap) (inflate gap s) i)) (pmul (n * gap) (inflate gap (C i)) (inflate gap (ppow n s i)))).
    { apply pmul_peq; [reflexivity|]. apply peq_exact. intros j Hj. apply inflate_ppow; assumption. }
    apply P. exact Hk.
  - unfold inflate. destruct (Nat.eqb (k mod gap) 0); [reflexivity|]. apply bigsum_0.
Qed.

Lemma phase_deflate gap n d C s : (0 < gap)%nat -> (0 < n)%nat ->
  peq n 0 (phase n d (fun j => deflate gap (C j)) s) (deflate gap (phase (n * gap) d C (inflate gap s))).
Proof.
  intros Hg Hn k Hk. apply eqm_eq. unfold phase, psum. unfold deflate at 2. apply bigsum_ext. intros i Hi.
  apply eqm_0. rewrite (pmul_comm n 0 (deflate gap (C i)) (ppow n s i) k Hk).
  rewrite <- (deflate_mul gap n) by assumption. unfold deflate.
  assert (Hk' : (k * gap < n * gap)%nat) by nia.
  rewrite (pmul_comm (n * gap) 0 (C i) (ppow (n * gap) (inflate gap s) i) _ Hk').
  assert (P : peq (n * gap) 0 (pmul (n * gap) (inflate gap (ppow n s i)) (C i)) (pmul (n * gap) (ppow (n * gap) (inflate gap s) i) (C i))).
  { apply pmul_peq; [|reflexivity]. apply peq_exact. intros j Hj. symmetry. apply inflate_ppow; assumption. }
  apply P. exact Hk'.
Qed.


Lemma nested_2 c rS rL l L level : 2 <= c -> nested c rS rL l L level -> nested 2 rS rL l L level.
Proof.
  intros Hc (H1 & H2 & H3). split; [apply (built_le c); [lia|assumption]|]. split; [apply (built_le c); [lia|assumption]|]. exact H3.
Qed.

(** ** From the small ring to the large one *)
Lemma up_ntt_lemma : forall rS rL l L level, nested 9 rS rL l L level -> forall (ct ctOut : list rows) C,
  ct_dom rS l level true ct C -> length ctOut = length ct -> (forall j, (j < length ct)%nat -> sized level (rN rL) (nth j ctOut [])) ->
  exists ct', SwitchCiphertextRingDegreeNTT ct rS rL ctOut = Some (ct, ct') /\ length ct' = length ct /\
    ct_dom rL L level true ct' (fun j => inflate (2 ^ (L - l)) (C j)).
Proof.
  intros rS rL l L level HN ct ctOut C [Hct HC] Hl HO. pose proof HN as (HS & HL & ES & EL & Hle & HlS & HlL & Hq).
  assert (N2 := nested_2 9 _ _ _ _ _ ltac:(lia) HN).
  unfold SwitchCiphertextRingDegreeNTT. cbv zeta.
  assert (E1 : length (prow (nth 0 ct []) 0) = (2 ^ l)%nat) by (destruct (HC O Hct) as [_ (_ & _ & R)]; apply (R O); lia).
  assert (E2 : length (prow (nth 0 ctOut []) 0) = (2 ^ L)%nat) by (rewrite <- EL; apply (HO O Hct); lia).
  rewrite E1, E2. assert (P : (2 ^ l <= 2 ^ L)%nat) by (apply Nat.pow_le_mono_r; lia). destruct (Nat.ltb_spec (2 ^ L) (2 ^ l)); [lia|].
  assert (One : forall j, (j < length ctOut)%nat -> exists u, MapSmallDimensionToLargerDimensionNTT (nth j ct []) (nth j ctOut []) = Some u /\
     length u = S level /\ rns_ntt rL L level canon u (inflate (2 ^ (L - l)) (C j))).
  { intros j Hj. destruct (HC j ltac:(lia)) as [Lj Rj]. destruct (HO j ltac:(lia)) as [Lo No].
    destruct (embed_lemma rS rL l L level N2 canon (nth j ct []) (nth j ctOut []) (C j) Lj Rj ltac:(lia) No) as (u & Eu & [Ku _] & Ru).
    exists u. split; [exact Eu|]. split; [rewrite Ku, Lo; lia|exact Ru]. }
  destruct (each_poly_ok MapSmallDimensionToLargerDimensionNTT [] ct ctOut ltac:(lia)) as (ct' & E' & L' & N').
  { intros j Hj. destruct (One j Hj) as (u & Eu & _). exists u. exact Eu. }
  rewrite E'. exists ct'. split; [reflexivity|]. split; [lia|]. split; [lia|]. intros j Hj. destruct (One j ltac:(lia)) as (u & Eu & Lu & Ru).
  rewrite (N' j ltac:(lia)) in Eu. injection Eu as ->. split; assumption.
Qed.

Lemma switch_row p o gapIn gapOut k d : (k < length o)%nat ->
  nth k (map (fun k => if Nat.eqb (k mod gapIn) 0 then nth (k / gapIn * gapOut) p 0 else nth k o 0) (seq 0 (length o))) d =
  if Nat.eqb (k mod gapIn) 0 then nth (k / gapIn * gapOut) p 0 else nth k o 0.
Proof.
  intros Hk. exact (nth_map_seq (fun k => if Nat.eqb (k mod gapIn) 0 then nth (k / gapIn * gapOut) p 0 else nth k o 0) (length o) k d Hk).
Qed.

Lemma up_coeffs_lemma : forall rS rL l L level, nested 9 rS rL l L level -> forall (ct ctOut : list rows) C,
  ct_dom rS l level false ct C -> length ctOut = length ct -> (forall j, (j < length ct)%nat -> sized level (rN rL) (nth j ctOut [])) ->
  exists ct', SwitchCiphertextRingDegree ct ctOut = Some ct' /\ length ct' = length ct /\
    (forall j i k, (j < length ct)%nat -> (i <= level)%nat -> (k < rN rL)%nat -> (k mod 2 ^ (L - l) <> 0)%nat ->
       coeff (nth j ct' []) i k = coeff (nth j ctOut []) i k) /\
    ((forall j i k, (j < length ct)%nat -> (i <= level)%nat -> (k < rN rL)%nat -> coeff (nth j ctOut []) i k = 0) ->
     ct_dom rL L level false ct' (fun j => inflate (2 ^ (L - l)) (C j))).
Proof.
  intros rS rL l L level HN ct ctOut C [Hct HC] Hl HO. pose proof HN as (HS & HL & ES & EL & Hle & HlS & HlL & Hq).
  destruct (pow_gap l L Hle) as [G1 G2]. pose proof (pow2n_pos (L - l)) as PG.
  unfold SwitchCiphertextRingDegree. cbv zeta.
  assert (E1 : length (prow (nth 0 ct []) 0) = (2 ^ l)%nat) by (destruct (HC O Hct) as [_ (_ & _ & R)]; rewrite <- ES; apply (R O); lia).
  assert (E2 : length (prow (nth 0 ctOut []) 0) = (2 ^ L)%nat) by (rewrite <- EL; apply (HO O Hct); lia).
  rewrite E1, E2. assert (P : (2 ^ l <= 2 ^ L)%nat) by (apply Nat.pow_le_mono_r; lia). destruct (Nat.ltb_spec (2 ^ L) (2 ^ l)); [lia|]. rewrite G2.
  match goal with |- context [each_poly ?f ct ctOut] => destruct (each_poly_ok f [] ct ctOut ltac:(lia)) as (ct' & E' & L' & N') end.
  { intros j Hj. rewrite (proj1 (HC j ltac:(lia))), (proj1 (HO j ltac:(lia))). rewrite Nat.ltb_irrefl. eexists. reflexivity. }
  rewrite E'. exists ct'. split; [reflexivity|]. split; [lia|].
  assert (Row : forall j i k, (j < length ct)%nat -> (i <= level)%nat -> (k < rN rL)%nat ->
     coeff (nth j ct' []) i k = if Nat.eqb (k mod 2 ^ (L - l)) 0 then coeff (nth j ct []) i (k / 2 ^ (L - l)) else coeff (nth j ctOut []) i k).
  { intros j i k Hj Hi Hk. specialize (N' j ltac:(lia)). destruct (HC j Hj) as [Lj _]. destruct (HO j Hj) as [Lo No]. rewrite Lj, Lo, Nat.ltb_irrefl in N'. apply some_inj' in N'. rewrite <- N'.
    unfold coeff at 1. rewrite lvl_nth_lt by lia. rewrite switch_row by (unfold prow; rewrite (No i Hi); exact Hk). rewrite Nat.mul_1_r. reflexivity. }
  assert (Len : forall j, (j < length ct)%nat -> length (nth j ct' []) = S level /\ forall i, (i <= level)%nat -> length (nth i (nth j ct' []) []) = rN rL).
  { intros j Hj. specialize (N' j ltac:(lia)). destruct (HC j Hj) as [Lj _]. destruct (HO j Hj) as [Lo No]. rewrite Lj, Lo, Nat.ltb_irrefl in N'. apply some_inj' in N'. rewrite <- N'.
    split; [rewrite lvl_length, Lo; lia|]. intros i Hi. rewrite lvl_nth_lt by lia. rewrite map_length, seq_length. unfold prow. apply No. exact Hi. }
  split.
  - intros j i k Hj Hi Hk Hm. rewrite Row by assumption. destruct (Nat.eqb_spec (k mod 2 ^ (L - l)) 0); [contradiction|reflexivity].
  - intros Z0. split; [lia|]. intros j Hj. rewrite L', Hl in Hj. destruct (Len j Hj) as [A1 A2]. split; [exact A1|].
    split; [exact HlL|]. split; [lia|]. intros i Hi. split; [apply A2; exact Hi|]. intros k Hk. fold (coeff (nth j ct' []) i k). rewrite Row by assumption.
    destruct (HC j Hj) as [_ (_ & _ & R)]. destruct (R i Hi) as [_ R']. rewrite (Hq i Hi) in R'. unfold inflate.
    destruct (Nat.eqb_spec (k mod 2 ^ (L - l)) 0) as [E|E].
    + apply R'. rewrite ES. apply Nat.div_lt_upper_bound; [lia|]. rewrite EL in Hk. lia.
    + rewrite Z0 by assumption. destruct (built_mod 9 rL i ltac:(lia) HL ltac:(lia)) as (Q5 & _). unfold canon. split; [lia|reflexivity].
Qed.

(** ** From the large ring to the small one *)
Lemma down_coeffs_lemma : forall rS rL l L level, nested 9 rS rL l L level -> forall (ct ctOut : list rows) C,
  ct_dom rL L level false ct C -> length ctOut = length ct -> (forall j, (j < length ct)%nat -> sized level (rN rS) (nth j ctOut [])) ->
  exists ct', SwitchCiphertextRingDegree ct ctOut = Some ct' /\ length ct' = length ct /\
    ct_dom rS l level false ct' (fun j => deflate (2 ^ (L - l)) (C j)).
Proof.
  intros rS rL l L level HN ct ctOut C [Hct HC] Hl HO. pose proof HN as (HS & HL & ES & EL & Hle & HlS & HlL & Hq).
  destruct (pow_gap l L Hle) as [G1 G2]. pose proof (pow2n_pos (L - l)) as PG.
  unfold SwitchCiphertextRingDegree. cbv zeta.
  assert (E1 : length (prow (nth 0 ct []) 0) = (2 ^ L)%nat) by (destruct (HC O Hct) as [_ (_ & _ & R)]; rewrite <- EL; apply (R O); lia).
  assert (E2 : length (prow (nth 0 ctOut []) 0) = (2 ^ l)%nat) by (rewrite <- ES; apply (HO O Hct); lia).
  rewrite E1, E2, G2.
  assert (G : exists g, (if Nat.ltb (2 ^ l) (2 ^ L) then (1, 2 ^ (L - l))%nat else (2 ^ l / 2 ^ L, 1)%nat) = (1%nat, g) /\ g = (2 ^ (L - l))%nat).
  { destruct (Nat.ltb_spec (2 ^ l) (2 ^ L)) as [H|H]; [eexists; split; reflexivity|].
    assert (L = l). { destruct (Nat.eq_dec L l) as [|D]; [assumption|]. assert (2 ^ l < 2 ^ L)%nat by (apply Nat.pow_lt_mono_r; lia). lia. }
    subst L. exists 1%nat. rewrite Nat.div_same by (pose proof (pow2n_pos l); lia). rewrite Nat.sub_diag. split; reflexivity. }
  destruct G as (g & Eg & ->). rewrite Eg.
  match goal with |- context [each_poly ?f ct ctOut] => destruct (each_poly_ok f [] ct ctOut ltac:(lia)) as (ct' & E' & L' & N') end.
  { intros j Hj. rewrite (proj1 (HC j ltac:(lia))), (proj1 (HO j ltac:(lia))). rewrite Nat.ltb_irrefl. eexists. reflexivity. }
  rewrite E'. exists ct'. split; [reflexivity|]. split; [lia|]. split; [lia|]. intros j Hj. rewrite L', Hl in Hj.
  specialize (N' j ltac:(lia)). destruct (HC j Hj) as [Lj (_ & _ & R)]. destruct (HO j Hj) as [Lo No]. rewrite Lj, Lo, Nat.ltb_irrefl in N'. apply some_inj' in N'. rewrite <- N'.
  split; [rewrite lvl_length, Lo; lia|]. split; [exact HlS|]. split; [rewrite lvl_length; lia|]. intros i Hi. rewrite lvl_nth_lt by lia.
  split; [rewrite map_length, seq_length; apply No; exact Hi|]. intros k Hk. rewrite switch_row by (unfold prow; rewrite (No i Hi); exact Hk).
  rewrite Nat.mod_1_r, Nat.div_1_r. cbn [Nat.eqb]. destruct (R i Hi) as [_ R']. rewrite (Hq i Hi). unfold prow, deflate. apply R'. rewrite ES in Hk. rewrite EL, G1. nia.
Qed.

Lemma down_ntt_lemma : forall rS rL l L level, nested 9 rS rL l L level -> (l < L)%nat -> forall (ct ctOut : list rows) C,
  ct_dom rL L level true ct C -> length ctOut = length ct -> (forall j, (j < length ct)%nat -> sized level (rN rS) (nth j ctOut [])) ->
  exists ct', SwitchCiphertextRingDegreeNTT ct rS rL ctOut = Some (ct', ctOut) /\ length ct' = length ct /\
    ct_dom rS l level true (map (map (firstn (rN rS))) ct') (fun j => deflate (2 ^ (L - l)) (C j)).
Proof.
  intros rS rL l L level HN Hlt ct ctOut C [Hct HC] Hl HO. pose proof HN as (HS & HL & ES & EL & Hle & HlS & HlL & Hq).
  destruct (pow_gap l L Hle) as [G1 G2]. pose proof (pow2n_pos (L - l)) as PG.
  assert (HS2 : built_ring 2 rS) by (apply (built_le 9); [lia|exact HS]). assert (HL2 : built_ring 2 rL) by (apply (built_le 9); [lia|exact HL]).
  unfold SwitchCiphertextRingDegreeNTT. cbv zeta.
  assert (E1 : length (prow (nth 0 ct []) 0) = (2 ^ L)%nat) by (destruct (HC O Hct) as [_ (_ & _ & R)]; apply (R O); lia).
  assert (E2 : length (prow (nth 0 ctOut []) 0) = (2 ^ l)%nat) by (rewrite <- ES; apply (HO O Hct); lia).
  rewrite E1, E2, G2. assert (P : (2 ^ l < 2 ^ L)%nat) by (apply Nat.pow_lt_mono_r; lia). destruct (Nat.ltb_spec (2 ^ l) (2 ^ L)); [|lia].
  match goal with |- context [each_poly ?f ct ctOut] => destruct (each_poly_ok f [] ct ctOut ltac:(lia)) as (ct' & E' & L' & N') end.
  { intros j Hj. rewrite (proj1 (HC j ltac:(lia))), (proj1 (HO j ltac:(lia))). rewrite Nat.ltb_irrefl. eexists. reflexivity. }
  rewrite E', Hl, skipn_all, app_nil_r. exists ct'. split; [reflexivity|]. split; [lia|]. split; [unfold rows in *; rewrite map_length; lia|].
  intros j Hj. assert (Hj0 : (j < length ct)%nat) by (unfold rows in *; rewrite map_length in Hj; lia). clear Hj. rename Hj0 into Hj. unfold rows in *. rewrite (nth_indep _ [] (map (firstn (rN rS)) [])) by (rewrite map_length; lia). rewrite map_nth.
  specialize (N' j ltac:(lia)). destruct (HC j Hj) as [Lj (_ & _ & R)]. destruct (HO j Hj) as [Lo No]. rewrite Lj, Lo, Nat.ltb_irrefl in N'. apply some_inj' in N'. rewrite <- N'.
  split; [rewrite map_length, lvl_length, Lj; lia|]. split; [exact HlS|]. split; [rewrite map_length, lvl_length; lia|]. intros i Hi.
  rewrite (nth_indep _ [] (firstn (rN rS) [])) by (rewrite map_length, lvl_length; lia). rewrite map_nth, lvl_nth_lt by lia. unfold down_ntt_row, prow.
  destruct (built_L rS l HS2 ES) as [_ H4]. destruct (built_mod 9 rL i ltac:(lia) HL ltac:(lia)) as (Q5 & Q9 & _).
  set (row := nth i (nth j ct []) []). set (pool := invntt_row (rN rL) (rmod rL i) row).
  assert (HI : row_repr (2 ^ L) (mq (rmod rL i)) (mq (rmod rL i)) pool (C j)).
  { unfold pool. rewrite EL. apply (invntt_row_repr L (rmod rL i) ltac:(lia) (built_wf rL L HL2 EL i ltac:(lia))); [lia|].
    apply (row_repr_weaken _ _ (mq (rmod rL i))); [lia|]. apply (R i Hi). }
  set (sub := map (fun w => nth (w * 2 ^ (L - l)) pool 0) (seq 0 (2 ^ l))).
  assert (Ls : length sub = (2 ^ l)%nat) by (unfold sub; rewrite map_length, seq_length; reflexivity).
  assert (F1 : firstn (rN rS) (sub ++ skipn (2 ^ l) row) = sub) by (rewrite ES, <- Ls, firstn_app, Nat.sub_diag, firstn_all; cbn [firstn]; apply app_nil_r).
  rewrite F1.
  assert (HT : ntt_repr l (rmod rS i) (mq (rmod rS i)) (ntt_row (2 ^ l) (rmod rS i) sub) (deflate (2 ^ (L - l)) (C j))).
  { rewrite <- (Hq i Hi) in Q5, Q9, HI. apply (ntt_row_repr l (rmod rS i) ltac:(lia) (built_wf rS l HS2 ES i ltac:(lia)) (mq (rmod rS i))); [lia|lia|].
    split; [exact Ls|]. intros k Hk. unfold sub. rewrite (nth_map_seq (fun w => nth (w * 2 ^ (L - l)) pool 0) (2 ^ l) k 0 Hk). apply HI. rewrite G1. nia. }
  rewrite ES in *. replace (firstn (2 ^ l) (ntt_row (2 ^ l) (rmod rS i) sub ++ ReduceVec (skipn (2 ^ l) (sub ++ skipn (2 ^ l) row)) (mq (rmod rS i)) (mbred (rmod rS i))))
    with (ntt_row (2 ^ l) (rmod rS i) sub); [exact HT|].
  assert (Ln : length (ntt_row (2 ^ l) (rmod rS i) sub) = (2 ^ l)%nat) by (apply HT).
  rewrite firstn_app, Ln, Nat.sub_diag. cbn [firstn]. rewrite app_nil_r. symmetry. rewrite <- Ln at 1. apply firstn_all.
Qed.

(** ** Decryption *)
Lemma ct_rns_dom r L level b ct C : ct_dom r L level b ct C -> forall j, (j < length ct)%nat -> rns_dom r L level b (nth j ct []) (C j).
Proof. intros [_ H] j Hj. destruct (H j Hj) as [_ H']. destruct b; exact H'. Qed.

Lemma dom_unique r L level b p X Y : built_ring 9 r -> rN r = (2 ^ L)%nat -> rns_dom r L level b p X -> rns_dom r L level b p Y ->
  forall i, (i <= level)%nat -> peq (rN r) (mq (rmod r i)) X Y.
Proof.
  intros Hr EL. destruct b; cbn [rns_dom]; [apply ntt_unique; assumption|]. intros (_ & _ & H1) (_ & _ & H2) i Hi k Hk.
  rewrite <- (proj2 (proj2 (H1 i Hi) k Hk)). apply (proj2 (H2 i Hi) k Hk).
Qed.
Lemma dom_peq' r L level b p X Y : built_ring 9 r -> rN r = (2 ^ L)%nat -> (forall i, (i <= level)%nat -> peq (rN r) (mq (rmod r i)) X Y) ->
  rns_dom r L level b p X -> rns_dom r L level b p Y.
Proof. intros Hr EL H. destruct b; cbn [rns_dom]; [apply (ntt_peq r L EL); exact H|apply rns_peq; exact H]. Qed.

Lemma up_decrypts_lemma : forall rS rL l L level, nested 9 rS rL l L level -> forall (ct ct' : list rows) C b bp sk sk' s pt pt' pool pool' V,
  ct_dom rS l level b ct C -> ct_dom rL L level b ct' (fun j => inflate (2 ^ (L - l)) (C j)) -> length ct' = length ct ->
  (b = true \/ (length ct - 1) mod 8 <> 7)%nat ->
  rns_ntt rS l level canon sk (pscale W s) -> rns_ntt rL L level canon sk' (pscale W (inflate (2 ^ (L - l)) s)) ->
  length pt = S level -> length pt' = S level ->
  rns_dom rS l level bp (Decrypt rS sk ct b pt bp pool) V ->
  rns_dom rL L level bp (Decrypt rL sk' ct' b pt' bp pool') (inflate (2 ^ (L - l)) V).
Proof.
  intros rS rL l L level HN ct ct' C b bp sk sk' s pt pt' pool pool' V Hct Hct' El Hd Hs Hs' Lp Lp' HV.
  pose proof HN as (HS & HL & ES & EL & Hle & HlS & HlL & Hq).
  destruct (pow_gap l L Hle) as [G1 _]. pose proof (pow2n_pos (L - l)) as PG. pose proof (pow2n_pos l) as Pl.
  pose proof (proj1 Hct) as H0.
  destruct (decrypt_correct rS HS l ES level ct b sk C s HlS (ct_rns_dom _ _ _ _ _ _ Hct) Hs pt bp pool H0) as (_ & D1 & _).
  { rewrite (proj1 (proj2 Hct O H0)), Lp. lia. }
  destruct (decrypt_correct rL HL L EL level ct' b sk' _ (inflate (2 ^ (L - l)) s) HlL (ct_rns_dom _ _ _ _ _ _ Hct') Hs' pt' bp pool' ltac:(lia)) as (_ & D2 & _).
  { rewrite (proj1 (proj2 Hct' O ltac:(lia))), Lp'. lia. }
  rewrite El in D2. specialize (D1 Hd). specialize (D2 Hd).
  fold (phase (rN rS) (length ct) C s) in D1. fold (phase (rN rL) (length ct) (fun j => inflate (2 ^ (L - l)) (C j)) (inflate (2 ^ (L - l)) s)) in D2.
  revert D2. apply dom_peq'; [exact HL|exact EL|]. intros i Hi. rewrite EL, G1.
  transitivity (inflate (2 ^ (L - l)) (phase (2 ^ l) (length ct) C s)); [apply peq_0, phase_inflate; lia|].
  apply inflate_peq; [lia|]. rewrite <- (Hq i Hi), <- ES. apply (dom_unique rS l level bp (Decrypt rS sk ct b pt bp pool)); try assumption.
Qed.

Lemma down_decrypts_lemma : forall rS rL l L level, nested 9 rS rL l L level -> forall (ct ct' : list rows) C b bp sk sk' s pt pt' pool pool' V,
  ct_dom rL L level b ct C -> ct_dom rS l level b ct' (fun j => deflate (2 ^ (L - l)) (C j)) -> length ct' = length ct ->
  (b = true \/ (length ct - 1) mod 8 <> 7)%nat ->
  rns_ntt rS l level canon sk (pscale W s) -> rns_ntt rL L level canon sk' (pscale W (inflate (2 ^ (L - l)) s)) ->
  length pt = S level -> length pt' = S level ->
  rns_dom rL L level bp (Decrypt rL sk' ct b pt bp pool) V ->
  rns_dom rS l level bp (Decrypt rS sk ct' b pt' bp pool') (deflate (2 ^ (L - l)) V).
Proof.
  intros rS rL l L level HN ct ct' C b bp sk sk' s pt pt' pool pool' V Hct Hct' El Hd Hs Hs' Lp Lp' HV.
  pose proof HN as (HS & HL & ES & EL & Hle & HlS & HlL & Hq).
  destruct (pow_gap l L Hle) as [G1 _]. pose proof (pow2n_pos (L - l)) as PG. pose proof (pow2n_pos l) as Pl.
  pose proof (proj1 Hct) as H0.
  destruct (decrypt_correct rL HL L EL level ct b sk' C (inflate (2 ^ (L - l)) s) HlL (ct_rns_dom _ _ _ _ _ _ Hct) Hs' pt bp pool H0) as (_ & D1 & _).
  { rewrite (proj1 (proj2 Hct O H0)), Lp. lia. }
  destruct (decrypt_correct rS HS l ES level ct' b sk _ s HlS (ct_rns_dom _ _ _ _ _ _ Hct') Hs pt' bp pool' ltac:(lia)) as (_ & D2 & _).
  { rewrite (proj1 (proj2 Hct' O ltac:(lia))), Lp'. lia. }
  rewrite El in D2. specialize (D1 Hd). specialize (D2 Hd).
  fold (phase (rN rL) (length ct) C (inflate (2 ^ (L - l)) s)) in D1. fold (phase (rN rS) (length ct) (fun j => deflate (2 ^ (L - l)) (C j)) s) in D2.
  revert D2. apply dom_peq'; [exact HS|exact ES|]. intros i Hi. rewrite ES.
  transitivity (deflate (2 ^ (L - l)) (phase (2 ^ l * 2 ^ (L - l)) (length ct) C (inflate (2 ^ (L - l)) s))); [apply peq_0, phase_deflate; lia|].
  apply deflate_peq; [lia|]. rewrite <- G1, <- EL, (Hq i Hi). apply (dom_unique rL L level bp (Decrypt rL sk' ct b pt bp pool)); try assumption.
Qed.

(** ** The two steps together *)
Lemma up_end_lemma : forall rS rL l L level, nested 9 rS rL l L level -> forall (ct ctOut : list rows) C bp sk sk' s pt pt' pool pool' V,
  ct_dom rS l level true ct C -> length ctOut = length ct -> (forall j, (j < length ct)%nat -> sized level (rN rL) (nth j ctOut [])) ->
  rns_ntt rS l level canon sk (pscale W s) -> rns_ntt rL L level canon sk' (pscale W (inflate (2 ^ (L - l)) s)) ->
  length pt = S level -> length pt' = S level ->
  rns_dom rS l level bp (Decrypt rS sk ct true pt bp pool) V ->
  exists ct', SwitchCiphertextRingDegreeNTT ct rS rL ctOut = Some (ct, ct') /\
    rns_dom rL L level bp (Decrypt rL sk' ct' true pt' bp pool') (inflate (2 ^ (L - l)) V).
Proof.
  intros rS rL l L level HN ct ctOut C bp sk sk' s pt pt' pool pool' V Hct Hl Ho Hs Hs' Lp Lp' HV.
  destruct (up_ntt_lemma rS rL l L level HN ct ctOut C Hct Hl Ho) as (ct' & E & L' & D). exists ct'. split; [exact E|].
  apply (up_decrypts_lemma rS rL l L level HN ct ct' C true bp sk sk' s pt pt' pool pool' V); try assumption. left. reflexivity.
Qed.
Lemma down_end_lemma : forall rS rL l L level, nested 9 rS rL l L level -> forall (ct ctOut : list rows) C bp sk sk' s pt pt' pool pool' V,
  ct_dom rL L level false ct C -> length ctOut = length ct -> (forall j, (j < length ct)%nat -> sized level (rN rS) (nth j ctOut [])) ->
  ((length ct - 1) mod 8 <> 7)%nat ->
  rns_ntt rS l level canon sk (pscale W s) -> rns_ntt rL L level canon sk' (pscale W (inflate (2 ^ (L - l)) s)) ->
  length pt = S level -> length pt' = S level ->
  rns_dom rL L level bp (Decrypt rL sk' ct false pt bp pool) V ->
  exists ct', SwitchCiphertextRingDegree ct ctOut = Some ct' /\
    rns_dom rS l level bp (Decrypt rS sk ct' false pt' bp pool') (deflate (2 ^ (L - l)) V).
Proof.
  intros rS rL l L level HN ct ctOut C bp sk sk' s pt pt' pool pool' V Hct Hl Ho Hd Hs Hs' Lp Lp' HV.
  destruct (down_coeffs_lemma rS rL l L level HN ct ctOut C Hct Hl Ho) as (ct' & E & L' & D). exists ct'. split; [exact E|].
  apply (down_decrypts_lemma rS rL l L level HN ct ct' C false bp sk sk' s pt pt' pool pool' V); try assumption. right. exact Hd.
Qed.
Lemma up_coeffs_end_lemma : forall rS rL l L level, nested 9 rS rL l L level -> forall (ct ctOut : list rows) C bp sk sk' s pt pt' pool pool' V,
  ct_dom rS l level false ct C -> length ctOut = length ct -> (forall j, (j < length ct)%nat -> sized level (rN rL) (nth j ctOut [])) ->
  (forall j i k, (j < length ct)%nat -> (i <= level)%nat -> (k < rN rL)%nat -> coeff (nth j ctOut []) i k = 0) ->
  ((length ct - 1) mod 8 <> 7)%nat ->
  rns_ntt rS l level canon sk (pscale W s) -> rns_ntt rL L level canon sk' (pscale W (inflate (2 ^ (L - l)) s)) ->
  length pt = S level -> length pt' = S level ->
  rns_dom rS l level bp (Decrypt rS sk ct false pt bp pool) V ->
  exists ct', SwitchCiphertextRingDegree ct ctOut = Some ct' /\
    rns_dom rL L level bp (Decrypt rL sk' ct' false pt' bp pool') (inflate (2 ^ (L - l)) V).
Proof.
  intros rS rL l L level HN ct ctOut C bp sk sk' s pt pt' pool pool' V Hct Hl Ho Hz Hd Hs Hs' Lp Lp' HV.
  destruct (up_coeffs_lemma rS rL l L level HN ct ctOut C Hct Hl Ho) as (ct' & E & L' & _ & D). exists ct'. split; [exact E|].
  apply (up_decrypts_lemma rS rL l L level HN ct ct' C false bp sk sk' s pt pt' pool pool' V); try assumption; [exact (D Hz)|]. right. exact Hd.
Qed.
