(** The basis extension on whole polynomials. *)
From Verif Require Import Word ModRed Arith ModRedProofs Fermat PolySpec PolyProofs Ring RingProofs NTT NTTProofs RingOps RNSSpec RowProofs OpsProofs CRT Float64 FloatProofs BasisExt BasisProofs.
Open Scope Z_scope.

(** ** One coefficient at a time *)
Definition lifted (ms : list modp) (P xs : list Z) : Z :=
  let params := basisextenderparameters (map mq ms) P in
  recM ms P xs - snd (reconstructRNS ms (qoverqiinvqi params) xs) * prodZ (map mq ms).

Section Lift.
  Variables (ms : list modp) (P : list Z).
  Hypothesis (Hms : forall m, In m ms -> prime (mq m) /\ 5 <= mq m /\ 2 * mq m <= W /\ mqinv m = MRedParams (mq m)).
  Hypothesis (Hnd : NoDup (map mq ms)) (Hk : (length ms <= 32)%nat).
  Variables (xs : list Z).
  Hypothesis (Hxs : forall i, (i < length ms)%nat -> 0 <= nth i xs 0 < W).

  Lemma lifted_eqm i : (i < length ms)%nat -> eqm (mq (nth i ms modp0)) (lifted ms P xs) (nth i xs 0).
  Proof.
    intros Hi. unfold lifted. rewrite <- (nth_mq ms i Hi).
    rewrite <- (recM_eqm ms Hms Hnd P xs Hxs i Hi).
    rewrite <- (qstar_prod i (map mq ms)) by (rewrite map_length; exact Hi).
    set (v := snd (reconstructRNS ms _ xs)).
    apply (eqm_intro _ _ _ (- (v * qstar i (map mq ms)))). ring.
  Qed.

  Lemma lifted_margin : - prodZ (map mq ms) < 2 ^ 42 * lifted ms P xs /\
    2 ^ 42 * (lifted ms P xs - prodZ (map mq ms)) < prodZ (map mq ms).
  Proof. apply (rc_v ms Hms Hnd P xs Hxs Hk). Qed.

  Lemma lifted_row j p qInv t :
    (j < length P)%nat -> nth j P 0 = p -> qInv = MRedParams p -> Z.odd p = true -> 2 <= p ->
    0 <= t -> bigsum (length ms) (fun i => nth i (map mq ms) 0) <= t * W -> (t + 2) * p <= W ->
    let params := basisextenderparameters (map mq ms) P in
    let res := multSum (reconstructRNS ms (qoverqiinvqi params) xs) p qInv
                 (nth j (vtimesqmodp params) []) (nth j (qoverqimodp params) []) in
    0 < res < (t + 2) * p /\ eqm p res (lifted ms P xs).
  Proof. intros. unfold res, params. apply (multSum_spec ms Hms Hnd P xs Hxs j p qInv t); assumption. Qed.
End Lift.

Lemma wf_ms L r n : wf_ring L L r -> forall m, In m (firstn n (rmods r)) ->
  prime (mq m) /\ 5 <= mq m /\ 2 * mq m <= W /\ mqinv m = MRedParams (mq m).
Proof.
  intros Hw m Hm. apply firstn_in in Hm. pose proof (wfr_mods _ _ _ Hw m Hm) as H.
  split; [apply (wf_prime _ _ H)|split; [apply (wf_ge _ _ H)|split; [apply (wf_W _ _ H)|apply (wf_qinv _ _ H)]]].
Qed.

Lemma nth_moduli r i : (i < length (rmods r))%nat -> nth i (moduli r) 0 = mq (rmod r i).
Proof. intros H. unfold moduli, rmod. rewrite (nth_indep _ 0 (mq modp0)) by (rewrite map_length; exact H). apply map_nth. Qed.

Section ModUp.
  Variables (L : nat) (rQ rP : Ring).
  Hypothesis (HQ : wf_ring L L rQ) (HP : wf_ring L L rP).
  Variables (levelQ : nat).
  Hypothesis (HlQ : (levelQ < length (rmods rQ))%nat) (Hk : (levelQ < 32)%nat).
  Let ms := firstn (S levelQ) (rmods rQ).

  Lemma ms_len : length ms = S levelQ.
  Proof. unfold ms. rewrite firstn_length. lia. Qed.
  Lemma ms_Q : map mq ms = firstn (S levelQ) (moduli rQ).
  Proof. clear. unfold ms, moduli. symmetry. apply firstn_map. Qed.
  Lemma ms_nth i : (i <= levelQ)%nat -> nth i ms modp0 = rmod rQ i.
  Proof. clear. intros Hi. unfold ms, rmod. apply nth_firstn. lia. Qed.
  Lemma ms_prod : prodZ (map mq ms) = lprod rQ levelQ.
  Proof. rewrite ms_Q. symmetry. apply lprod_prodZ. Qed.
  Lemma ms_sum : bigsum (length ms) (fun i => nth i (map mq ms) 0) = lsum rQ levelQ.
  Proof.
    rewrite ms_len. unfold lsum. apply bigsum_ext. intros i Hi.
    rewrite (nth_mq ms i) by (rewrite ms_len; exact Hi). rewrite ms_nth by lia. reflexivity.
  Qed.
  Lemma ms_nodup : NoDup (map mq ms).
  Proof. rewrite ms_Q. apply firstn_nodup. apply (wfr_distinct _ _ _ HQ). Qed.

  Lemma modUpExact_spec levelP t p1 p2 X :
    (levelP < length (rmods rP))%nat ->
    0 <= t -> lsum rQ levelQ <= t * W -> (forall j, (j <= levelP)%nat -> (t + 2) * mq (rmod rP j) <= W) ->
    rns_repr rQ levelQ (fun _ => W) p1 X ->
    let out := modUpExact rQ rP (S levelQ) (S levelP) (basisextenderparameters (firstn (S levelQ) (moduli rQ)) (moduli rP)) p1 p2 in
    exists X', (forall k, (k < rN rQ)%nat -> lift_of (lprod rQ levelQ) (X k) (X' k)) /\
      rns_repr rP levelP (fun p => (t + 2) * p) out X' /\ kept levelP p2 out.
  Proof.
    intros HlP Ht Hs HtW (_ & Hl1 & Hr) out.
    set (src := fun x => map (fun i => nth x (nth i p1 []) 0) (seq 0 (S levelQ))).
    assert (Hsrc : forall x i, (i <= levelQ)%nat -> nth i (src x) 0 = nth x (nth i p1 []) 0)
      by (intros x i Hi; unfold src; rewrite nth_map_seq by lia; reflexivity).
    assert (Hxs : forall x, (x < rN rQ)%nat -> forall i, (i < length ms)%nat -> 0 <= nth i (src x) 0 < W).
    { intros x Hx i Hi. rewrite ms_len in Hi. rewrite Hsrc by lia. apply (Hr i ltac:(lia)). exact Hx. }
    assert (Hms := wf_ms L rQ (S levelQ) HQ).
    assert (EN : rN rP = rN rQ) by (rewrite (wfr_N _ _ _ HQ), (wfr_N _ _ _ HP); reflexivity).
    assert (Hk' : (length ms <= 32)%nat) by (rewrite ms_len; lia).
    exists (fun x => lifted ms (moduli rP) (src x)). split; [|split].
    - intros x Hx. split; [|].
      + apply (lprod_eqm L rQ HQ levelQ _ _ HlQ). intros i Hi.
        rewrite <- (ms_nth i Hi).
        rewrite (lifted_eqm ms (moduli rP) Hms ms_nodup (src x) (Hxs x Hx) i) by (rewrite ms_len; lia).
        rewrite Hsrc by exact Hi. rewrite (ms_nth i Hi). apply (Hr i Hi). exact Hx.
      + rewrite <- ms_prod. apply (lifted_margin ms (moduli rP) Hms ms_nodup Hk' (src x) (Hxs x Hx)).
    - split; [exact HlP|]. split; [unfold out, modUpExact; rewrite lvl_length; lia|].
      intros j Hj. unfold out, modUpExact. rewrite lvl_nth_lt by lia.
      unfold prow. rewrite (row_repr_length _ _ _ _ _ (Hr O ltac:(lia))).
      split; [rewrite !map_length, seq_length; symmetry; exact EN|].
      intros x Hx. rewrite EN in Hx. rewrite map_map. rewrite nth_map_seq by exact Hx.
      fold (src x). rewrite <- ms_Q. fold ms.
      pose proof (wf_ring_mod _ _ _ j HP ltac:(lia)) as Hwj.
      destruct (lifted_row ms (moduli rP) Hms ms_nodup Hk' (src x) (Hxs x Hx) j (mq (rmod rP j)) (mqinv (rmod rP j)) t) as [R1 R2].
      + unfold moduli. rewrite map_length. lia.
      + apply nth_moduli. lia.
      + apply (wf_qinv _ _ Hwj).
      + apply (wf_odd _ _ Hwj).
      + pose proof (wf_ge _ _ Hwj). lia.
      + exact Ht.
      + rewrite ms_sum. exact Hs.
      + apply HtW. exact Hj.
      + split; [lia|exact R2].
    - split; [unfold out, modUpExact; apply lvl_length|].
      intros i Hi. unfold out, modUpExact. apply lvl_nth_ge. lia.
  Qed.
End ModUp.

(** ** The constants of the division *)
Lemma moddown_loop mods : (forall m, In m mods -> exists L, wf_modp L m) ->
  forall ps prev first acc,
  (forall p m, In p ps -> In m mods -> 0 <= p < W /\ ~ (mq m | p)) ->
  length prev = length mods ->
  (first = true /\ acc = 1 \/
   first = false /\ forall i, (i < length mods)%nat -> let q := mq (nth i mods modp0) in
     0 <= nth i prev 0 < q /\ eqm q (nth i prev 0 * acc) W) ->
  forall j i, (j < length ps)%nat -> (i < length mods)%nat ->
  let q := mq (nth i mods modp0) in
  let c := nth i (nth j (modDownParams_loop mods ps prev first) []) 0 in
  0 <= c < q /\ eqm q (c * (acc * prodZ (firstn (S j) ps))) W.
Proof.
  intros Hm. induction ps as [|p ps IH]; intros prev first acc Hps Hlen Hpre j i Hj Hi; [cbn in Hj; lia|].
  cbv zeta. cbn [modDownParams_loop].
  set (row := map _ _).
  assert (Hrl : length row = length mods) by (unfold row; rewrite map_length, combine_length; lia).
  assert (Hrow : forall i, (i < length mods)%nat -> let q := mq (nth i mods modp0) in
     0 <= nth i row 0 < q /\ eqm q (nth i row 0 * (acc * p)) W).
  { clear j i Hj Hi IH. intros i Hi. cbv zeta.
    assert (Hin : In (nth i mods modp0) mods) by (apply nth_In; exact Hi).
    destruct (Hm _ Hin) as [L Hw]. destruct (Hps p _ (or_introl eq_refl) Hin) as [Hp Hd].
    unfold row. rewrite (nth_map_any _ _ i 0 (modp0, 0)) by (rewrite combine_length; lia).
    rewrite combine_nth by lia. set (m := nth i mods modp0) in *. set (q := mq m) in *.
    pose proof (wf_ge _ _ Hw) as H5. pose proof (wf_W _ _ Hw) as H2. fold q in H5, H2.
    rewrite (wf_bred _ _ Hw), (wf_qinv _ _ Hw). fold q. rewrite MForm_ModExp by lia.
    set (inv := ((p ^ (q - 2)) mod q * W) mod q).
    assert (Rinv : 0 <= inv < q) by (apply Z.mod_pos_bound; lia).
    assert (Einv : eqm q (inv * p) W).
    { unfold inv. rewrite eqm_mod, eqm_mod.
      transitivity (p * p ^ (q - 2) * W); [apply eqm_eq; ring|].
      unfold q. rewrite (fermat_inv (mq m) p (wf_prime _ _ Hw) Hd). apply eqm_eq. ring. }
    destruct Hpre as [[-> ->]|[-> Hpre]].
    - split; [exact Rinv|]. rewrite <- Einv. apply eqm_eq. ring.
    - destruct (Hpre i Hi) as [Rp Ep]. fold m q in Rp, Ep. set (pr := nth i prev 0) in *.
      pose proof (MRedParams_inv q (wf_odd _ _ Hw)) as Hinv.
      assert (HP : inv * pr < q * W) by (clear - Rinv Rp H2; assert (0 < W) by reflexivity; nia).
      split; [apply MRed_range; try assumption; lia|].
      apply odd_cancel_W; [lia|apply (wf_odd _ _ Hw)|].
      replace (MRed inv pr q (MRedParams q) * (acc * p) * W) with (MRed inv pr q (MRedParams q) * W * (acc * p)) by ring.
      rewrite MRed_eqm; try assumption; try lia.
      transitivity ((inv * p) * (pr * acc)); [apply eqm_eq; ring|]. rewrite Einv, Ep. reflexivity. }
  destruct j as [|j].
  - cbn [nth firstn]. rewrite prodZ_cons, prodZ_nil. rewrite Z.mul_1_r. apply Hrow. exact Hi.
  - cbn [nth firstn]. cbn [length] in Hj.
    destruct (IH row false (acc * p)) with (j := j) (i := i) as [R E]; try assumption; try lia.
    + intros p' m Hp' Hm'. apply Hps; [right; exact Hp'|exact Hm'].
    + right. split; [reflexivity|exact Hrow].
    + split; [exact R|]. rewrite prodZ_cons. rewrite <- E. apply eqm_eq. cbn [firstn]. ring.
Qed.

Section Down.
  Variables (L : nat) (rQ rP : Ring).
  Hypothesis (HQ : wf_ring L L rQ) (HP : wf_ring L L rP) (Hdis : disjoint_moduli rQ rP).

  Lemma moddown_const i j : (i < length (rmods rQ))%nat -> (j < length (rmods rP))%nat ->
    let q := mq (rmod rQ i) in let c := nth i (nth j (genModDownParams rQ rP) []) 0 in
    0 <= c < q /\ eqm q (c * lprod rP j) W.
  Proof.
    intros Hi Hj. cbv zeta. unfold genModDownParams. rewrite lprod_prodZ.
    destruct (moddown_loop (rmods rQ)) with (ps := moduli rP) (prev := repeat 0 (length (rmods rQ))) (first := true) (acc := 1) (j := j) (i := i) as [R E].
    - intros m Hm. exists L. apply (wfr_mods _ _ _ HQ m Hm).
    - intros p m Hp Hm. split.
      + unfold moduli in Hp. apply in_map_iff in Hp. destruct Hp as (m' & <- & Hm').
        pose proof (wfr_mods _ _ _ HP m' Hm') as Hw. pose proof (wf_ge _ _ Hw). pose proof (wf_W _ _ Hw). lia.
      + intros Hd. assert (E : mq m = p).
        { apply prime_div_prime; [apply (wf_prime _ _ (wfr_mods _ _ _ HQ m Hm))|apply (moduli_prime L rP HP p Hp)|exact Hd]. }
        apply (Hdis (mq m)); [unfold moduli; apply in_map; exact Hm|rewrite E; exact Hp].
    - apply repeat_length.
    - left. split; reflexivity.
    - unfold moduli. rewrite map_length. exact Hj.
    - exact Hi.
    - unfold rmod. rewrite Z.mul_1_l in E. split; [exact R|exact E].
  Qed.
End Down.

(** ** One row of the division: (A - X')/D, given D*V = A - X' *)
Lemma down_row L m N B x y c D A X V : wf_modp L m ->
  B + 2 * mq m <= W -> 0 <= c < mq m -> eqm (mq m) (c * D) W ->
  (forall k, (k < N)%nat -> eqm (mq m) (A k - X k) (D * V k)) ->
  row_repr N (mq m) B x X -> row_repr N (mq m) (2 * mq m) y A ->
  row_repr N (mq m) (mq m) (SubMulTwoQi x y (wsub (mq m) c) (mq m) (mqinv m)) V.
Proof.
  intros Hw HB Hc Ec HV. unfold SubMulTwoQi. apply row_map2.
  intros k a b Hk Ha Hb Ea Eb. set (q := mq m) in *.
  pose proof (wf_ge _ _ Hw) as H5. pose proof (wf_W _ _ Hw) as H2. fold q in H5, H2.
  assert (W1 : 1 < W) by reflexivity.
  assert (E1 : wshl q 1 = 2 * q).
  { unfold wshl. change (2 ^ 1) with 2. rewrite w64_small by lia. lia. }
  rewrite E1.
  assert (E2 : wadd (wsub (2 * q) b) a = 2 * q - b + a).
  { unfold wsub, wadd. rewrite (w64_small (2 * q - b)) by lia. apply w64_small. lia. }
  rewrite E2. assert (E3 : wsub q c = q - c) by (apply w64_small; lia). rewrite E3.
  pose proof (wf_inv _ _ Hw) as Hinv. fold q in Hinv.
  assert (HP : (2 * q - b + a) * (q - c) < q * W).
  { assert (H : 0 <= 2 * q - b + a < W) by lia. assert (H' : 0 < q - c <= q) by lia. revert H H' W1. clear. nia. }
  split; [apply MRed_range; try assumption; lia|].
  apply odd_cancel_W; [lia|apply (wf_odd _ _ Hw)|].
  rewrite MRed_eqm; try assumption; try lia.
  (* (a - b)(-c) = (A - X) c, to be compared with V * W = V * D * c *)
  transitivity ((A k - X k) * c).
  { transitivity ((b - a) * c); [apply (eqm_intro _ _ _ (2 * q - 2 * c - b + a)); ring|]. rewrite Ea, Eb. reflexivity. }
  rewrite (HV k Hk). transitivity (V k * (c * D)); [apply eqm_eq; ring|]. rewrite Ec. reflexivity.
Qed.

(** ** Rings as built *)
Lemma built_pair c c' rQ rP : 2 <= c -> 2 <= c' -> built_ring c rQ -> built_ring c' rP -> rN rQ = rN rP ->
  exists L, wf_ring L L rQ /\ wf_ring L L rP /\
    (forall i, (i < length (rmods rQ))%nat -> c * mq (rmod rQ i) <= W) /\
    (forall i, (i < length (rmods rP))%nat -> c' * mq (rmod rP i) <= W).
Proof.
  intros Hc Hc' HQ HP EN.
  destruct (built_ring_wf c rQ Hc HQ) as (L & HL & B). destruct (built_ring_wf c' rP Hc' HP) as (L' & HL' & B').
  rewrite (wfr_N _ _ _ HL), (wfr_N _ _ _ HL') in EN. apply Nat.pow_inj_r in EN; [|lia]. subst L'.
  exists L. split; [exact HL|]. split; [exact HL'|]. split; assumption.
Qed.

Lemma rQ_map {A} (f : nat -> A) n i d : (i < n)%nat -> nth i (map f (seq 0 n)) d = f i.
Proof. apply nth_map_seq. Qed.

(** ** The bounds on the lift, in terms of the residue *)
Lemma lift_cases Q x x' : 0 < Q -> lift_of Q x x' ->
  exists e, -1 <= e <= 1 /\ x' = x mod Q + e * Q.
Proof.
  intros HQ (E & L1 & L2). exists (x' / Q).
  assert (Em : x mod Q = x' mod Q) by (symmetry; exact E). rewrite Em.
  pose proof (Z.div_mod x' Q ltac:(lia)) as D. pose proof (Z.mod_pos_bound x' Q HQ) as B.
  split; [|lia].
  set (d := x' / Q) in *. set (m := x' mod Q) in *. clearbody d m. clear E Em. subst x'.
  split; apply Z.nlt_ge; intros Hlt; nia.
Qed.

Lemma lift_exact Q x x' : 0 < Q -> lift_of Q x x' ->
  Q <= 2 ^ 42 * (x mod Q) -> Q <= 2 ^ 42 * (Q - x mod Q) -> x' = x mod Q.
Proof.
  intros HQ H H1 H2. destruct (lift_cases Q x x' HQ H) as (e & He & ->). destruct H as (_ & L1 & L2).
  pose proof (Z.mod_pos_bound x Q HQ) as B. set (m := x mod Q) in *. clearbody m. clear x.
  assert (e = 0); [|subst e; ring]. assert (C : e = -1 \/ e = 0 \/ e = 1) by lia.
  destruct C as [-> | [-> | ->]]; [exfalso|reflexivity|exfalso]; lia.
Qed.

Lemma modup_lift : forall rQ rP, built_ring 2 rQ -> built_ring 2 rP -> rN rQ = rN rP ->
  forall levelQ levelP t polQ polP X,
  (levelP < length (rmods rP))%nat -> (levelQ < 32)%nat ->
  0 <= t -> lsum rQ levelQ <= t * W -> (forall j, (j <= levelP)%nat -> (t + 2) * mq (rmod rP j) <= W) ->
  rns_repr rQ levelQ (fun _ => W) polQ X ->
  (let out := ModUpQtoP (NewBasisExtender rQ rP) levelQ levelP polQ polP in
   exists X', (forall k, (k < rN rQ)%nat -> lift_of (lprod rQ levelQ) (X k) (X' k)) /\
    rns_repr rP levelP (fun p => (t + 2) * p) out X' /\ kept levelP polP out) /\
  (let out := ModUpPtoQ (NewBasisExtender rP rQ) levelQ levelP polQ polP in
   exists X', (forall k, (k < rN rQ)%nat -> lift_of (lprod rQ levelQ) (X k) (X' k)) /\
    rns_repr rP levelP (fun p => (t + 2) * p) out X' /\ kept levelP polP out).
Proof.
  intros rQ rP BQ BP EN levelQ levelP t polQ polP X HlP H32 Ht Hs HW HX.
  destruct (built_pair 2 2 rQ rP ltac:(lia) ltac:(lia) BQ BP EN) as (L & HQ & HP & _ & _).
  assert (HlQ : (levelQ < length (rmods rQ))%nat) by (destruct HX; assumption).
  assert (G := modUpExact_spec L rQ rP HQ HP levelQ HlQ H32 levelP t polQ polP X HlP Ht Hs HW HX).
  unfold ModUpQtoP, ModUpPtoQ, NewBasisExtender. cbn [beQ beP paramsQtoP paramsPtoQ].
  rewrite !rQ_map by exact HlQ. split; exact G.
Qed.

Lemma lsum_nonneg : forall rQ, built_ring 2 rQ -> forall l, (l < length (rmods rQ))%nat -> 0 < lprod rQ l.
Proof. intros rQ BQ l Hl. destruct (built_ring_wf 2 rQ ltac:(lia) BQ) as (L & HQ & _). apply (lprod_pos L rQ HQ). Qed.

Lemma rns_repr_ext r level B p X Y : (forall k, (k < rN r)%nat -> X k = Y k) -> rns_repr r level B p X -> rns_repr r level B p Y.
Proof.
  intros E (H1 & H2 & H3). split; [exact H1|]. split; [exact H2|]. intros i Hi.
  apply (row_repr_peq _ _ _ _ X); [intros k Hk; rewrite (E k Hk); reflexivity|apply H3; exact Hi].
Qed.

(** ** C10 and C11 *)
Lemma modup_error : forall rQ rP, built_ring 2 rQ -> built_ring 2 rP -> rN rQ = rN rP ->
  forall levelQ levelP t polQ polP X,
  (levelP < length (rmods rP))%nat -> (levelQ < 32)%nat ->
  0 <= t -> lsum rQ levelQ <= t * W -> (forall j, (j <= levelP)%nat -> (t + 2) * mq (rmod rP j) <= W) ->
  rns_repr rQ levelQ (fun _ => W) polQ X ->
  let Q := lprod rQ levelQ in
  forall out, (out = ModUpQtoP (NewBasisExtender rQ rP) levelQ levelP polQ polP \/
               out = ModUpPtoQ (NewBasisExtender rP rQ) levelQ levelP polQ polP) ->
  exists e, (forall k, (k < rN rQ)%nat -> -1 <= e k <= 1 /\
               (Q <= 2 ^ 42 * (X k mod Q) -> Q <= 2 ^ 42 * (Q - X k mod Q) -> e k = 0)) /\
    rns_repr rP levelP (fun p => (t + 2) * p) out (fun k => X k mod Q + e k * Q) /\ kept levelP polP out.
Proof.
  intros rQ rP BQ BP EN levelQ levelP t polQ polP X HlP H32 Ht Hs HW HX Q out Hout.
  assert (HlQ : (levelQ < length (rmods rQ))%nat) by (destruct HX; assumption).
  assert (HQ0 := lsum_nonneg rQ BQ levelQ HlQ). fold Q in HQ0.
  destruct (modup_lift rQ rP BQ BP EN levelQ levelP t polQ polP X HlP H32 Ht Hs HW HX) as [G1 G2].
  assert (G : exists X', (forall k, (k < rN rQ)%nat -> lift_of Q (X k) (X' k)) /\
    rns_repr rP levelP (fun p => (t + 2) * p) out X' /\ kept levelP polP out) by (destruct Hout as [-> | ->]; assumption).
  destruct G as (X' & HL & HR & HK).
  exists (fun k => (X' k - X k mod Q) / Q). split; [|split; [|exact HK]].
  - intros k Hk. destruct (lift_cases Q (X k) (X' k) HQ0 (HL k Hk)) as (e & He & E).
    assert (Ed : (X' k - X k mod Q) / Q = e).
    { rewrite E. replace (X k mod Q + e * Q - X k mod Q) with (e * Q) by ring. apply Z.div_mul. lia. }
    rewrite Ed. split; [exact He|]. intros M1 M2.
    assert (E' := lift_exact Q (X k) (X' k) HQ0 (HL k Hk) M1 M2). rewrite E' in E. nia.
  - apply (rns_repr_ext _ _ _ _ X'); [|exact HR]. intros k Hk. rewrite <- EN in Hk.
    destruct (lift_cases Q (X k) (X' k) HQ0 (HL k Hk)) as (e & He & E).
    assert (Ed : (X' k - X k mod Q) / Q = e).
    { rewrite E. replace (X k mod Q + e * Q - X k mod Q) with (e * Q) by ring. apply Z.div_mul. lia. }
    rewrite Ed. exact E.
Qed.

(** ** C13: division by P *)
Lemma divided P A X' : 0 < P -> lift_of P A X' ->
  exists D, A - X' = P * D /\ -1 <= D - A / P <= 1 /\
    (P <= 2 ^ 42 * (A mod P) -> P <= 2 ^ 42 * (P - A mod P) -> D = A / P).
Proof.
  intros HP H. destruct (lift_cases P A X' HP H) as (e & He & E).
  assert (DM := Z.div_mod A P ltac:(lia)).
  exists (A / P - e). split; [|split].
  - rewrite E. rewrite DM at 1. ring.
  - lia.
  - intros M1 M2. assert (E' := lift_exact P A X' HP H M1 M2). rewrite E' in E. assert (e = 0) by nia. lia.
Qed.

(** Choice of the quotients, coefficient by coefficient. *)
Lemma divided_poly P N (A X' : nat -> Z) : 0 < P -> (forall k, (k < N)%nat -> lift_of P (A k) (X' k)) ->
  let D := fun k => (A k - X' k) / P in
  forall k, (k < N)%nat -> A k - X' k = P * D k /\ -1 <= D k - A k / P <= 1 /\
    (P <= 2 ^ 42 * (A k mod P) -> P <= 2 ^ 42 * (P - A k mod P) -> D k = A k / P).
Proof.
  intros HP H D k Hk. destruct (divided P (A k) (X' k) HP (H k Hk)) as (d & E & H1 & H2).
  assert (Ed : D k = d) by (unfold D; rewrite E, Z.mul_comm; apply Z.div_mul; lia).
  rewrite Ed. split; [exact E|]. split; assumption.
Qed.

Lemma moddown_quotient : forall rQ rP, built_ring 2 rQ -> built_ring 2 rP -> rN rQ = rN rP -> disjoint_moduli rQ rP ->
  forall levelQ levelP t p1Q p1P p2Q A,
  (levelP < 32)%nat -> 0 <= t -> lsum rP levelP <= t * W ->
  (forall i, (i <= levelQ)%nat -> (t + 4) * mq (rmod rQ i) <= W) ->
  rns_repr rQ levelQ (fun q => 2 * q) p1Q A -> rns_repr rP levelP (fun _ => W) p1P A ->
  let out := ModDownQPtoQ (NewBasisExtender rQ rP) levelQ levelP p1Q p1P p2Q in
  exists D, rns_repr rQ levelQ canon out D /\ kept levelQ p2Q out /\
    forall k, (k < rN rQ)%nat -> lift_of (lprod rP levelP) (A k) (A k - lprod rP levelP * D k).
Proof.
  intros rQ rP BQ BP EN Hdis levelQ levelP t p1Q p1P p2Q A H32 Ht Hs HW HA HAP out.
  destruct (built_pair 2 2 rQ rP ltac:(lia) ltac:(lia) BQ BP EN) as (L & HQ & HP & _ & _).
  assert (HlQ : (levelQ < length (rmods rQ))%nat) by (destruct HA; assumption).
  assert (HlP : (levelP < length (rmods rP))%nat) by (destruct HAP; assumption).
  destruct (modUpExact_spec L rP rQ HP HQ levelP HlP H32 levelQ t p1P [] A HlQ Ht Hs) as (X' & HL & HR & _).
  { intros j Hj. pose proof (HW j Hj). pose proof (wf_ge _ _ (wf_ring_mod _ _ _ j HQ ltac:(lia))). nia. }
  { exact HAP. }
  assert (HP0 := lprod_pos L rP HP levelP). set (P := lprod rP levelP) in *.
  exists (fun k => (A k - X' k) / P).
  assert (HD := divided_poly P (rN rQ) A X' HP0 ltac:(rewrite EN; exact HL)). cbv zeta in HD.
  split; [|split].
  - split; [exact HlQ|]. split; [unfold out, ModDownQPtoQ; rewrite lvl_length; lia|].
    intros i Hi. unfold out, ModDownQPtoQ, ModUpPtoQ, NewBasisExtender. cbn [beQ beP paramsPtoQ modDownparamsPtoQ].
    rewrite lvl_nth_lt by lia. rewrite rQ_map by exact HlP.
    pose proof (wf_ring_mod _ _ _ i HQ ltac:(lia)) as Hwi.
    destruct (moddown_const L rQ rP HQ HP Hdis i levelP ltac:(lia) HlP) as [Rc Ec]. cbv zeta in Rc, Ec.
    apply (down_row L _ _ ((t + 2) * mq (rmod rQ i)) _ _ _ P A X').
    + exact Hwi.
    + specialize (HW i Hi). lia.
    + exact Rc.
    + exact Ec.
    + intros k Hk. apply eqm_eq. apply (proj1 (HD k Hk)).
    + apply HR. exact Hi.
    + apply HA. exact Hi.
  - split; [unfold out, ModDownQPtoQ; apply lvl_length|]. intros i Hi. unfold out, ModDownQPtoQ. apply lvl_nth_ge. lia.
  - intros k Hk. destruct (HD k Hk) as [E _]. rewrite <- E. replace (A k - (A k - X' k)) with (X' k) by ring.
    apply HL. rewrite <- EN. exact Hk.
Qed.

Lemma lift_quotient P A D : 0 < P -> lift_of P A (A - P * D) -> quotient_of P A D.
Proof.
  intros HP H. destruct (divided P A _ HP H) as (d & E & H1 & H2).
  assert (d = D) by nia. subst d. split; assumption.
Qed.

(** ** The version in the NTT domain *)
Lemma moddown_ntt : forall rQ rP, built_ring 6 rQ -> built_ring 6 rP -> rN rQ = rN rP -> disjoint_moduli rQ rP ->
  forall L, rN rQ = (2 ^ L)%nat -> forall levelQ levelP t p1Q p1P p2Q A,
  (levelP < 32)%nat -> 2 <= t -> lsum rP levelP <= t * W ->
  (forall i, (i <= levelQ)%nat -> (t + 6) * mq (rmod rQ i) <= W) ->
  rns_ntt rQ L levelQ (fun q => 2 * q) p1Q A -> rns_ntt rP L levelP (fun q => 2 * q) p1P A ->
  let out := ModDownQPtoQNTT (NewBasisExtender rQ rP) levelQ levelP p1Q p1P p2Q in
  exists D, rns_ntt rQ L levelQ canon out D /\ kept levelQ p2Q out /\
    forall k, (k < rN rQ)%nat -> lift_of (lprod rP levelP) (A k) (A k - lprod rP levelP * D k).
Proof.
  intros rQ rP BQ BP EN Hdis L EL levelQ levelP t p1Q p1P p2Q A H32 Ht Hs HW HA HAP out.
  destruct (built_pair 6 6 rQ rP ltac:(lia) ltac:(lia) BQ BP EN) as (L' & HQ & HP & B6 & B6').
  assert (L' = L).
  { rewrite (wfr_N _ _ _ HQ) in EL. apply Nat.pow_inj_r in EL; lia. }
  subst L'.
  assert (HL60 := wfr_logN _ _ _ HQ).
  assert (HlQ : (levelQ < length (rmods rQ))%nat) by (destruct HA; assumption).
  assert (HlP : (levelP < length (rmods rP))%nat) by (destruct HAP; assumption).
  set (polP := InvNTTLazyLvl rP levelP p1P []).
  assert (HPP : rns_repr rP levelP (fun _ => W) polP A).
  { destruct HAP as (_ & HlpP & HAP). split; [exact HlP|]. split; [unfold polP, InvNTTLazyLvl; rewrite lvl_length; lia|].
    intros j Hj. unfold polP, InvNTTLazyLvl. rewrite lvl_nth_lt by lia.
    pose proof (wf_ring_mod _ _ _ j HP ltac:(lia)) as Hwj. specialize (B6' j ltac:(lia)).
    rewrite (wfr_N _ _ _ HP).
    apply (row_repr_weaken _ _ (2 * mq (rmod rP j))); [pose proof (wf_W _ _ Hwj); lia|].
    apply (invnttlazy_row_repr L _ ltac:(lia) Hwj); [exact B6'|]. apply HAP. exact Hj. }
  destruct (modUpExact_spec L rP rQ HP HQ levelP HlP H32 levelQ t polP [] A HlQ ltac:(lia) Hs) as (X' & HL & HR & _).
  { intros j Hj. pose proof (HW j Hj). pose proof (wf_ge _ _ (wf_ring_mod _ _ _ j HQ ltac:(lia))). nia. }
  { exact HPP. }
  assert (HP0 := lprod_pos L rP HP levelP). set (P := lprod rP levelP) in *.
  exists (fun k => (A k - X' k) / P).
  assert (HD := divided_poly P (rN rQ) A X' HP0 ltac:(rewrite EN; exact HL)). cbv zeta in HD.
  split; [|split].
  - split; [exact HlQ|]. split; [unfold out, ModDownQPtoQNTT; rewrite lvl_length; lia|].
    intros i Hi. unfold out, ModDownQPtoQNTT, ModUpPtoQ, NewBasisExtender. cbn [beQ beP paramsPtoQ modDownparamsPtoQ].
    rewrite lvl_nth_lt by lia. rewrite rQ_map by exact HlP. fold polP.
    pose proof (wf_ring_mod _ _ _ i HQ ltac:(lia)) as Hwi. pose proof (wf_ge _ _ Hwi) as H5.
    destruct (moddown_const L rQ rP HQ HP Hdis i levelP ltac:(lia) HlP) as [Rc Ec]. cbv zeta in Rc, Ec.
    specialize (HW i Hi).
    unfold ntt_repr.
    apply (down_row L _ _ ((t + 4) * mq (rmod rQ i)) _ _ _ P (values (rmod rQ i) L A) (values (rmod rQ i) L X')).
    + exact Hwi.
    + lia.
    + exact Rc.
    + exact Ec.
    + intros k Hk. rewrite <- values_sub, <- values_scale. apply values_peq.
      intros u Hu. apply eqm_eq. unfold psub, pscale. rewrite <- EL in Hu. apply (proj1 (HD u Hu)).
    + unfold prow at 1. unfold NTTLazyLvl. rewrite lvl_nth_lt by lia. unfold prow. rewrite EL.
      replace ((t + 4) * mq (rmod rQ i)) with ((t + 2) * mq (rmod rQ i) + 2 * mq (rmod rQ i)) by ring.
      apply (nttlazy_row_repr L _ ltac:(lia) Hwi); [nia|lia|]. rewrite <- EL. apply HR. exact Hi.
    + apply HA. exact Hi.
  - split; [unfold out, ModDownQPtoQNTT; apply lvl_length|]. intros i Hi. unfold out, ModDownQPtoQNTT. apply lvl_nth_ge. lia.
  - intros k Hk. destruct (HD k Hk) as [E _]. rewrite <- E. replace (A k - (A k - X' k)) with (X' k) by ring.
    apply HL. rewrite <- EN. exact Hk.
Qed.

(** ** ModDownQPtoP *)
Lemma moddown_loop_length mods ps : forall prev first, length (modDownParams_loop mods ps prev first) = length ps.
Proof. induction ps as [|p ps IH]; intros prev first; [reflexivity|]. cbn [modDownParams_loop length]. rewrite IH. reflexivity. Qed.

Lemma nth_error_nth' {A} (l : list A) i d : (i < length l)%nat -> nth_error l i = Some (nth i l d).
Proof. revert i. induction l as [|a l IH]; intros [|i] H; cbn in *; try lia; [reflexivity|apply IH; lia]. Qed.

Lemma moddownP_general : forall rQ rP, built_ring 2 rQ -> built_ring 2 rP -> rN rQ = rN rP -> disjoint_moduli rQ rP ->
  forall levelQ levelP t p1Q p1P p2P A,
  (levelQ < 32)%nat -> 0 <= t -> lsum rQ levelQ <= t * W ->
  (forall i, (i <= levelP)%nat -> (t + 4) * mq (rmod rP i) <= W) ->
  rns_repr rQ levelQ (fun _ => W) p1Q A -> rns_repr rP levelP (fun q => 2 * q) p1P A ->
  (levelP < length (rmods rQ))%nat ->
  exists out X', ModDownQPtoP (NewBasisExtender rQ rP) levelQ levelP p1Q p1P p2P = Some out /\
    (forall k, (k < rN rQ)%nat -> lift_of (lprod rQ levelQ) (A k) (X' k)) /\
    kept levelP p2P out /\
    forall i, (i <= levelP)%nat -> forall V,
      (forall k, (k < rN rQ)%nat -> eqm (mq (rmod rP i)) (A k - X' k) (lprod rQ levelP * V k)) ->
      row_repr (rN rQ) (mq (rmod rP i)) (mq (rmod rP i)) (nth i out []) V.
Proof.
  intros rQ rP BQ BP EN Hdis levelQ levelP t p1Q p1P p2P A H32 Ht Hs HW HA HAP Hidx.
  destruct (built_pair 2 2 rQ rP ltac:(lia) ltac:(lia) BQ BP EN) as (L & HQ & HP & _ & _).
  assert (HlQ : (levelQ < length (rmods rQ))%nat) by (destruct HA; assumption).
  assert (HlP : (levelP < length (rmods rP))%nat) by (destruct HAP; assumption).
  destruct (modUpExact_spec L rQ rP HQ HP levelQ HlQ H32 levelP t p1Q [] A HlP Ht Hs) as (X' & HL & HR & _).
  { intros j Hj. pose proof (HW j Hj). pose proof (wf_ge _ _ (wf_ring_mod _ _ _ j HP ltac:(lia))). nia. }
  { exact HA. }
  unfold ModDownQPtoP, ModUpQtoP, NewBasisExtender. cbn [beQ beP paramsQtoP modDownparamsQtoP].
  assert (Hlen : length (genModDownParams rP rQ) = length (rmods rQ))
    by (unfold genModDownParams; rewrite moddown_loop_length; unfold moduli; apply map_length).
  rewrite (nth_error_nth' _ levelP []) by (rewrite Hlen; exact Hidx).
  rewrite rQ_map by exact HlQ.
  eexists. exists X'. split; [reflexivity|]. split; [exact HL|]. split.
  - split; [apply lvl_length|]. intros i Hi. apply lvl_nth_ge. lia.
  - intros i Hi V HV. rewrite lvl_nth_lt by lia.
    pose proof (wf_ring_mod _ _ _ i HP ltac:(lia)) as Hwi.
    destruct (moddown_const L rP rQ HP HQ) with (i := i) (j := levelP) as [Rc Ec]; [|lia|exact Hidx|].
    { intros q H1 H2. apply (Hdis q H2 H1). }
    rewrite EN.
    apply (down_row L _ _ ((t + 2) * mq (rmod rP i)) _ _ _ (lprod rQ levelP) A X').
    + exact Hwi.
    + specialize (HW i Hi). lia.
    + exact Rc.
    + exact Ec.
    + intros k Hk. apply HV. rewrite EN. exact Hk.
    + apply HR. exact Hi.
    + apply HAP. exact Hi.
Qed.

Lemma moddownP_equal_levels : forall rQ rP, built_ring 2 rQ -> built_ring 2 rP -> rN rQ = rN rP -> disjoint_moduli rQ rP ->
  forall level t p1Q p1P p2P A,
  (level < 32)%nat -> 0 <= t -> lsum rQ level <= t * W ->
  (forall i, (i <= level)%nat -> (t + 4) * mq (rmod rP i) <= W) ->
  rns_repr rQ level (fun _ => W) p1Q A -> rns_repr rP level (fun q => 2 * q) p1P A ->
  exists out D, ModDownQPtoP (NewBasisExtender rQ rP) level level p1Q p1P p2P = Some out /\
    rns_repr rP level canon out D /\ kept level p2P out /\
    forall k, (k < rN rQ)%nat -> quotient_of (lprod rQ level) (A k) (D k).
Proof.
  intros rQ rP BQ BP EN Hdis level t p1Q p1P p2P A H32 Ht Hs HW HA HAP.
  assert (HlQ : (level < length (rmods rQ))%nat) by (destruct HA; assumption).
  assert (HlP : (level < length (rmods rP))%nat) by (destruct HAP; assumption).
  destruct (moddownP_general rQ rP BQ BP EN Hdis level level t p1Q p1P p2P A H32 Ht Hs HW HA HAP HlQ)
    as (out & X' & E & HL & HK & HR).
  assert (HQ0 := lsum_nonneg rQ BQ level HlQ). set (Q := lprod rQ level) in *.
  assert (HD := divided_poly Q (rN rQ) A X' HQ0 HL). cbv zeta in HD.
  exists out, (fun k => (A k - X' k) / Q). split; [exact E|]. split; [|split; [exact HK|]].
  - split; [exact HlP|]. split; [destruct HK as [HK _]; lia|]. intros i Hi. unfold canon. rewrite <- EN.
    apply HR; [exact Hi|]. intros k Hk. apply eqm_eq. apply (proj1 (HD k Hk)).
  - intros k Hk. destruct (HD k Hk) as [_ H]. exact H.
Qed.

Lemma moddownP_panics : forall rQ rP levelQ levelP p1Q p1P p2P, (length (rmods rQ) <= levelP)%nat ->
  ModDownQPtoP (NewBasisExtender rQ rP) levelQ levelP p1Q p1P p2P = None.
Proof.
  intros. unfold ModDownQPtoP, NewBasisExtender. cbn [modDownparamsQtoP].
  assert (E : nth_error (genModDownParams rP rQ) levelP = None).
  { apply nth_error_None. unfold genModDownParams. rewrite moddown_loop_length. unfold moduli. rewrite map_length. assumption. }
  rewrite E. reflexivity.
Qed.

(** ** Digits *)
Lemma conv_rows L N ms Pl src t :
  (forall m, In m ms -> prime (mq m) /\ 5 <= mq m /\ 2 * mq m <= W /\ mqinv m = MRedParams (mq m)) ->
  NoDup (map mq ms) -> (length ms <= 32)%nat ->
  (forall x, (x < N)%nat -> forall i, (i < length ms)%nat -> 0 <= nth i (src x) 0 < W) ->
  0 <= t -> bigsum (length ms) (fun i => nth i (map mq ms) 0) <= t * W ->
  let params := basisextenderparameters (map mq ms) Pl in
  let recs := map (fun x => reconstructRNS ms (qoverqiinvqi params) (src x)) (seq 0 N) in
  exists X', (forall x, (x < N)%nat ->
      (forall i, (i < length ms)%nat -> eqm (mq (nth i ms modp0)) (X' x) (nth i (src x) 0)) /\
      - prodZ (map mq ms) < 2 ^ 42 * X' x /\ 2 ^ 42 * (X' x - prodZ (map mq ms)) < prodZ (map mq ms)) /\
    forall j m, wf_modp L m -> (j < length Pl)%nat -> nth j Pl 0 = mq m -> (t + 2) * mq m <= W ->
      row_repr N (mq m) ((t + 2) * mq m)
        (map (fun yv => multSum yv (mq m) (mqinv m) (nth j (vtimesqmodp params) []) (nth j (qoverqimodp params) [])) recs) X'.
Proof.
  intros Hms Hnd Hk Hsrc Ht Hs params recs.
  exists (fun x => lifted ms Pl (src x)). split.
  - intros x Hx. split.
    + intros i Hi. apply (lifted_eqm ms Pl Hms Hnd (src x) (Hsrc x Hx) i Hi).
    + apply (lifted_margin ms Pl Hms Hnd Hk (src x) (Hsrc x Hx)).
  - intros j m Hw Hj Ej HW. split; [unfold recs; rewrite !map_length, seq_length; reflexivity|].
    intros x Hx. unfold recs. rewrite map_map. rewrite nth_map_seq by exact Hx.
    destruct (lifted_row ms Pl Hms Hnd Hk (src x) (Hsrc x Hx) j (mq m) (mqinv m) t) as [R1 R2]; try assumption.
    + apply (wf_qinv _ _ Hw).
    + apply (wf_odd _ _ Hw).
    + pose proof (wf_ge _ _ Hw). lia.
    + fold params in R1. split; [lia|exact R2].
Qed.

Lemma skipn_in {A} n (l : list A) x : In x (skipn n l) -> In x l.
Proof. intros H. rewrite <- (firstn_skipn n l). apply in_or_app. right. exact H. Qed.
Lemma skipn_nodup {A} n (l : list A) : NoDup l -> NoDup (skipn n l).
Proof.
  revert l. induction n as [|n IH]; intros l H; [exact H|]. destruct l as [|x l]; [constructor|].
  inversion H; subst. cbn. apply IH. assumption.
Qed.

Lemma block_mods r lo n : (lo + n <= length (rmods r))%nat ->
  map mq (firstn n (skipn lo (rmods r))) = map (fun i => mq (rmod r i)) (seq lo n).
Proof.
  intros H. apply (list_ext _ _ 0); [rewrite !map_length, seq_length, firstn_length, skipn_length; lia|].
  intros i Hi. rewrite map_length, firstn_length, skipn_length in Hi. rewrite (nth_map_any mq _ i 0 modp0) by (rewrite firstn_length, skipn_length; lia).
  rewrite nth_firstn by lia. rewrite nth_skipn. rewrite (nth_map_any _ _ i 0 O) by (rewrite seq_length; lia).
  rewrite seq_nth by lia. reflexivity.
Qed.

Lemma bigsum_map_seq (f : nat -> Z) lo n : bigsum n (fun i => nth i (map f (seq lo n)) 0) = bigsum n (fun i => f (lo + i)%nat).
Proof.
  apply bigsum_ext. intros i Hi. rewrite (nth_map_any _ _ i 0 O) by (rewrite seq_length; lia).
  rewrite seq_nth by lia. reflexivity.
Qed.

Lemma decompose_digit : forall rQ rP, built_ring 2 rQ -> built_ring 2 rP -> rN rQ = rN rP ->
  forall levelQ levelP alpha beta t B p0Q p1Q p1P A,
  (levelP < alpha)%nat -> (levelP < length (rmods rP))%nat -> (alpha <= length (rmods rP))%nat ->
  (alpha <= 32)%nat -> (beta * alpha <= levelQ)%nat ->
  let lo := (beta * alpha)%nat in
  let hi := Nat.min levelQ (alpha * (beta + 1) - 1) in
  0 <= t -> block_sum rQ lo hi <= t * W ->
  (forall i, (i <= levelQ)%nat -> (t + 2) * mq (rmod rQ i) <= W /\ B (mq (rmod rQ i)) <= W) ->
  (forall i, (i <= levelP)%nat -> (t + 2) * mq (rmod rP i) <= W) ->
  rns_repr rQ levelQ B p0Q A ->
  let '(outQ, outP) := DecomposeAndSplit (NewDecomposer rQ rP) levelQ levelP alpha beta p0Q p1Q p1P in
  kept levelQ p1Q outQ /\ kept levelP p1P outP /\
  exists d, (forall k, (k < rN rQ)%nat ->
       (forall i, (lo <= i <= hi)%nat -> eqm (mq (rmod rQ i)) (d k) (A k)) /\
       (if Nat.eqb lo hi then 0 <= d k < B (mq (rmod rQ lo))
        else - block_prod rQ lo hi < 2 ^ 42 * d k /\ 2 ^ 42 * (d k - block_prod rQ lo hi) < block_prod rQ lo hi)) /\
     let B' := fun q => if Nat.eqb lo hi then B (mq (rmod rQ lo)) else (t + 2) * q in
     rns_repr rQ levelQ B' outQ d /\ rns_repr rP levelP B' outP d.
Proof.
  intros rQ rP BQ BP EN levelQ levelP alpha beta t B p0Q p1Q p1P A HPa HlP HaP Ha32 Hlo lo hi Ht Hs HWQ HWP HA.
  destruct (built_pair 2 2 rQ rP ltac:(lia) ltac:(lia) BQ BP EN) as (L & HQ & HP & _ & _).
  destruct HA as (HlQ & Hlen & HA).
  unfold DecomposeAndSplit. set (dl := if Nat.ltb (alpha * (beta + 1) - 1) levelQ then (alpha - 1)%nat else (levelQ mod alpha)%nat).
  assert (Hdl : (hi = lo + dl)%nat).
  { unfold hi, lo, dl. destruct (Nat.ltb_spec (alpha * (beta + 1) - 1) levelQ) as [H|H]; [lia|].
    assert (beta = levelQ / alpha)%nat.
    { apply (Nat.div_unique levelQ alpha beta (levelQ - beta * alpha)); lia. }
    pose proof (Nat.div_mod levelQ alpha ltac:(lia)). subst beta. lia. }
  assert (Hhi : (hi <= levelQ)%nat) by (unfold hi; lia).
  assert (Eq0 : Nat.eqb lo hi = Nat.eqb dl 0).
  { rewrite Hdl. destruct (Nat.eqb_spec lo (lo + dl)), (Nat.eqb_spec dl 0); try reflexivity; lia. }
  rewrite Eq0. fold lo. destruct (Nat.eqb_spec dl 0) as [Hz|Hz].
  - split; [split; [apply lvl_length|intros i Hi; apply lvl_nth_ge; lia]|].
    split; [split; [apply lvl_length|intros i Hi; apply lvl_nth_ge; lia]|].
    assert (Hr := HA lo Hlo).
    exists (co (nth lo p0Q [])). split.
    + intros k Hk. split; [|apply (Hr)].
      * intros i Hi. assert (i = lo) by lia. subst i. apply Hr. exact Hk.
      * exact Hk.
    + cbv zeta. split.
      * split; [exact HlQ|]. split; [rewrite lvl_length; lia|]. intros i Hi. rewrite lvl_nth_lt by lia.
        apply row_repr_co; [apply (row_repr_below _ _ _ _ _ Hr)|apply (row_repr_length _ _ _ _ _ Hr)].
      * split; [exact HlP|]. split; [rewrite lvl_length; lia|]. intros i Hi. rewrite lvl_nth_lt by lia. rewrite <- EN.
        apply row_repr_co; [apply (row_repr_below _ _ _ _ _ Hr)|apply (row_repr_length _ _ _ _ _ Hr)].
  - cbn [dcQ dcP NewDecomposer]. unfold decomposer_params. cbn [dcQ dcP NewDecomposer].
    set (ms := firstn (S dl) (skipn lo (rmods rQ))).
    assert (Hml : length ms = S dl) by (unfold ms; rewrite firstn_length, skipn_length; lia).
    assert (Emq : firstn (S dl) (skipn lo (moduli rQ)) = map mq ms).
    { unfold ms, moduli. rewrite skipn_map, firstn_map. reflexivity. }
    assert (Hbm : map mq ms = map (fun i => mq (rmod rQ i)) (seq lo (S dl))) by (apply block_mods; lia).
    assert (Hn : forall i, (i <= dl)%nat -> nth i ms modp0 = rmod rQ (lo + i)).
    { intros i Hi. unfold ms. rewrite nth_firstn by lia. rewrite nth_skipn. reflexivity. }
    fold lo. rewrite Emq.
    assert (ER : length (prow p0Q 0) = rN rQ) by (apply (row_repr_length _ _ _ _ _ (HA O ltac:(lia)))).
    rewrite ER.
    set (src := fun x => map (fun i => nth x (nth (lo + i) p0Q []) 0) (seq 0 (S dl))).
    assert (Hsrc : forall x i, (i <= dl)%nat -> nth i (src x) 0 = nth x (nth (lo + i) p0Q []) 0)
      by (intros x i Hi; unfold src; rewrite nth_map_seq by lia; reflexivity).
    destruct (conv_rows L (rN rQ) ms (moduli rQ ++ firstn alpha (moduli rP)) src t) as (d & Hd1 & Hd2).
    { intros m Hm. apply (wf_ms L rQ (length (rmods rQ)) HQ). rewrite firstn_all.
      unfold ms in Hm. apply firstn_in in Hm. apply skipn_in in Hm. exact Hm. }
    { rewrite <- Emq. apply firstn_nodup. apply skipn_nodup. apply (wfr_distinct _ _ _ HQ). }
    { rewrite Hml. unfold dl in *. destruct (Nat.ltb _ _); [lia|]. pose proof (Nat.mod_upper_bound levelQ alpha ltac:(lia)). lia. }
    { intros x Hx i Hi. rewrite Hml in Hi. rewrite Hsrc by lia.
      destruct (HA (lo + i)%nat ltac:(lia)) as [_ H]. destruct (H x Hx) as [H1 _]. destruct (HWQ (lo + i)%nat ltac:(lia)). lia. }
    { exact Ht. }
    { rewrite Hml, Hbm, bigsum_map_seq. unfold block_sum in Hs. replace (S hi - lo)%nat with (S dl) in Hs by lia. exact Hs. }
    split; [split; [apply lvl_length|intros i Hi; apply lvl_nth_ge; lia]|].
    split; [split; [apply lvl_length|intros i Hi; apply lvl_nth_ge; lia]|].
    assert (Hbp : prodZ (map mq ms) = block_prod rQ lo hi).
    { rewrite Hbm. unfold block_prod. replace (S hi - lo)%nat with (S dl) by lia. Transparent prodZ. reflexivity. Opaque prodZ. }
    rewrite Hbp in Hd1.
    exists d. split.
    + intros k Hk. destruct (Hd1 k Hk) as [E1 E2]. split; [|exact E2].
      intros i Hi. specialize (E1 (i - lo)%nat ltac:(rewrite Hml; lia)).
      rewrite Hn, Hsrc in E1 by lia. replace (lo + (i - lo))%nat with i in E1 by lia.
      rewrite E1. apply (HA i ltac:(lia)). exact Hk.
    + cbv zeta. split.
      * split; [exact HlQ|]. split; [rewrite lvl_length; lia|]. intros i Hi. rewrite lvl_nth_lt by lia.
        apply (Hd2 i (rmod rQ i)).
        -- apply (wf_ring_mod _ _ _ i HQ). lia.
        -- rewrite app_length. unfold moduli. rewrite map_length. lia.
        -- rewrite app_nth1 by (unfold moduli; rewrite map_length; lia). apply nth_moduli. lia.
        -- apply HWQ. exact Hi.
      * split; [exact HlP|]. split; [rewrite lvl_length; lia|]. intros i Hi. rewrite lvl_nth_lt by lia. rewrite <- EN.
        apply (Hd2 (length (rmods rQ) + i)%nat (rmod rP i)).
        -- apply (wf_ring_mod _ _ _ i HP). lia.
        -- rewrite app_length, firstn_length. unfold moduli. rewrite !map_length. lia.
        -- rewrite app_nth2 by (unfold moduli; rewrite map_length; lia).
           replace (length (rmods rQ) + i - length (moduli rQ))%nat with i by (unfold moduli; rewrite map_length; lia).
           rewrite nth_firstn by lia. apply nth_moduli. lia.
        -- apply HWP. exact Hi.
Qed.

(** Digits times any gadget that is 1 on its own block and 0 on the others. *)
Lemma gadget_sum : forall rQ, built_ring 2 rQ -> forall levelQ alpha (A : nat -> Z) (d : nat -> nat -> Z) (g : nat -> Z) N,
  (levelQ < length (rmods rQ))%nat -> (0 < alpha)%nat ->
  (forall b i k, (b * alpha <= i)%nat -> (i < (b + 1) * alpha)%nat -> (i <= levelQ)%nat -> (k < N)%nat ->
     eqm (mq (rmod rQ i)) (d b k) (A k)) ->
  (forall b i, (i <= levelQ)%nat -> eqm (mq (rmod rQ i)) (g b) (if Nat.eqb (i / alpha) b then 1 else 0)) ->
  forall k, (k < N)%nat ->
  eqm (lprod rQ levelQ) (bigsum (levelQ / alpha + 1) (fun b => d b k * g b)) (A k).
Proof.
  intros rQ BQ levelQ alpha A d g N Hl Ha Hd Hg k Hk.
  destruct (built_ring_wf 2 rQ ltac:(lia) BQ) as (L & HQ & _).
  apply (lprod_eqm L rQ HQ levelQ _ _ Hl). intros i Hi.
  set (q := mq (rmod rQ i)). set (b0 := (i / alpha)%nat).
  assert (Hb0 : (b0 < levelQ / alpha + 1)%nat).
  { assert (b0 <= levelQ / alpha)%nat by (apply Nat.div_le_mono; lia). lia. }
  transitivity (bigsum (levelQ / alpha + 1) (fun b => if Nat.eqb b b0 then A k else 0)).
  - apply bigsum_eqm. intros b Hb. fold q. specialize (Hg b i Hi). fold q b0 in Hg. rewrite Hg.
    rewrite (Nat.eqb_sym b b0). destruct (Nat.eqb_spec b0 b) as [<-|Hn]; [|apply eqm_eq; ring].
    rewrite Z.mul_1_r. pose proof (Nat.div_mod i alpha ltac:(lia)). pose proof (Nat.mod_upper_bound i alpha ltac:(lia)).
    apply (Hd b0 i k); unfold b0; nia.
  - apply eqm_eq. rewrite (bigsum_single _ b0 _ Hb0); [rewrite Nat.eqb_refl; reflexivity|].
    intros b _ Hn. destruct (Nat.eqb_spec b b0); [contradiction|reflexivity].
Qed.

(** ** The statements used by the property file *)
Lemma modup_exact : forall rQ rP, built_ring 2 rQ -> built_ring 2 rP -> rN rQ = rN rP ->
  forall levelQ levelP t polQ polP X,
  (levelP < length (rmods rP))%nat -> (levelQ < 32)%nat ->
  0 <= t -> lsum rQ levelQ <= t * W -> (forall j, (j <= levelP)%nat -> (t + 2) * mq (rmod rP j) <= W) ->
  rns_repr rQ levelQ (fun _ => W) polQ X ->
  let Q := lprod rQ levelQ in
  (forall k, (k < rN rQ)%nat -> Q <= 2 ^ 42 * (X k mod Q) /\ Q <= 2 ^ 42 * (Q - X k mod Q)) ->
  rns_repr rP levelP (fun p => (t + 2) * p) (ModUpQtoP (NewBasisExtender rQ rP) levelQ levelP polQ polP) (fun k => X k mod Q) /\
  rns_repr rP levelP (fun p => (t + 2) * p) (ModUpPtoQ (NewBasisExtender rP rQ) levelQ levelP polQ polP) (fun k => X k mod Q).
Proof.
  intros rQ rP BQ BP EN levelQ levelP t polQ polP X HlP H32 Ht Hs HW HX Q HM.
  assert (G := modup_error rQ rP BQ BP EN levelQ levelP t polQ polP X HlP H32 Ht Hs HW HX). cbv zeta in G. fold Q in G.
  split; (destruct (G _ ltac:((left; reflexivity) || (right; reflexivity))) as (e & He & HR & _));
    (apply (rns_repr_ext _ _ _ _ (fun k => X k mod Q + e k * Q)); [|exact HR]);
    intros k Hk; rewrite <- EN in Hk; destruct (HM k Hk) as [M1 M2]; rewrite (proj2 (He k Hk) M1 M2); ring.
Qed.

Lemma crt_exists l : (forall q, In q l -> prime q) -> NoDup l -> forall xs, length xs = length l ->
  exists x, forall i, (i < length l)%nat -> eqm (nth i l 0) x (nth i xs 0).
Proof.
  induction l as [|q l IH]; intros Hp Hnd xs Hlen; [exists 0; intros i Hi; cbn in Hi; lia|].
  destruct xs as [|a xs]; [discriminate|]. inversion Hnd as [|? ? Hni Hnd']; subst.
  destruct (IH (fun q Hq => Hp q (or_intror Hq)) Hnd' xs ltac:(cbn in Hlen; lia)) as [x Hx].
  assert (R : rel_prime q (prodZ l)).
  { apply prime_prodZ; [apply Hp; left; reflexivity|intros; apply Hp; right; assumption|exact Hni]. }
  apply rel_prime_bezout in R. destruct R as [u v E].
  exists (x + (a - x) * v * prodZ l). intros i Hi. destruct i as [|i]; cbn [nth].
  - apply (eqm_intro _ _ _ (- ((a - x) * u))).
    assert (E' : v * prodZ l = 1 - u * q) by (rewrite <- E; ring).
    transitivity (x + (a - x) * (v * prodZ l)); [ring|]. rewrite E'. ring.
  - cbn [length] in Hi. rewrite <- (Hx i) by lia.
    assert (Hi' : (i < length l)%nat) by lia.
    destruct (prodZ_divide (nth i l 0) l (nth_In l 0 Hi')) as [c Hc].
    apply (eqm_intro _ _ _ ((a - x) * v * c)). rewrite Hc. ring.
Qed.

(** Every polynomial of words is the residues of some integer polynomial. *)
Lemma words_repr L r level B p : wf_ring L L r -> (level < length (rmods r))%nat -> words r level B p ->
  exists X, rns_repr r level B p X.
Proof.
  intros Hw Hl (H1 & H2).
  assert (G : forall n, exists X : nat -> Z, forall k, (k < n)%nat -> forall i, (i <= level)%nat -> eqm (mq (rmod r i)) (coeff p i k) (X k)).
  { induction n as [|n [X HX]]; [exists (fun _ => 0); intros; lia|].
    destruct (crt_exists (firstn (S level) (moduli r))) with (xs := map (fun i => coeff p i n) (seq 0 (S level))) as [x Hx].
    - intros q Hq. apply (moduli_prime L r Hw). apply (firstn_in _ _ _ Hq).
    - apply firstn_nodup. apply (wfr_distinct _ _ _ Hw).
    - rewrite map_length, seq_length, firstn_length. unfold moduli. rewrite map_length. lia.
    - exists (fun k => if Nat.eqb k n then x else X k). intros k Hk i Hi.
      destruct (Nat.eqb_spec k n) as [->|Hn]; [|apply HX; lia].
      specialize (Hx i). rewrite firstn_length in Hx. unfold moduli in Hx at 1. rewrite map_length in Hx.
      specialize (Hx ltac:(lia)). rewrite nth_firstn in Hx by lia. rewrite nth_moduli in Hx by lia.
      rewrite nth_map_seq in Hx by lia. symmetry. exact Hx. }
  destruct (G (rN r)) as [X HX]. exists X. split; [exact Hl|]. split; [exact H1|]. intros i Hi.
  destruct (H2 i Hi) as [E R]. split; [exact E|]. intros k Hk. split; [apply R; exact Hk|apply HX; assumption].
Qed.

Lemma modup_range : forall rQ rP, built_ring 2 rQ -> built_ring 2 rP -> rN rQ = rN rP ->
  forall levelQ levelP t polQ polP,
  (levelQ < length (rmods rQ))%nat -> (levelP < length (rmods rP))%nat -> (levelQ < 32)%nat ->
  0 <= t -> lsum rQ levelQ <= t * W -> (forall j, (j <= levelP)%nat -> (t + 2) * mq (rmod rP j) <= W) ->
  words rQ levelQ (fun _ => W) polQ ->
  words rP levelP (fun p => (t + 2) * p) (ModUpQtoP (NewBasisExtender rQ rP) levelQ levelP polQ polP) /\
  words rP levelP (fun p => (t + 2) * p) (ModUpPtoQ (NewBasisExtender rP rQ) levelQ levelP polQ polP).
Proof.
  intros rQ rP BQ BP EN levelQ levelP t polQ polP HlQ HlP H32 Ht Hs HW Hwd.
  destruct (built_ring_wf 2 rQ ltac:(lia) BQ) as (L & HQ & _).
  destruct (words_repr L rQ levelQ _ polQ HQ HlQ Hwd) as [X HX].
  assert (G := modup_error rQ rP BQ BP EN levelQ levelP t polQ polP X HlP H32 Ht Hs HW HX). cbv zeta in G.
  split; (destruct (G _ ltac:((left; reflexivity) || (right; reflexivity))) as (e & _ & (_ & HR1 & HR2) & _));
   (split; [exact HR1|]; intros i Hi; destruct (HR2 i Hi) as [E R]; split; [exact E|]; intros k Hk; apply R; exact Hk).
Qed.

Lemma moddown_floor : forall rQ rP, built_ring 2 rQ -> built_ring 2 rP -> rN rQ = rN rP -> disjoint_moduli rQ rP ->
  forall levelQ levelP t p1Q p1P p2Q A,
  (levelP < 32)%nat -> 0 <= t -> lsum rP levelP <= t * W ->
  (forall i, (i <= levelQ)%nat -> (t + 4) * mq (rmod rQ i) <= W) ->
  rns_repr rQ levelQ (fun q => 2 * q) p1Q A -> rns_repr rP levelP (fun _ => W) p1P A ->
  let out := ModDownQPtoQ (NewBasisExtender rQ rP) levelQ levelP p1Q p1P p2Q in
  exists D, rns_repr rQ levelQ canon out D /\ kept levelQ p2Q out /\
    forall k, (k < rN rQ)%nat -> quotient_of (lprod rP levelP) (A k) (D k).
Proof.
  intros rQ rP BQ BP EN Hdis levelQ levelP t p1Q p1P p2Q A H32 Ht Hs HW HA HAP out.
  destruct (moddown_quotient rQ rP BQ BP EN Hdis levelQ levelP t p1Q p1P p2Q A H32 Ht Hs HW HA HAP) as (D & H1 & H2 & H3).
  exists D. split; [exact H1|]. split; [exact H2|]. intros k Hk. apply lift_quotient; [|apply H3; exact Hk].
  apply lsum_nonneg; [exact BP|destruct HAP; assumption].
Qed.

Lemma moddown_ntt_floor : forall rQ rP, built_ring 6 rQ -> built_ring 6 rP -> rN rQ = rN rP -> disjoint_moduli rQ rP ->
  forall L, rN rQ = (2 ^ L)%nat -> forall levelQ levelP t p1Q p1P p2Q A,
  (levelP < 32)%nat -> 2 <= t -> lsum rP levelP <= t * W ->
  (forall i, (i <= levelQ)%nat -> (t + 6) * mq (rmod rQ i) <= W) ->
  rns_ntt rQ L levelQ (fun q => 2 * q) p1Q A -> rns_ntt rP L levelP (fun q => 2 * q) p1P A ->
  let out := ModDownQPtoQNTT (NewBasisExtender rQ rP) levelQ levelP p1Q p1P p2Q in
  exists D, rns_ntt rQ L levelQ canon out D /\ kept levelQ p2Q out /\
    forall k, (k < rN rQ)%nat -> quotient_of (lprod rP levelP) (A k) (D k).
Proof.
  intros rQ rP BQ BP EN Hdis L EL levelQ levelP t p1Q p1P p2Q A H32 Ht Hs HW HA HAP out.
  destruct (moddown_ntt rQ rP BQ BP EN Hdis L EL levelQ levelP t p1Q p1P p2Q A H32 Ht Hs HW HA HAP) as (D & H1 & H2 & H3).
  exists D. split; [exact H1|]. split; [exact H2|]. intros k Hk. apply lift_quotient; [|apply H3; exact Hk].
  destruct (built_ring_wf 6 rP ltac:(lia) BP) as (L' & HP & _). apply (lprod_pos L' rP HP).
Qed.
