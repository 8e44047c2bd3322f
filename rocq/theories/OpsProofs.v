(** Poly-level operations in terms of their rows. *)
From Verif Require Import Word ModRed Arith ModRedProofs PolySpec PolyProofs Ring RingProofs NTT NTTProofs RingOps RNSSpec RowProofs.

Lemma lvl_length cnt f out : length (lvl cnt f out) = Nat.max cnt (length out).
Proof. unfold lvl. rewrite app_length, map_length, seq_length, skipn_length. lia. Qed.

Lemma lvl_nth_lt cnt f out i : (i < cnt)%nat -> nth i (lvl cnt f out) [] = f i.
Proof.
  intros H. unfold lvl. rewrite app_nth1 by (rewrite map_length, seq_length; exact H).
  rewrite (nth_indep _ [] (f O)) by (rewrite map_length, seq_length; exact H).
  rewrite map_nth, seq_nth by exact H. reflexivity.
Qed.
Lemma lvl_nth_ge cnt f out i : (cnt <= i)%nat -> nth i (lvl cnt f out) [] = nth i out [].
Proof.
  intros H. unfold lvl. rewrite app_nth2 by (rewrite map_length, seq_length; exact H).
  rewrite map_length, seq_length, nth_skipn. f_equal. lia.
Qed.

Lemma built_ring_wf c r : 2 <= c -> built_ring c r ->
  exists L, wf_ring L L r /\ forall i, (i < length (rmods r))%nat -> c * mq (rmod r i) <= W.
Proof.
  intros Hc (fuel & N & ms & E & HN & Hms).
  assert (H2 : forall q, In q ms -> 2 * q <= W).
  { intros q Hq. specialize (Hms q Hq). unfold W in *. nia. }
  destruct (NewRing_wf fuel N ms r HN H2 E) as (L & EN & Hw & Em).
  exists L. split; [exact Hw|]. intros i Hi. apply Hms. rewrite <- Em. unfold moduli.
  apply in_map. apply nth_In. exact Hi.
Qed.

Lemma wf_ring_mod L logN r i : wf_ring L logN r -> (i < length (rmods r))%nat -> wf_modp L (rmod r i).
Proof. intros H Hi. apply (wfr_mods _ _ _ H). apply nth_In. exact Hi. Qed.

Section Ops.
  Variables (r : Ring).

  Lemma op1_coeff f level p1 p2 i k : (i <= level)%nat -> (k < length (nth i p1 []))%nat ->
    coeff (op1 r f level p1 p2) i k = f (rmod r i) (coeff p1 i k).
  Proof. intros Hi Hk. unfold coeff, op1. rewrite lvl_nth_lt by lia. apply nth_map_lt. exact Hk. Qed.
  Lemma op2_coeff f level p1 p2 p3 i k : (i <= level)%nat ->
    (k < length (nth i p1 []))%nat -> (k < length (nth i p2 []))%nat ->
    coeff (op2 r f level p1 p2 p3) i k = f (rmod r i) (coeff p1 i k) (coeff p2 i k).
  Proof. intros Hi H1 H2. unfold coeff, op2. rewrite lvl_nth_lt by lia. apply nth_map2; assumption. Qed.
  Lemma op3_coeff f level p1 p2 p3 i k : (i <= level)%nat ->
    (k < length (nth i p1 []))%nat -> (k < length (nth i p2 []))%nat -> (k < length (nth i p3 []))%nat ->
    coeff (op3 r f level p1 p2 p3) i k = f (rmod r i) (coeff p1 i k) (coeff p2 i k) (coeff p3 i k).
  Proof. intros Hi H1 H2 H3. unfold coeff, op3. rewrite lvl_nth_lt by lia. apply nth_map3; assumption. Qed.

  Lemma op1_length f level p1 p2 i : (i <= level)%nat ->
    length (nth i (op1 r f level p1 p2) []) = length (nth i p1 []).
  Proof. intros Hi. unfold op1. rewrite lvl_nth_lt by lia. apply map_length. Qed.
  Lemma op2_length f level p1 p2 p3 i : (i <= level)%nat -> length (nth i p1 []) = length (nth i p2 []) ->
    length (nth i (op2 r f level p1 p2 p3) []) = length (nth i p1 []).
  Proof. intros Hi H. unfold op2. rewrite lvl_nth_lt by lia. unfold prow. rewrite map2_length. lia. Qed.
  Lemma op3_length f level p1 p2 p3 i : (i <= level)%nat -> length (nth i p1 []) = length (nth i p2 []) ->
    length (nth i p1 []) = length (nth i p3 []) ->
    length (nth i (op3 r f level p1 p2 p3) []) = length (nth i p1 []).
  Proof. intros Hi H H'. unfold op3. rewrite lvl_nth_lt by lia. unfold prow. rewrite map3_length. lia. Qed.

  (** Representation lemmas. *)
  Lemma op1_rns f level B B' p1 p2 X Y :
    (forall i k x, (i <= level)%nat -> (k < rN r)%nat -> let q := mq (rmod r i) in
       0 <= x < B q -> eqm q x (X k) -> 0 <= f (rmod r i) x < B' q /\ eqm q (f (rmod r i) x) (Y k)) ->
    rns_repr r level B p1 X -> rns_repr r level B' (op1 r f level p1 p2) Y.
  Proof.
    intros Hf (H1 & H2 & H3). split; [exact H1|]. split; [unfold op1; rewrite lvl_length; lia|].
    intros i Hi. unfold op1. rewrite lvl_nth_lt by lia. apply (row_map _ _ (B (mq (rmod r i))) _ _ _ X).
    - intros k x Hk Hx E. apply Hf; assumption.
    - apply H3. exact Hi.
  Qed.
  Lemma op2_rns f level B1 B2 B' p1 p2 p3 X Y Z' :
    (forall i k x y, (i <= level)%nat -> (k < rN r)%nat -> let q := mq (rmod r i) in
       0 <= x < B1 q -> 0 <= y < B2 q -> eqm q x (X k) -> eqm q y (Y k) ->
       0 <= f (rmod r i) x y < B' q /\ eqm q (f (rmod r i) x y) (Z' k)) ->
    rns_repr r level B1 p1 X -> rns_repr r level B2 p2 Y -> rns_repr r level B' (op2 r f level p1 p2 p3) Z'.
  Proof.
    intros Hf (H1 & H2 & H3) (_ & H2' & H3'). split; [exact H1|]. split; [unfold op2; rewrite lvl_length; lia|].
    intros i Hi. unfold op2. rewrite lvl_nth_lt by lia.
    apply (row_map2 _ _ (B1 (mq (rmod r i))) (B2 (mq (rmod r i))) _ _ _ _ X Y).
    - intros k x y Hk Hx Hy E E'. apply Hf; assumption.
    - apply H3. exact Hi.
    - apply H3'. exact Hi.
  Qed.
End Ops.
