(** The ring operations on represented polynomials, in both domains at once. *)
From Verif Require Import Word ModRed Arith ModRedProofs PolySpec PolyProofs Ring RingProofs NTT RingOps RNSSpec RowProofs OpsProofs OpsProps.

(** Rows 0..level hold, modulo each modulus m, the values [V m]. *)
Definition grepr (r : Ring) (level : nat) (B : Z -> Z) (p : rows) (V : modp -> nat -> Z) : Prop :=
  (level < length (rmods r))%nat /\ (level < length p)%nat /\
  forall i, (i <= level)%nat -> row_repr (rN r) (mq (rmod r i)) (B (mq (rmod r i))) (nth i p []) (V (rmod r i)).

Definition coefD (X : poly) : modp -> nat -> Z := fun _ => X.
Definition nttD (L : nat) (X : poly) : modp -> nat -> Z := fun m => values m L X.

Lemma rns_g r level B p X : rns_repr r level B p X <-> grepr r level B p (coefD X).
Proof. reflexivity. Qed.
Lemma ntt_g r L level B p X : rN r = (2 ^ L)%nat -> (rns_ntt r L level B p X <-> grepr r level B p (nttD L X)).
Proof. intros E. unfold rns_ntt, grepr, ntt_repr, nttD. rewrite E. reflexivity. Qed.

Lemma g_weaken r level B B' p V : (forall i, (i <= level)%nat -> B (mq (rmod r i)) <= B' (mq (rmod r i))) ->
  grepr r level B p V -> grepr r level B' p V.
Proof.
  intros HB (H1 & H2 & H3). split; [exact H1|]. split; [exact H2|]. intros i Hi.
  apply (row_repr_weaken _ _ (B (mq (rmod r i)))); [apply HB; exact Hi|apply H3; exact Hi].
Qed.
Lemma g_peq r level B p V V' :
  (forall i k, (i <= level)%nat -> (k < rN r)%nat -> eqm (mq (rmod r i)) (V (rmod r i) k) (V' (rmod r i) k)) ->
  grepr r level B p V -> grepr r level B p V'.
Proof.
  intros HE (H1 & H2 & H3). split; [exact H1|]. split; [exact H2|]. intros i Hi.
  apply (row_repr_peq _ _ _ _ (V (rmod r i))); [intros k Hk; apply HE; assumption|apply H3; exact Hi].
Qed.
Lemma g_level r level level' B p V : (level' <= level)%nat -> grepr r level B p V -> grepr r level' B p V.
Proof. intros H (H1 & H2 & H3). split; [lia|]. split; [lia|]. intros i Hi. apply H3. lia. Qed.

Lemma g_lvl r level B f out V : (level < length (rmods r))%nat ->
  (forall i, (i <= level)%nat -> row_repr (rN r) (mq (rmod r i)) (B (mq (rmod r i))) (f i) (V (rmod r i))) ->
  grepr r level B (lvl (S level) f out) V.
Proof.
  intros H1 H3. split; [exact H1|]. split; [rewrite lvl_length; lia|]. intros i Hi. rewrite lvl_nth_lt by lia. apply H3. exact Hi.
Qed.

Lemma g_op1 r f level B B' p1 p2 V V' :
  (forall i k x, (i <= level)%nat -> (k < rN r)%nat -> let m := rmod r i in
     0 <= x < B (mq m) -> eqm (mq m) x (V m k) -> 0 <= f m x < B' (mq m) /\ eqm (mq m) (f m x) (V' m k)) ->
  grepr r level B p1 V -> grepr r level B' (op1 r f level p1 p2) V'.
Proof.
  intros Hf (H1 & H2 & H3). apply g_lvl; [exact H1|]. intros i Hi.
  apply (row_map _ _ (B (mq (rmod r i))) _ _ _ (V (rmod r i))).
  - intros k x Hk Hx E. apply Hf; assumption.
  - apply H3. exact Hi.
Qed.
Lemma g_op2 r f level B1 B2 B' p1 p2 p3 V1 V2 V' :
  (forall i k x y, (i <= level)%nat -> (k < rN r)%nat -> let m := rmod r i in
     0 <= x < B1 (mq m) -> 0 <= y < B2 (mq m) -> eqm (mq m) x (V1 m k) -> eqm (mq m) y (V2 m k) ->
     0 <= f m x y < B' (mq m) /\ eqm (mq m) (f m x y) (V' m k)) ->
  grepr r level B1 p1 V1 -> grepr r level B2 p2 V2 -> grepr r level B' (op2 r f level p1 p2 p3) V'.
Proof.
  intros Hf (H1 & H2 & H3) (_ & H2' & H3'). apply g_lvl; [exact H1|]. intros i Hi.
  apply (row_map2 _ _ (B1 (mq (rmod r i))) (B2 (mq (rmod r i))) _ _ _ _ (V1 (rmod r i)) (V2 (rmod r i))).
  - intros k x y Hk Hx Hy E E'. apply Hf; assumption.
  - apply H3. exact Hi.
  - apply H3'. exact Hi.
Qed.
Lemma g_op3 r f level B1 B2 B3 B' p1 p2 p3 V1 V2 V3 V' :
  (forall i k x y z, (i <= level)%nat -> (k < rN r)%nat -> let m := rmod r i in
     0 <= x < B1 (mq m) -> 0 <= y < B2 (mq m) -> 0 <= z < B3 (mq m) ->
     eqm (mq m) x (V1 m k) -> eqm (mq m) y (V2 m k) -> eqm (mq m) z (V3 m k) ->
     0 <= f m x y z < B' (mq m) /\ eqm (mq m) (f m x y z) (V' m k)) ->
  grepr r level B1 p1 V1 -> grepr r level B2 p2 V2 -> grepr r level B3 p3 V3 ->
  grepr r level B' (op3 r f level p1 p2 p3) V'.
Proof.
  intros Hf (H1 & H2 & H3) (_ & H2' & H3') (_ & H2'' & H3''). apply g_lvl; [exact H1|]. intros i Hi.
  apply (row_map3 _ _ (B1 (mq (rmod r i))) (B2 (mq (rmod r i))) (B3 (mq (rmod r i))) _ _ _ _ _ (V1 (rmod r i)) (V2 (rmod r i)) (V3 (rmod r i))).
  - intros k x y z Hk Hx Hy Hz E E' E''. apply Hf; assumption.
  - apply H3. exact Hi.
  - apply H3'. exact Hi.
  - apply H3''. exact Hi.
Qed.

(** ** Words *)
Lemma cred_word x q B : 0 < q -> q <= B -> 0 <= x < B + q -> B + q <= W ->
  0 <= CRed x q < B /\ eqm q (CRed x q) x.
Proof.
  intros Hq HB Hx HW. unfold CRed, csub, wsub. destruct (Z.leb_spec q x).
  - rewrite w64_small by lia. split; [lia|]. apply (eqm_intro _ _ _ (-1)). ring.
  - split; [lia|reflexivity].
Qed.

Section Words.
  Variables (q qi : Z).
  Hypothesis (Hq : 5 <= q) (HW : 2 * q <= W) (Ho : Z.odd q = true) (Hi : eqm W (q * qi) 1).

  Lemma mont_cancel a b : eqm q (a * W) (W * b) -> eqm q a b.
  Proof. intros H. apply odd_cancel_W; [lia|exact Ho|]. rewrite (Z.mul_comm b). exact H. Qed.

  Lemma mred_word x y B1 B2 v1 v2 v : 0 <= x < B1 -> 0 <= y < B2 -> B1 * B2 <= q * W ->
    eqm q x v1 -> eqm q y v2 -> eqm q (v1 * v2) (W * v) ->
    0 <= MRed x y q qi < q /\ eqm q (MRed x y q qi) v.
  Proof.
    intros Hx Hy HB E1 E2 E.
    assert (Hxy : x * y < q * W) by (clear - Hx Hy HB; nia).
    split; [apply MRed_range; try assumption; lia|].
    apply mont_cancel. rewrite MRed_eqm by (try assumption; lia). rewrite <- E. apply eqm_mul; assumption.
  Qed.
  Lemma mredc_word x y B1 B2 v1 v2 v : 0 <= x < B1 -> 0 <= y < B2 -> B1 * B2 <= q * W ->
    eqm q x v1 -> eqm q y v2 -> eqm q (v1 * v2) (W * v) ->
    0 <= MRedConstant x y q qi < 2 * q /\ MRedConstant x y q qi * W <= x * y + W * q /\ eqm q (MRedConstant x y q qi) v.
  Proof.
    intros Hx Hy HB E1 E2 E.
    assert (Hxy : x * y < q * W) by (clear - Hx Hy HB; nia).
    destruct (MRedConstant_spec x y q qi) as (k & Hk & _ & R & S); try assumption; try lia.
    split; [lia|]. split; [rewrite S; clear - Hk Hq; nia|].
    apply mont_cancel. rewrite MRedConstant_eqm by (try assumption; lia). rewrite <- E. apply eqm_mul; assumption.
  Qed.
End Words.

(** ** Operations *)
Section Built.
  Variables (r : Ring) (level : nat).
  Hypothesis Hr : built_ring 2 r.
  Notation Q i := (mq (rmod r i)).

  Ltac mod_facts i := destruct (built_mod 2 r i ltac:(lia) Hr ltac:(lia)) as (Q5 & Q2 & Qo & Eb & Ei & Hinv).

  Lemma g_add B1 B2 B p1 p2 p3 V1 V2 :
    (forall i, (i <= level)%nat -> Q i <= B (Q i) /\ B1 (Q i) + B2 (Q i) <= B (Q i) + Q i /\ B (Q i) + Q i <= W) ->
    grepr r level B1 p1 V1 -> grepr r level B2 p2 V2 ->
    grepr r level B (AddLvl r level p1 p2 p3) (fun m k => V1 m k + V2 m k).
  Proof.
    intros HB H1. assert (Hl := proj1 H1). revert H1. apply g_op2. intros i k x y Hi Hk m Hx Hy E1 E2.
    destruct (HB i Hi) as (B1' & B2' & B3'). fold m in B1', B2', B3'. mod_facts i. fold m in Q5, Q2.
    unfold wadd. rewrite w64_small by lia.
    destruct (cred_word (x + y) (mq m) (B (mq m))) as [R1 R2]; try lia. split; [exact R1|].
    rewrite R2. apply eqm_add; assumption.
  Qed.
  Lemma g_addnomod B1 B2 p1 p2 p3 V1 V2 :
    (forall i, (i <= level)%nat -> B1 (Q i) + B2 (Q i) <= W + 1) ->
    grepr r level B1 p1 V1 -> grepr r level B2 p2 V2 ->
    grepr r level (fun q => B1 q + B2 q) (AddNoModLvl r level p1 p2 p3) (fun m k => V1 m k + V2 m k).
  Proof.
    intros HB H1. revert H1. apply g_op2. intros i k x y Hi Hk m Hx Hy E1 E2.
    specialize (HB i Hi). fold m in HB.
    unfold wadd. rewrite w64_small by lia. split; [lia|]. apply eqm_add; assumption.
  Qed.
  Lemma g_sub B1 B p1 p2 p3 V1 V2 :
    (forall i, (i <= level)%nat -> Q i <= B (Q i) /\ B1 (Q i) <= B (Q i) /\ B (Q i) + Q i <= W) ->
    grepr r level B1 p1 V1 -> grepr r level canon p2 V2 ->
    grepr r level B (SubLvl r level p1 p2 p3) (fun m k => V1 m k - V2 m k).
  Proof.
    intros HB H1. assert (Hl := proj1 H1). revert H1. apply g_op2. intros i k x y Hi Hk m Hx Hy E1 E2. unfold canon in Hy.
    destruct (HB i Hi) as (B1' & B2' & B3'). fold m in B1', B2', B3'. mod_facts i. fold m in Q5, Q2.
    unfold wadd, wsub. rewrite (w64_small (x + mq m)) by lia. rewrite w64_small by lia.
    destruct (cred_word (x + mq m - y) (mq m) (B (mq m))) as [R1 R2]; try lia. split; [exact R1|].
    rewrite R2. transitivity (x - y); [apply (eqm_intro _ _ _ 1); ring|]. apply eqm_sub; assumption.
  Qed.
  (** Negation of canonical words gives words up to q included. *)
  Lemma g_neg p1 p2 V1 :
    grepr r level canon p1 V1 -> grepr r level (fun q => q + 1) (NegLvl r level p1 p2) (fun m k => - V1 m k).
  Proof.
    intros H1. assert (Hl := proj1 H1). revert H1. apply g_op1. intros i k x Hi Hk m Hx E1. unfold canon in Hx.
    mod_facts i. fold m in Q5, Q2. unfold wsub. rewrite w64_small by lia. split; [lia|].
    transitivity (- x); [apply (eqm_intro _ _ _ 1); ring|]. apply eqm_opp; assumption.
  Qed.
  Lemma g_reduce B p1 p2 V : (forall i, (i <= level)%nat -> B (Q i) <= W) ->
    grepr r level B p1 V -> grepr r level canon (ReduceLvl r level p1 p2) V.
  Proof.
    intros HB H1. assert (Hl := proj1 H1). revert H1. apply g_op1. intros i k x Hi Hk m Hx E1. unfold canon.
    specialize (HB i Hi). fold m in HB. mod_facts i. fold m in Q5, Q2, Eb. rewrite Eb, BRedAdd_correct by lia.
    split; [apply Z.mod_pos_bound; lia|]. rewrite eqm_mod. exact E1.
  Qed.
  Lemma g_mform B p1 p2 V : (forall i, (i <= level)%nat -> B (Q i) <= W) ->
    grepr r level B p1 V -> grepr r level canon (MFormLvl r level p1 p2) (fun m k => W * V m k).
  Proof.
    intros HB H1. assert (Hl := proj1 H1). revert H1. apply g_op1. intros i k x Hi Hk m Hx E1. unfold canon.
    specialize (HB i Hi). fold m in HB. mod_facts i. fold m in Q5, Q2, Eb. rewrite Eb, MForm_correct by lia.
    split; [apply Z.mod_pos_bound; lia|]. rewrite eqm_mod. rewrite Z.mul_comm. apply eqm_mul; [reflexivity|exact E1].
  Qed.
  Lemma g_invmform B p1 p2 V V' : (forall i, (i <= level)%nat -> B (Q i) <= W) ->
    (forall i k, (i <= level)%nat -> (k < rN r)%nat -> eqm (Q i) (V (rmod r i) k) (W * V' (rmod r i) k)) ->
    grepr r level B p1 V -> grepr r level canon (InvMFormLvl r level p1 p2) V'.
  Proof.
    intros HB HV H1. assert (Hl := proj1 H1). revert H1. apply g_op1. intros i k x Hi Hk m Hx E1. unfold canon.
    specialize (HB i Hi). fold m in HB. specialize (HV i k Hi Hk). fold m in HV. mod_facts i. fold m in Q5, Q2, Qo, Hinv.
    split; [apply InvMForm_range; try assumption; lia|].
    apply mont_cancel; [exact Q5|exact Qo|]. rewrite InvMForm_eqm by (try assumption; lia). rewrite E1. exact HV.
  Qed.
  Lemma g_mulmont B1 B2 p1 p2 p3 V1 V2 V :
    (forall i, (i <= level)%nat -> B1 (Q i) * B2 (Q i) <= Q i * W) ->
    (forall i k, (i <= level)%nat -> (k < rN r)%nat -> eqm (Q i) (V1 (rmod r i) k * V2 (rmod r i) k) (W * V (rmod r i) k)) ->
    grepr r level B1 p1 V1 -> grepr r level B2 p2 V2 ->
    grepr r level canon (MulCoeffsMontgomeryLvl r level p1 p2 p3) V.
  Proof.
    intros HB HV H1. assert (Hl := proj1 H1). revert H1. apply g_op2. intros i k x y Hi Hk m Hx Hy E1 E2. unfold canon.
    specialize (HB i Hi). fold m in HB. specialize (HV i k Hi Hk). fold m in HV. mod_facts i. fold m in Q5, Q2, Qo, Hinv.
    apply (mred_word (mq m) (mqinv m) Q5 Q2 Qo Hinv x y _ _ _ _ _ Hx Hy HB E1 E2 HV).
  Qed.
  Lemma g_mulmontadd B1 B2 B3 B p1 p2 p3 V1 V2 V3 V :
    (forall i, (i <= level)%nat -> B1 (Q i) * B2 (Q i) <= Q i * W /\ B3 (Q i) <= B (Q i) /\ Q i <= B (Q i) /\ B (Q i) + Q i <= W) ->
    (forall i k, (i <= level)%nat -> (k < rN r)%nat -> eqm (Q i) (V1 (rmod r i) k * V2 (rmod r i) k) (W * V (rmod r i) k)) ->
    grepr r level B1 p1 V1 -> grepr r level B2 p2 V2 -> grepr r level B3 p3 V3 ->
    grepr r level B (MulCoeffsMontgomeryAndAddLvl r level p1 p2 p3) (fun m k => V3 m k + V m k).
  Proof.
    intros HB HV H1. assert (Hl := proj1 H1). revert H1. apply g_op3. intros i k x y z Hi Hk m Hx Hy Hz E1 E2 E3.
    specialize (HB i Hi). fold m in HB. destruct HB as (HB & HB3 & HB4 & HB5). specialize (HV i k Hi Hk). fold m in HV. mod_facts i. fold m in Q5, Q2, Qo, Hinv.
    destruct (mred_word (mq m) (mqinv m) Q5 Q2 Qo Hinv x y _ _ _ _ _ Hx Hy HB E1 E2 HV) as [R1 R2].
    unfold wadd. rewrite w64_small by lia.
    destruct (cred_word (z + MRed x y (mq m) (mqinv m)) (mq m) (B (mq m))) as [S1 S2]; try lia. split; [exact S1|].
    rewrite S2. apply eqm_add; assumption.
  Qed.
  Lemma g_mulmontsub B1 B2 B3 B p1 p2 p3 V1 V2 V3 V :
    (forall i, (i <= level)%nat -> B1 (Q i) * B2 (Q i) <= Q i * W /\ B3 (Q i) + 1 <= B (Q i) /\ Q i <= B (Q i) /\ B (Q i) + Q i <= W) ->
    (forall i k, (i <= level)%nat -> (k < rN r)%nat -> eqm (Q i) (V1 (rmod r i) k * V2 (rmod r i) k) (W * V (rmod r i) k)) ->
    grepr r level B1 p1 V1 -> grepr r level B2 p2 V2 -> grepr r level B3 p3 V3 ->
    grepr r level B (MulCoeffsMontgomeryAndSubLvl r level p1 p2 p3) (fun m k => V3 m k - V m k).
  Proof.
    intros HB HV H1. assert (Hl := proj1 H1). revert H1. apply g_op3. intros i k x y z Hi Hk m Hx Hy Hz E1 E2 E3.
    specialize (HB i Hi). fold m in HB. destruct HB as (HB & HB3 & HB4 & HB5). specialize (HV i k Hi Hk). fold m in HV. mod_facts i. fold m in Q5, Q2, Qo, Hinv.
    destruct (mred_word (mq m) (mqinv m) Q5 Q2 Qo Hinv x y _ _ _ _ _ Hx Hy HB E1 E2 HV) as [R1 R2].
    unfold wadd, wsub. set (v := MRed x y (mq m) (mqinv m)) in *.
    rewrite (w64_small (mq m - v)) by lia. rewrite w64_small by lia.
    destruct (cred_word (z + (mq m - v)) (mq m) (B (mq m))) as [S1 S2]; try lia. split; [exact S1|].
    rewrite S2. transitivity (z - v); [apply (eqm_intro _ _ _ 1); ring|]. apply eqm_sub; assumption.
  Qed.
  (** On a canonical third operand the result is canonical: z + (q - v) is below 2q as v is a residue. *)
  Lemma g_mulmontsub_canon B1 B2 p1 p2 p3 V1 V2 V3 V :
    (forall i, (i <= level)%nat -> B1 (Q i) * B2 (Q i) <= Q i * W) ->
    (forall i k, (i <= level)%nat -> (k < rN r)%nat -> eqm (Q i) (V1 (rmod r i) k * V2 (rmod r i) k) (W * V (rmod r i) k)) ->
    grepr r level B1 p1 V1 -> grepr r level B2 p2 V2 -> grepr r level canon p3 V3 ->
    grepr r level canon (MulCoeffsMontgomeryAndSubLvl r level p1 p2 p3) (fun m k => V3 m k - V m k).
  Proof.
    intros HB HV H1. assert (Hl := proj1 H1). revert H1. apply g_op3. intros i k x y z Hi Hk m Hx Hy Hz E1 E2 E3. unfold canon in *.
    specialize (HB i Hi). fold m in HB. specialize (HV i k Hi Hk). fold m in HV. mod_facts i. fold m in Q5, Q2, Qo, Hinv.
    destruct (mred_word (mq m) (mqinv m) Q5 Q2 Qo Hinv x y _ _ _ _ _ Hx Hy HB E1 E2 HV) as [R1 R2].
    unfold wadd, wsub. set (v := MRed x y (mq m) (mqinv m)) in *.
    rewrite (w64_small (mq m - v)) by lia. rewrite w64_small by lia.
    destruct (cred_word (z + (mq m - v)) (mq m) (mq m)) as [S1 S2]; try lia. split; [exact S1|].
    rewrite S2. transitivity (z - v); [apply (eqm_intro _ _ _ 1); ring|]. apply eqm_sub; assumption.
  Qed.
  Lemma g_mulmontc B1 B2 p1 p2 p3 V1 V2 V :
    (forall i, (i <= level)%nat -> B1 (Q i) * B2 (Q i) <= Q i * W) ->
    (forall i k, (i <= level)%nat -> (k < rN r)%nat -> eqm (Q i) (V1 (rmod r i) k * V2 (rmod r i) k) (W * V (rmod r i) k)) ->
    grepr r level B1 p1 V1 -> grepr r level B2 p2 V2 ->
    grepr r level (fun q => 2 * q) (MulCoeffsMontgomeryConstantLvl r level p1 p2 p3) V.
  Proof.
    intros HB HV H1. assert (Hl := proj1 H1). revert H1. apply g_op2. intros i k x y Hi Hk m Hx Hy E1 E2.
    specialize (HB i Hi). fold m in HB. specialize (HV i k Hi Hk). fold m in HV. mod_facts i. fold m in Q5, Q2, Qo, Hinv.
    destruct (mredc_word (mq m) (mqinv m) Q5 Q2 Qo Hinv x y _ _ _ _ _ Hx Hy HB E1 E2 HV) as (R1 & _ & R2). split; assumption.
  Qed.
End Built.

(** ** The transforms *)
Section Transforms.
  Variables (r : Ring) (L : nat).
  Hypothesis (Hr : built_ring 2 r) (EL : rN r = (2 ^ L)%nat).
  Notation Q i := (mq (rmod r i)).

  Lemma built_L : wf_ring L L r /\ (4 <= L)%nat.
  Proof.
    destruct (built_ring_wf 2 r ltac:(lia) Hr) as (L' & Hw & _).
    pose proof (wfr_N _ _ _ Hw) as E. rewrite EL in E. apply Nat.pow_inj_r in E; [|lia]. subst L'.
    split; [exact Hw|]. pose proof (wfr_logN _ _ _ Hw). lia.
  Qed.
  Lemma built_wf i : (i < length (rmods r))%nat -> wf_modp L (rmod r i).
  Proof. intros Hi. apply (wf_ring_mod L L); [apply built_L|exact Hi]. Qed.

  Lemma t_ntt level B p1 p2 X : (forall i, (i <= level)%nat -> B (Q i) + 4 * Q i <= W /\ 8 * Q i <= W) ->
    rns_repr r level B p1 X -> rns_ntt r L level canon (NTTLvl r level p1 p2) X.
  Proof.
    intros HB (H1 & H2 & H3). apply (ntt_g _ _ _ _ _ _ EL). apply g_lvl; [exact H1|]. intros i Hi.
    destruct built_L as [Hw HL]. unfold prow, canon. rewrite EL. destruct (HB i Hi).
    apply (ntt_row_repr L (rmod r i) ltac:(lia) (built_wf i ltac:(lia)) (B (Q i))); [assumption|assumption|].
    rewrite <- EL. apply H3. exact Hi.
  Qed.
  Lemma t_nttlazy level B p1 p2 X : (forall i, (i <= level)%nat -> 4 * Q i <= B (Q i) /\ B (Q i) + 4 * Q i <= W) ->
    rns_repr r level B p1 X -> rns_ntt r L level (fun q => B q + 2 * q) (NTTLazyLvl r level p1 p2) X.
  Proof.
    intros HB (H1 & H2 & H3). apply (ntt_g _ _ _ _ _ _ EL). apply g_lvl; [exact H1|]. intros i Hi.
    destruct built_L as [Hw HL]. unfold prow. rewrite EL. destruct (HB i Hi).
    apply (nttlazy_row_repr L (rmod r i) ltac:(lia) (built_wf i ltac:(lia)) (B (Q i))); [assumption|assumption|].
    rewrite <- EL. apply H3. exact Hi.
  Qed.
  Lemma t_invntt level p1 p2 X : (forall i, (i <= level)%nat -> 6 * Q i <= W) ->
    rns_ntt r L level (fun q => 2 * q) p1 X -> rns_repr r level canon (InvNTTLvl r level p1 p2) X.
  Proof.
    intros HB (H1 & H2 & H3). apply rns_g. apply g_lvl; [exact H1|]. intros i Hi.
    destruct built_L as [Hw HL]. unfold prow, canon, coefD. rewrite EL.
    apply (invntt_row_repr L (rmod r i) ltac:(lia) (built_wf i ltac:(lia))); [apply HB; exact Hi|apply H3; exact Hi].
  Qed.
  Lemma t_invnttlazy level p1 p2 X : (forall i, (i <= level)%nat -> 6 * Q i <= W) ->
    rns_ntt r L level (fun q => 2 * q) p1 X -> rns_repr r level (fun q => 2 * q) (InvNTTLazyLvl r level p1 p2) X.
  Proof.
    intros HB (H1 & H2 & H3). apply rns_g. apply g_lvl; [exact H1|]. intros i Hi.
    destruct built_L as [Hw HL]. unfold prow, canon, coefD. rewrite EL.
    apply (invnttlazy_row_repr L (rmod r i) ltac:(lia) (built_wf i ltac:(lia))); [apply HB; exact Hi|apply H3; exact Hi].
  Qed.

  (** Congruent polynomials. *)
  Lemma rns_peq level B p X Y : (forall i, (i <= level)%nat -> peq (rN r) (Q i) X Y) ->
    rns_repr r level B p X -> rns_repr r level B p Y.
  Proof. intros H. apply (g_peq r level B p (coefD X) (coefD Y)). intros i k Hi Hk. apply H; assumption. Qed.
  Lemma ntt_peq level B p X Y : (forall i, (i <= level)%nat -> peq (rN r) (Q i) X Y) ->
    rns_ntt r L level B p X -> rns_ntt r L level B p Y.
  Proof.
    intros H HX. apply (ntt_g _ _ _ _ _ _ EL). apply (ntt_g _ _ _ _ _ _ EL) in HX. revert HX. apply g_peq. intros i k Hi Hk.
    apply values_peq. rewrite <- EL. apply H. exact Hi.
  Qed.
  Lemma rns_weaken level B B' p X : (forall i, (i <= level)%nat -> B (Q i) <= B' (Q i)) ->
    rns_repr r level B p X -> rns_repr r level B' p X.
  Proof. apply (g_weaken r level B B' p (coefD X)). Qed.
  Lemma ntt_weaken level B B' p X : (forall i, (i <= level)%nat -> B (Q i) <= B' (Q i)) ->
    rns_ntt r L level B p X -> rns_ntt r L level B' p X.
  Proof. intros H HX. apply (ntt_g _ _ _ _ _ _ EL). apply (ntt_g _ _ _ _ _ _ EL) in HX. revert HX. apply g_weaken. exact H. Qed.

  (** The value of a Montgomery product. *)
  Lemma mont_values i X Y k : (i < length (rmods r))%nat ->
    eqm (Q i) (nttD L X (rmod r i) k * nttD L (pscale W Y) (rmod r i) k) (W * nttD L (pmul (rN r) X Y) (rmod r i) k).
  Proof.
    intros Hi. unfold nttD. rewrite values_scale. rewrite EL.
    transitivity (W * (values (rmod r i) L X k * values (rmod r i) L Y k)); [apply eqm_eq; ring|].
    apply eqm_mul; [reflexivity|]. symmetry. apply (values_mul L (rmod r i)). apply built_wf. exact Hi.
  Qed.
  Lemma n_mulmont level B1 B2 p1 p2 p3 X Y : (forall i, (i <= level)%nat -> B1 (Q i) * B2 (Q i) <= Q i * W) ->
    rns_ntt r L level B1 p1 X -> rns_ntt r L level B2 p2 (pscale W Y) ->
    rns_ntt r L level canon (MulCoeffsMontgomeryLvl r level p1 p2 p3) (pmul (rN r) X Y).
  Proof.
    intros HB H1 H2. assert (Hl := proj1 H1). apply (ntt_g _ _ _ _ _ _ EL). apply (ntt_g _ _ _ _ _ _ EL) in H1, H2.
    revert H1 H2. apply g_mulmont; [exact Hr|exact HB|]. intros i k Hi Hk. apply mont_values. lia.
  Qed.
  Lemma n_mulmont' level B1 B2 p1 p2 p3 X Y : (forall i, (i <= level)%nat -> B1 (Q i) * B2 (Q i) <= Q i * W) ->
    rns_ntt r L level B1 p1 (pscale W X) -> rns_ntt r L level B2 p2 Y ->
    rns_ntt r L level canon (MulCoeffsMontgomeryLvl r level p1 p2 p3) (pmul (rN r) X Y).
  Proof.
    intros HB H1 H2. assert (Hl := proj1 H1). apply (ntt_g _ _ _ _ _ _ EL). apply (ntt_g _ _ _ _ _ _ EL) in H1, H2.
    revert H1 H2. apply g_mulmont; [exact Hr|exact HB|]. intros i k Hi Hk. rewrite Z.mul_comm.
    rewrite mont_values by lia. apply eqm_mul; [reflexivity|]. apply values_peq. rewrite <- EL. apply pmul_comm.
  Qed.
  Lemma n_mform level B p1 p2 X : (forall i, (i <= level)%nat -> B (Q i) <= W) ->
    rns_ntt r L level B p1 X -> rns_ntt r L level canon (MFormLvl r level p1 p2) (pscale W X).
  Proof.
    intros HB H. apply (ntt_g _ _ _ _ _ _ EL). apply (ntt_g _ _ _ _ _ _ EL) in H.
    apply (g_peq _ _ _ _ (fun m k => W * nttD L X m k)); [|revert H; apply g_mform; assumption].
    intros i k Hi Hk. unfold nttD. rewrite values_scale. reflexivity.
  Qed.
  Lemma n_invmform level B p1 p2 X : (forall i, (i <= level)%nat -> B (Q i) <= W) ->
    rns_ntt r L level B p1 (pscale W X) -> rns_ntt r L level canon (InvMFormLvl r level p1 p2) X.
  Proof.
    intros HB H. apply (ntt_g _ _ _ _ _ _ EL). apply (ntt_g _ _ _ _ _ _ EL) in H.
    revert H. apply g_invmform; [exact Hr|exact HB|]. intros i k Hi Hk. unfold nttD. rewrite values_scale. reflexivity.
  Qed.
  Lemma n_reduce level B p1 p2 X : (forall i, (i <= level)%nat -> B (Q i) <= W) ->
    rns_ntt r L level B p1 X -> rns_ntt r L level canon (ReduceLvl r level p1 p2) X.
  Proof.
    intros HB H. apply (ntt_g _ _ _ _ _ _ EL). apply (ntt_g _ _ _ _ _ _ EL) in H. revert H. apply g_reduce; assumption.
  Qed.
  Lemma n_add level B1 B2 B p1 p2 p3 X Y :
    (forall i, (i <= level)%nat -> Q i <= B (Q i) /\ B1 (Q i) + B2 (Q i) <= B (Q i) + Q i /\ B (Q i) + Q i <= W) ->
    rns_ntt r L level B1 p1 X -> rns_ntt r L level B2 p2 Y ->
    rns_ntt r L level B (AddLvl r level p1 p2 p3) (padd X Y).
  Proof.
    intros HB H1 H2. apply (ntt_g _ _ _ _ _ _ EL). apply (ntt_g _ _ _ _ _ _ EL) in H1, H2.
    apply (g_peq _ _ _ _ (fun m k => nttD L X m k + nttD L Y m k)).
    - intros i k Hi Hk. unfold nttD. rewrite values_add. reflexivity.
    - revert H1 H2. apply g_add; assumption.
  Qed.
  Lemma n_sub level B1 B p1 p2 p3 X Y :
    (forall i, (i <= level)%nat -> Q i <= B (Q i) /\ B1 (Q i) <= B (Q i) /\ B (Q i) + Q i <= W) ->
    rns_ntt r L level B1 p1 X -> rns_ntt r L level canon p2 Y ->
    rns_ntt r L level B (SubLvl r level p1 p2 p3) (psub X Y).
  Proof.
    intros HB H1 H2. apply (ntt_g _ _ _ _ _ _ EL). apply (ntt_g _ _ _ _ _ _ EL) in H1, H2.
    apply (g_peq _ _ _ _ (fun m k => nttD L X m k - nttD L Y m k)).
    - intros i k Hi Hk. unfold nttD. rewrite values_sub. reflexivity.
    - revert H1 H2. apply g_sub; assumption.
  Qed.
  Lemma n_mulmontadd level B1 B2 B3 B p1 p2 p3 X Y Z :
    (forall i, (i <= level)%nat -> B1 (Q i) * B2 (Q i) <= Q i * W /\ B3 (Q i) <= B (Q i) /\ Q i <= B (Q i) /\ B (Q i) + Q i <= W) ->
    rns_ntt r L level B1 p1 X -> rns_ntt r L level B2 p2 (pscale W Y) -> rns_ntt r L level B3 p3 Z ->
    rns_ntt r L level B (MulCoeffsMontgomeryAndAddLvl r level p1 p2 p3) (padd Z (pmul (rN r) X Y)).
  Proof.
    intros HB H1 H2 H3. assert (Hl := proj1 H1). apply (ntt_g _ _ _ _ _ _ EL). apply (ntt_g _ _ _ _ _ _ EL) in H1, H2, H3.
    apply (g_peq _ _ _ _ (fun m k => nttD L Z m k + nttD L (pmul (rN r) X Y) m k)).
    - intros i k Hi Hk. unfold nttD. rewrite values_add. reflexivity.
    - revert H1 H2 H3. apply g_mulmontadd; [exact Hr|exact HB|]. intros i k Hi Hk. apply mont_values. lia.
  Qed.
  Lemma n_mulmontsub level B1 B2 p1 p2 p3 X Y Z :
    (forall i, (i <= level)%nat -> B1 (Q i) * B2 (Q i) <= Q i * W) ->
    rns_ntt r L level B1 p1 X -> rns_ntt r L level B2 p2 (pscale W Y) -> rns_ntt r L level canon p3 Z ->
    rns_ntt r L level canon (MulCoeffsMontgomeryAndSubLvl r level p1 p2 p3) (psub Z (pmul (rN r) X Y)).
  Proof.
    intros HB H1 H2 H3. assert (Hl := proj1 H1). apply (ntt_g _ _ _ _ _ _ EL). apply (ntt_g _ _ _ _ _ _ EL) in H1, H2, H3.
    apply (g_peq _ _ _ _ (fun m k => nttD L Z m k - nttD L (pmul (rN r) X Y) m k)).
    - intros i k Hi Hk. unfold nttD. rewrite values_sub. reflexivity.
    - revert H1 H2 H3. apply g_mulmontsub_canon; [exact Hr|exact HB|]. intros i k Hi Hk. apply mont_values. lia.
  Qed.
End Transforms.

(** ** The same operations on rows of coefficients *)
Section Coefficients.
  Variables (r : Ring) (level : nat).
  Hypothesis (Hr : built_ring 2 r).
  Notation Q i := (mq (rmod r i)).
  Lemma c_add B1 B2 B p1 p2 p3 X Y :
    (forall i, (i <= level)%nat -> Q i <= B (Q i) /\ B1 (Q i) + B2 (Q i) <= B (Q i) + Q i /\ B (Q i) + Q i <= W) ->
    rns_repr r level B1 p1 X -> rns_repr r level B2 p2 Y -> rns_repr r level B (AddLvl r level p1 p2 p3) (padd X Y).
  Proof. exact (fun HB => g_add r level Hr B1 B2 B p1 p2 p3 (coefD X) (coefD Y) HB). Qed.
  Lemma c_sub B1 B p1 p2 p3 X Y :
    (forall i, (i <= level)%nat -> Q i <= B (Q i) /\ B1 (Q i) <= B (Q i) /\ B (Q i) + Q i <= W) ->
    rns_repr r level B1 p1 X -> rns_repr r level canon p2 Y -> rns_repr r level B (SubLvl r level p1 p2 p3) (psub X Y).
  Proof. exact (fun HB => g_sub r level Hr B1 B p1 p2 p3 (coefD X) (coefD Y) HB). Qed.
  Lemma c_reduce B p1 p2 X : (forall i, (i <= level)%nat -> B (Q i) <= W) ->
    rns_repr r level B p1 X -> rns_repr r level canon (ReduceLvl r level p1 p2) X.
  Proof. exact (fun HB => g_reduce r level Hr B p1 p2 (coefD X) HB). Qed.
  Lemma c_mform B p1 p2 X : (forall i, (i <= level)%nat -> B (Q i) <= W) ->
    rns_repr r level B p1 X -> rns_repr r level canon (MFormLvl r level p1 p2) (pscale W X).
  Proof. exact (fun HB => g_mform r level Hr B p1 p2 (coefD X) HB). Qed.
  Lemma c_invmform B p1 p2 X : (forall i, (i <= level)%nat -> B (Q i) <= W) ->
    rns_repr r level B p1 (pscale W X) -> rns_repr r level canon (InvMFormLvl r level p1 p2) X.
  Proof. exact (fun HB => g_invmform r level Hr B p1 p2 (coefD (pscale W X)) (coefD X) HB (fun i k _ _ => eq_refl)). Qed.
End Coefficients.
