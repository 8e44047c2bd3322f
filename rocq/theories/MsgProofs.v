(** Encryption and decryption of messages. *)
From Coq Require Import ZArith Reals Lra Lia List Arith.
From Flocq Require Import Core.Core IEEE754.BinarySingleNaN.
From Coquelicot Require Import Complex.
From Verif Require Import Word ModRed Arith PolySpec PolyProofs Ring RingProofs NTT NTTProofs RingOps RNSSpec Repr RowProofs OpsProofs CRT Scaling ScalingMore Float64 FloatProofs
  GadgetSpec Gadget Frlwe Rlwe RlweSpec RlweBase RlweKeys RlweGen RlweEnc RlweTop Ckks CkksSpec CkksBase CkksOps CkksFloat Fckks FckksSpec FckksDec
  Fft FftSpec FftProofs FftRing FftTop SlotSpec SlotProofs Encoder EncSpec EncFloat EncNtt EncCoeffs EncFft EncSlots SlotTrace Msg MsgSpec SlotMsg.
From Verif Require BasisEx.
Import ListNotations.
Open Scope R_scope.

(** ** Decryption *)
Lemma decrypt_msg m L rQ delta roots buf pool cs level B c sk s v A eps :
  built_ring 9 rQ -> encoder_shape m L rQ delta roots buf -> (3 <= L -> 16 <= length buf)%nat -> pool_shape rQ pool ->
  secret rQ (m + 1) sk s -> ct_ok rQ level B c -> fits rQ B -> scale_ok (ctScale c) -> carries rQ m L sk c v eps -> vbound v A -> 1 <= A -> 0 <= eps ->
  let l := Nat.min (lowest rQ cs) level in let sc := fval (ctScale c) in
  2 * (sc * A + eps) + 2 <= IZR (lprod rQ l) -> sc * A + eps <= IZR (2 ^ 1000) -> 2 ^ L * (A + eps / sc) <= IZR (2 ^ 900) -> growth delta (L + 1) <= 1 ->
  exists out, fst (DecryptToMsg roots buf pool L (decrypt_all (NewFDecryptor rQ sk) cs) c) = Some out /\ length out = (2 ^ L)%nat /\
    forall k, (k < 2 ^ L)%nat -> cfinite (nth k out c_zero) /\
      Cmod (value_at out k - v k)%C <= eps / sc + 2 ^ L * (A + eps / sc) * growth delta (L + 1).
Proof.
  intros BQ HE H16 Pl Hs HC HB Hsc (P & HD & HS) HV HA He l sc S1 S2 S3 HG.
  assert (HE' := HE). destruct HE' as (EN & HL & LB & HR). destruct Hsc as [Fs Ps]. fold sc in Ps, HS.
  assert (H0 : (0 < length (rmods rQ))%nat) by (destruct HC; lia).
  destruct (pooled_state rQ sk cs H0) as (T1 & T2 & T3).
  assert (PD := pooled_decrypt rQ BQ (m + 1) EN cs level B c sk s P Hs HC HB HD).
  unfold DecryptToMsg. rewrite T1. destruct (decrypt_pooled _ c) as [[pt sc'] d']. cbn [fst] in *. cbv zeta in PD. fold l in PD. destruct PD as (-> & LP & HM).
  assert (EN' := EN). assert (NN : (rN rQ = 2 * 2 ^ m)%nat) by (rewrite EN, Nat.add_comm; reflexivity).
  assert (PN : (0 < 2 ^ m)%nat) by (apply Nat.neq_0_lt_0, Nat.pow_nonzero; lia).
  assert (SB : forall k, Cmod (slot (2 ^ (m + 1)) P k) <= sc * A + eps) by (intros k; rewrite <- EN; apply (sf_size (rN rQ) L P sc v eps A); [lra|exact HV|exact HS]).
  assert (CB := coeff_bound m P _ SB). assert (PB := pairs_bound m P _ SB). cbv zeta in CB, PB. rewrite <- EN in CB.
  assert (EB : (A + eps / sc) * sc = sc * A + eps) by (field; lra).
  assert (ES : 0 <= eps / sc) by (apply Rmult_le_pos; [exact He|apply Rlt_le, Rinv_0_lt_compat; exact Ps]).
  assert (L1 : 1 <= 2 ^ L) by (apply pow_R1_Rle; lra).
  assert (A9 : A + eps / sc <= IZR (2 ^ 1000)).
  { apply Rle_trans with (IZR (2 ^ 900)); [|apply IZR_le, Z.leb_le; reflexivity]. apply Rle_trans with (2 := S3). rewrite <- (Rmult_1_l (A + eps / sc)) at 1. apply Rmult_le_compat_r; lra. }
  destruct (decode_any m L rQ delta roots buf pool (mkPt pt (ctScale c) true) l P (A + eps / sc)) as (out & D1 & D2 & D3).
  - apply (BasisEx.built_weaken 9); [lia|exact BQ].
  - exact HE.
  - exact H16.
  - split; [exact (proj1 HM)|]. split; [exact LP|]. intros i Hi. destruct HM as (_ & _ & HM). rewrite EN. exact (proj1 (HM i Hi)).
  - exact Pl.
  - split; assumption.
  - exact HM.
  - intros k Hk. specialize (CB k Hk). cbn [ptScale]. fold sc. split; [|split].
    + assert (X : 2 * Rabs (IZR (P k)) + 2 <= IZR (lprod rQ l)) by lra. rewrite <- abs_IZR, <- mult_IZR, <- plus_IZR in X. apply le_IZR in X. lia.
    + lra.
    + fold sc. unfold Rdiv. rewrite Rabs_mult, (Rabs_pos_eq (/ sc)) by (apply Rlt_le, Rinv_0_lt_compat; exact Ps). apply Rle_trans with (2 := A9).
      apply Rle_trans with ((sc * A + eps) * / sc); [apply Rmult_le_compat_r; [apply Rlt_le, Rinv_0_lt_compat; exact Ps|exact CB]|]. right. field. lra.
  - lra.
  - exact S3.
  - intros k Hk. cbn [ptScale]. fold sc. rewrite EB. unfold packed. rewrite nth_map_seq by exact Hk.
    assert (EH : (rN rQ / 2 = 2 ^ m)%nat) by (rewrite NN, Nat.mul_comm; apply Nat.div_mul; lia).
    assert (P2 : (2 ^ L <> 0)%nat) by (apply Nat.pow_nonzero; lia).
    assert (X : (2 ^ m = 2 ^ L * 2 ^ (m - L))%nat) by (rewrite <- Nat.pow_add_r; f_equal; lia).
    assert (GG : (rN rQ / (2 * 2 ^ L) = 2 ^ (m - L))%nat) by (rewrite <- Nat.div_div, EH, X, Nat.mul_comm by lia; apply Nat.div_mul; exact P2).
    rewrite GG, EH.
    apply PB. assert (Y : (0 < 2 ^ (m - L))%nat) by (apply Nat.neq_0_lt_0, Nat.pow_nonzero; lia). rewrite X. nia.
  - exact HG.
  - exists out. split; [exact D1|]. split; [exact D2|]. intros k Hk. destruct (D3 k Hk) as [D4 D5]. split; [exact D4|]. cbn [ptScale] in D5. fold sc in D5.
    assert (T := trace_near m L P (fun k => RtoC sc * v (k mod 2 ^ L)%nat)%C eps HL). cbv zeta beta in T. rewrite <- EN in T.
    specialize (T ltac:(intros j; do 2 f_equal; replace (j + 2 ^ L)%nat with (j + 1 * 2 ^ L)%nat by lia; apply Nat.mod_add, Nat.pow_nonzero; lia) HS k). rewrite Nat.mod_small in T by exact Hk.
    set (x := slot (rN rQ) (in_gap (2 ^ (m - L)) P) k) in *.
    assert (Y : Cmod (x / RtoC sc - v k)%C <= eps / sc).
    { replace (x / RtoC sc - v k)%C with ((x - RtoC sc * v k) / RtoC sc)%C.
      - rewrite Cmod_div by (intros Z; apply RtoC_inj in Z; lra). rewrite Cmod_R, Rabs_pos_eq by lra. apply Rmult_le_compat_r; [apply Rlt_le, Rinv_0_lt_compat; exact Ps|exact T].
      - unfold Cdiv, Cminus. assert (Z : (RtoC sc * / RtoC sc = RtoC 1)%C) by (apply Cinv_r; intros Z; apply RtoC_inj in Z; lra).
        transitivity (x * / RtoC sc + - (v k * (RtoC sc * / RtoC sc)))%C; [ring|]. rewrite Z. ring. }
    replace (value_at out k - v k)%C with ((value_at out k - x / RtoC sc) + (x / RtoC sc - v k))%C by (unfold Cminus; ring).
    apply Rle_trans with (1 := Cmod_triangle _ _). lra.
Qed.

(** ** Encryption *)
Lemma fresh_real n p U e E0 E1 s rho0 rho1 F Bu Be Bf Bs : (0 < p)%Z -> (0 <= Bu)%Z -> (0 <= Be)%Z -> (0 <= Bf)%Z -> (0 <= Bs)%Z ->
  pbound n Bu U -> pbound n Be e -> pbound n Bf E0 -> pbound n Bf E1 -> pbound n Bs s -> fresh_noise n p U e E0 E1 s rho0 rho1 F ->
  forall k, (k < n)%nat -> Rabs (IZR (F k)) <= fresh_size n p Bu Be Bf Bs.
Proof.
  intros Hp H1 H2 H3 H4 HU He HE0 HE1 Hs HF k Hk. assert (X := fresh_bound n p U e E0 E1 s rho0 rho1 F Bu Be Bf Bf Bs Hp H1 H2 H3 H4 HU He HE0 HE1 Hs HF k Hk).
  apply IZR_le in X. rewrite plus_IZR in X. rewrite (mult_IZR (2 ^ 42) (p * _)), (mult_IZR p), (mult_IZR (2 ^ 42) (_ + _)), (mult_IZR (2 ^ 42 + 1)), (mult_IZR p), (plus_IZR (2 ^ 42)) in X.
  unfold fresh_size. rewrite <- abs_IZR. set (a := IZR (Z.abs (F k))) in *. set (b := IZR (_ + _ + _)) in *. set (c := IZR (1 + _)) in *.
  assert (PP : 0 < IZR p) by (apply IZR_lt; exact Hp). assert (E42 : IZR (2 ^ 42) = 2 ^ 42) by (rewrite (pow_IZR 2 42); reflexivity). rewrite E42 in X.
  assert (P42 : 0 < 2 ^ 42) by (apply pow_lt; lra). apply (Rmult_le_reg_l (2 ^ 42 * IZR p)); [apply Rmult_lt_0_compat; assumption|].
  replace (2 ^ 42 * IZR p * (b / IZR p + (1 + / 2 ^ 42) * c)) with (2 ^ 42 * b + (2 ^ 42 + 1) * (IZR p * c)) by (field; lra). lra.
Qed.
Lemma switch_real rQ rP levelQ levelP DQ Be Bs E : (0 < product (prefix rP levelP))%Z -> switch_noise rQ rP levelQ levelP DQ Be Bs E ->
  forall k, (k < rN rQ)%nat -> Rabs (IZR (E k)) <= switch_size rQ rP levelQ levelP DQ Be Bs.
Proof.
  intros Hp HN k Hk. specialize (HN k Hk). cbv zeta in HN. unfold switch_size. set (p := product _) in *. set (b := (Z.of_nat (ceil_div _ _) * _)%Z) in *. set (c := (1 + _)%Z) in *.
  apply IZR_le in HN. rewrite (mult_IZR (2 ^ 42)), (mult_IZR p), (mult_IZR (2 ^ 42 + 1)), !plus_IZR, (mult_IZR p) in HN. rewrite <- abs_IZR. set (a := IZR (Z.abs (E k))) in *.
  assert (PP : 0 < IZR p) by (apply IZR_lt; exact Hp). assert (E42 : IZR (2 ^ 42) = 2 ^ 42) by (rewrite (pow_IZR 2 42); reflexivity). rewrite E42 in HN.
  assert (P42 : 0 < 2 ^ 42) by (apply pow_lt; lra). apply (Rmult_le_reg_l (2 ^ 42 * IZR p)); [apply Rmult_lt_0_compat; assumption|].
  replace (2 ^ 42 * IZR p * ((1 + / 2 ^ 42) * (IZR b / IZR p + IZR c))) with ((2 ^ 42 + 1) * (IZR b + IZR p * IZR c)) by (field; lra). lra.
Qed.

Lemma encrypt_pt rQ rP L : ring_pair rQ rP -> rN rQ = (2 ^ L)%nat -> forall sk s pk Be Bs pt M lo out u e0 e1 pool poolP0 poolP1 U E0 E1 Bu Bf,
  secret rQ L sk s -> public_key_ok rQ rP L pk s Be -> shaped 1 lo out -> 
  let level := Nat.min (length pt - 1) lo in
  rns_ntt rQ L level canon pt M -> sampled rQ rP level 0 u U -> sampled rQ rP level 0 e0 E0 -> sampled rQ rP level 0 e1 E1 ->
  (0 <= Bu)%Z -> (0 <= Be)%Z -> (0 <= Bf)%Z -> (0 <= Bs)%Z -> pbound (rN rQ) Bs s -> pbound (rN rQ) Bu U -> pbound (rN rQ) Bf E0 -> pbound (rN rQ) Bf E1 ->
  let '(c0, c1) := pkEncrypt rQ rP pk pt true (comp out 0) (comp out 1) (ctNTT out) u e0 e1 pool poolP0 poolP1 in
  forall sc, let c := mkCt [c0; c1] sc (ctNTT out) in ct_ok rQ level canon c /\ ctDegree c = 1%nat /\
    exists F, decrypts rQ L sk c (padd M F) /\ forall k, (k < rN rQ)%nat -> Rabs (IZR (F k)) <= fresh_size (rN rQ) (mq (rmod rP 0)) Bu Be Bf Bs.
Proof.
  intros HP EL sk s pk Be Bs pt M lo out u e0 e1 pool poolP0 poolP1 U E0 E1 Bu Bf Hs (b0 & b1 & e & K0 & K1 & K2 & Ke) (O1 & O2 & O3) level HM HU HE0 HE1 P1 P2 P3 P4 Bds BdU Bd0 Bd1.
  pose proof (k_Q rQ rP HP) as BQ. pose proof (k_P rQ rP HP) as BP. assert (Hl := proj1 HM).
  assert (H0 : (0 < length (rmods rP))%nat) by (destruct K0 as [_ [H0 _]]; clear - H0; lia).
  assert (El : level = Nat.min (length pt - 1) (length (comp out 0) - 1)) by (rewrite (O3 0%nat) by lia; unfold level; lia).
  pose proof (pk_encrypt rQ rP L HP EL level pk pt true (comp out 0) (comp out 1) (ctNTT out) u e0 e1 pool poolP0 poolP1 b0 b1 U e E0 E1 M s El) as ENC.
  destruct (pkEncrypt rQ rP pk pt true (comp out 0) (comp out 1) (ctNTT out) u e0 e1 pool poolP0 poolP1) as [c0 c1].
  destruct ENC as (L0 & L1 & C0 & C1 & rho0 & rho1 & F & HC0 & HC1 & HV & HF).
  - apply (qp_restrict rQ rP L (maxLevel rQ) (maxLevel rP)); [apply le_max; exact Hl|lia|exact K0].
  - apply (qp_restrict rQ rP L (maxLevel rQ) (maxLevel rP)); [apply le_max; exact Hl|lia|exact K1].
  - intros q _. apply K2.
  - exact HM.
  - exact HU.
  - exact HE0.
  - exact HE1.
  - intros sc c. rewrite O2 in HC0, HC1. unfold rns_dom in HC0, HC1.
    assert (RP : ct_repr rQ L level canon c (fun i => nth i [C0; C1] pzero)).
    { split; [exact Hl|]. split; [cbn; lia|]. split; [exact O2|]. intros j Hj. cbn in Hj. destruct j as [|[|j]]; cbn; [split; assumption|split; assumption|lia]. }
    assert (OK : ct_ok rQ level canon c).
    { split; [exact Hl|]. split; [cbn; lia|]. split; [exact O2|]. intros j Hj. cbn in Hj.
      assert (WD : forall p X, rns_ntt rQ L level canon p X -> words rQ level canon p).
      { intros p X (_ & X2 & X3). split; [exact X2|]. intros i Hi. destruct (X3 i Hi) as [Y1 Y2]. rewrite EL. split; [exact Y1|]. intros k Hk. apply (Y2 k Hk). }
      destruct j as [|[|j]]; cbn; [split; [exact L0|exact (WD _ _ HC0)]|split; [exact L1|exact (WD _ _ HC1)]|lia]. }
    split; [exact OK|]. split; [reflexivity|]. exists F. split.
    + intros pt' ptNTT' pool' Lp. assert (Lc : ctLevel c = level) by (unfold ctLevel, comp; cbn; rewrite L0; lia). rewrite Lc in *.
      cbn [ctV ctNTT c]. rewrite O2. apply (decrypt_two rQ BQ L EL level _ s c0 c1 C0 C1); try assumption. apply (secret_level rQ L EL sk s level Hl Hs).
    + apply (fresh_real (rN rQ) _ U e E0 E1 s rho0 rho1); try assumption. destruct (one_mod rP BP 0 H0). lia.
Qed.

Lemma vals_bound L A vals : values_ok L A vals -> vbound (value_at vals) A.
Proof.
  intros (V1 & V2 & V3 & V4). split; [lra|]. intros k. unfold value_at. destruct (Nat.lt_ge_cases k (length vals)) as [H|H]; [apply V2; apply nth_In; exact H|].
  rewrite nth_overflow by exact H. destruct cnum_zero as [_ ->]. rewrite Cmod_R, Rabs_R0. lra.
Qed.

Lemma encrypt_msg m L rQ rP delta roots buf vals A lp ptp sk s pk Be Bs lo out u e0 e1 pool poolP0 poolP1 U E0 E1 Bu Bf :
  ring_pair rQ rP -> encoder_shape m L rQ delta roots buf -> (3 <= L)%nat -> (16 <= length buf)%nat ->
  pt_shape rQ lp ptp -> ptNTT ptp = true -> scale_ok (ptScale ptp) -> values_ok L A vals -> 4 * (fval (ptScale ptp) * A) <= IZR (2 ^ 64) -> growth delta (L + 2) <= 1 ->
  secret rQ (m + 1) sk s -> public_key_ok rQ rP (m + 1) pk s Be -> shaped 1 lo out ->
  let level := Nat.min lp lo in
  sampled rQ rP level 0 u U -> sampled rQ rP level 0 e0 E0 -> sampled rQ rP level 0 e1 E1 ->
  (0 <= Bu)%Z -> (0 <= Be)%Z -> (0 <= Bf)%Z -> (0 <= Bs)%Z -> pbound (rN rQ) Bs s -> pbound (rN rQ) Bu U -> pbound (rN rQ) Bf E0 -> pbound (rN rQ) Bf E1 ->
  exists c ptp', EncryptMsg rQ rP pk roots buf ptp L vals out u e0 e1 pool poolP0 poolP1 = Some (c, ptp') /\
    pt_shape rQ lp ptp' /\ ptNTT ptp' = true /\ ptScale ptp' = ptScale ptp /\
    ct_ok rQ level canon c /\ ctDegree c = 1%nat /\ ctScale c = ptScale ptp /\
    carries rQ m L sk c (value_at vals) (encode_eps L (fval (ptScale ptp)) A delta + INR (rN rQ) * fresh_size (rN rQ) (mq (rmod rP 0)) Bu Be Bf Bs).
Proof.
  intros HP HE H3 H16 Sh Np Hsc HV HS HG Hs Hpk Ho level HU HE0 HE1 P1 P2 P3 P4 Bds BdU Bd0 Bd1.
  pose proof (k_Q rQ rP HP) as BQ.
  destruct (encode_slots m L rQ delta roots buf vals ptp lp A (BasisEx.built_weaken 9 8 rQ ltac:(lia) BQ) HE H3 H16 Sh Hsc HV HS HG) as (pt' & P & X1 & X2 & X3 & X4 & X5 & X6 & _ & _ & X7).
  destruct HE as (EN & HL & LB & HR). unfold EncryptMsg. rewrite X1, X3, Np.
  assert (LP : (length (ptV pt') - 1 = lp)%nat) by (destruct X4 as (_ & -> & _); lia).
  assert (HM : rns_ntt rQ (m + 1) (Nat.min (length (ptV pt') - 1) lo) canon (ptV pt') P) by (rewrite LP; apply (ntt_level rQ (m + 1) EN lp); [lia|exact X5]).
  assert (PE := encrypt_pt rQ rP (m + 1) HP EN sk s pk Be Bs (ptV pt') P lo out u e0 e1 pool poolP0 poolP1 U E0 E1 Bu Bf Hs Hpk Ho HM). cbv zeta in PE. rewrite LP in PE. fold level in PE.
  specialize (PE HU HE0 HE1 P1 P2 P3 P4 Bds BdU Bd0 Bd1). destruct (pkEncrypt _ _ _ _ _ _ _ _ _ _ _ _ _ _) as [c0 c1]. specialize (PE (ptScale pt')).
  destruct PE as (C1 & C2 & F & C3 & C4). eexists _, pt'. split; [reflexivity|]. split; [exact X4|]. split; [rewrite X3; exact Np|]. split; [exact X2|].
  split; [exact C1|]. split; [exact C2|]. split; [exact X2|]. exists (padd P F). split; [exact C3|]. cbn [ctScale]. rewrite X2.
  apply sf_noise; [rewrite EN; apply Nat.neq_0_lt_0, Nat.pow_nonzero; lia| |exact C4]. intros k. unfold encode_eps.
  assert (PK : slot (rN rQ) P k = slot (rN rQ) P (k mod 2 ^ L)).
  { rewrite (Nat.div_mod k (2 ^ L)) at 1 by (apply Nat.pow_nonzero; lia). rewrite EN in X6 |- *. generalize (k mod 2 ^ L)%nat. intros j. generalize (k / 2 ^ L)%nat. intros t. induction t as [|t IH]; [f_equal; lia|].
    replace (2 ^ L * S t + j)%nat with ((2 ^ L * t + j) + 2 ^ L)%nat by lia. rewrite (sparse_period m L P _ HL X6). exact IH. }
  rewrite PK. apply X7. apply Nat.mod_upper_bound, Nat.pow_nonzero. lia.
Qed.
