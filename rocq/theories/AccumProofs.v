(** The lazy accumulation is exact for any number of digits. *)
From Verif Require Import Word ModRed Arith ModRedProofs PolySpec PolyProofs Ring RingProofs NTT RingOps RNSSpec RowProofs OpsProofs OpsProps Repr Float64 Gadget MarginProofs.

Lemma MaxSlice_acc l : forall a, a <= fold_left (fun m x => if m <? x then x else m) l a /\
  (forall x, In x l -> x <= fold_left (fun m x => if m <? x then x else m) l a) /\
  (fold_left (fun m x => if m <? x then x else m) l a = a \/ In (fold_left (fun m x => if m <? x then x else m) l a) l).
Proof.
  induction l as [|y l IH]; intros a; cbn [fold_left In].
  - split; [lia|]. split; [tauto|]. left. reflexivity.
  - destruct (IH (if a <? y then y else a)) as (H1 & H2 & H3).
    split; [destruct (Z.ltb_spec a y); lia|]. split.
    + intros x [-> | Hx]; [destruct (Z.ltb_spec a x); lia|apply H2; exact Hx].
    + destruct H3 as [H3 | H3]; [|right; right; exact H3]. rewrite H3. destruct (Z.ltb_spec a y); [right; left; reflexivity|left; reflexivity].
Qed.

Lemma MaxSlice_spec l : (exists x, In x l) -> (forall x, In x l -> 0 < x) ->
  In (MaxSlice l) l /\ forall x, In x l -> x <= MaxSlice l.
Proof.
  intros [x Hx] Hp. destruct (MaxSlice_acc l 0) as (H1 & H2 & H3). fold (MaxSlice l) in H1, H2, H3.
  split; [|exact H2]. destruct H3 as [H3 | H3]; [|exact H3]. specialize (Hp x Hx). specialize (H2 x Hx). lia.
Qed.

Lemma moduli_firstn_in r level x : (level < length (rmods r))%nat ->
  (In x (firstn (S level) (moduli r)) <-> exists i, (i <= level)%nat /\ x = mq (rmod r i)).
Proof.
  intros Hl. assert (Hlen : length (firstn (S level) (moduli r)) = S level).
  { rewrite firstn_length. unfold moduli. rewrite map_length. lia. }
  assert (Hn : forall i, (i <= level)%nat -> nth i (firstn (S level) (moduli r)) 0 = mq (rmod r i)).
  { intros i Hi. transitivity (nth i (moduli r) 0).
    - rewrite <- (firstn_skipn (S level) (moduli r)) at 2. rewrite app_nth1 by lia. reflexivity.
    - unfold moduli, rmod. rewrite (nth_indep _ 0 (mq modp0)) by (rewrite map_length; lia). apply map_nth. }
  split.
  - intros H. apply (In_nth _ _ 0) in H. destruct H as (i & Hi & <-). exists i. split; [lia|]. apply Hn. lia.
  - intros (i & Hi & ->). rewrite <- (Hn i Hi). apply nth_In. lia.
Qed.

Lemma margin_spec r level : built_ring 2 r -> (level < length (rmods r))%nat ->
  let F := wshr (OverflowMargin (moduli r) level) 1 in
  1 <= F /\ forall i, (i <= level)%nat -> 2 * F * mq (rmod r i) <= W + 6144.
Proof.
  intros Hr Hl F.
  assert (Hpos : forall i, (i <= level)%nat -> 0 < mq (rmod r i) /\ 2 * mq (rmod r i) <= W).
  { intros i Hi. destruct (built_mod 2 r i ltac:(lia) Hr ltac:(lia)) as (Q5 & Q2 & _). lia. }
  destruct (MaxSlice_spec (firstn (S level) (moduli r))) as [Hin Hmax].
  { exists (mq (rmod r 0)). apply moduli_firstn_in; [exact Hl|]. exists O. split; [lia|reflexivity]. }
  { intros x Hx. apply moduli_firstn_in in Hx; [|exact Hl]. destruct Hx as (i & Hi & ->). apply Hpos. exact Hi. }
  apply moduli_firstn_in in Hin; [|exact Hl]. destruct Hin as (i0 & Hi0 & E0).
  destruct (Hpos i0 Hi0) as [P1 P2].
  destruct (margin_real (MaxSlice (firstn (S level) (moduli r)))) as [G2 GM].
  { rewrite E0. exact P1. } { rewrite E0. change (2 ^ 64) with W. exact P2. }
  change (2 ^ 64) with W in G2, GM. change (f64_trunc _) with (OverflowMargin (moduli r) level) in G2, GM.
  unfold F, wshr. change (2 ^ 1) with 2.
  set (G := OverflowMargin (moduli r) level) in *. set (M := MaxSlice (firstn (S level) (moduli r))) in *.
  assert (H2F : 1 <= G / 2 /\ 2 * (G / 2) <= G) by (clear - G2; lia).
  split; [apply H2F|]. intros i Hi.
  assert (Hle : mq (rmod r i) <= M). { apply Hmax. apply moduli_firstn_in; [exact Hl|]. exists i. split; [exact Hi|reflexivity]. }
  destruct (Hpos i Hi) as [P _]. set (F' := G / 2) in *. clearbody F' G M. clear - H2F GM Hle P. nia.
Qed.

(** The bound on the accumulator between two reductions. *)
Lemma acc_bound q Bx F : 0 < q -> 0 <= Bx -> 0 <= F -> 2 * F * q <= W + 6144 -> Bx + 2 * q + 16384 <= W ->
  q + F * (q + Bx * q / W) <= W.
Proof.
  intros Hq HB HF H1 H2. assert (W1 : 0 < W) by reflexivity.
  set (s := q + Bx * q / W). assert (Hs : s * W <= q * (W + Bx)).
  { unfold s. pose proof (Z.mul_div_le (Bx * q) W W1) as H. lia. }
  clearbody s.
  assert (H3 : 2 * F * q * (W + Bx) <= (W + 6144) * (W + Bx)) by (apply Z.mul_le_mono_nonneg_r; lia).
  assert (H4 : 2 * F * (s * W) <= 2 * F * (q * (W + Bx))) by (apply Z.mul_le_mono_nonneg_l; lia).
  assert (H5 : 2 * W * (q + F * s) <= 2 * W * W).
  { replace (2 * W * (q + F * s)) with (2 * W * q + 2 * F * (s * W)) by ring.
    assert (H6 : 6144 * Bx <= 6144 * W) by lia.
    assert (H7 : (W + 6144) * (W + Bx) = W * W + W * Bx + 6144 * W + 6144 * Bx) by ring.
    assert (H8 : W * Bx + 12288 * W + 2 * W * q <= W * W).
    { replace (W * Bx + 12288 * W + 2 * W * q) with (W * (Bx + 2 * q + 12288)) by ring.
      apply Z.mul_le_mono_nonneg_l; lia. }
    replace (2 * F * (q * (W + Bx))) with (2 * F * q * (W + Bx)) in H4 by ring. lia. }
  clear - H5 W1. nia.
Qed.

Section Acc.
  Variables (r : Ring) (level : nat) (Bx : Z -> Z) (F : Z).
  Hypothesis (Hr : built_ring 2 r) (Hl : (level < length (rmods r))%nat).
  Hypothesis HF : 1 <= F.
  Notation Q i := (mq (rmod r i)).
  Let s (q : Z) : Z := q + Bx q * q / W.
  Hypothesis HB : forall i, (i <= level)%nat -> 0 <= Bx (Q i) <= W /\ Q i + F * s (Q i) <= W.
  Variables (a b : nat -> rows) (Va Vb V : nat -> modp -> nat -> Z) (beta : nat).
  Hypothesis Ha : forall j, (j < beta)%nat -> grepr r level Bx (a j) (Va j).
  Hypothesis Hb : forall j, (j < beta)%nat -> grepr r level canon (b j) (Vb j).
  Hypothesis HV : forall j i k, (j < beta)%nat -> (i <= level)%nat -> (k < rN r)%nat ->
    eqm (Q i) (Va j (rmod r i) k * Vb j (rmod r i) k) (W * V j (rmod r i) k).

  Let bnd (c : Z) (q : Z) : Z := q + c * s q.
  Let sumV (n : nat) : modp -> nat -> Z := fun m k => bigsum n (fun j => V j m k).

  Lemma prod_word i x y v1 v2 v : (i <= level)%nat -> let m := rmod r i in
    0 <= x < Bx (mq m) -> 0 <= y < mq m -> eqm (mq m) x v1 -> eqm (mq m) y v2 -> eqm (mq m) (v1 * v2) (W * v) ->
    0 <= MRedConstant x y (mq m) (mqinv m) <= s (mq m) /\ eqm (mq m) (MRedConstant x y (mq m) (mqinv m)) v.
  Proof.
    clear Ha Hb HV. intros Hi m Hx Hy E1 E2 E. destruct (HB i Hi) as [HB1 _]. fold m in HB1.
    destruct (built_mod 2 r i ltac:(lia) Hr ltac:(lia)) as (Q5 & Q2 & Qo & _ & _ & Hinv). fold m in Q5, Q2, Qo, Hinv.
    assert (HBq : Bx (mq m) * mq m <= mq m * W) by (clear - HB1 Q5; nia).
    destruct (mredc_word (mq m) (mqinv m) Q5 Q2 Qo Hinv x y _ _ _ _ _ Hx Hy HBq E1 E2 E) as (R1 & R2 & R3).
    split; [|exact R3]. split; [lia|]. unfold s.
    assert (W1 : 0 < W) by reflexivity.
    assert (Hxy : x * y <= Bx (mq m) * mq m) by (clear - Hx Hy; nia).
    assert (MRedConstant x y (mq m) (mqinv m) - mq m <= Bx (mq m) * mq m / W); [|lia].
    apply Z.div_le_lower_bound; [exact W1|]. lia.
  Qed.

  Lemma step_first pool : (0 < beta)%nat ->
    grepr r level (bnd 1) (MulCoeffsMontgomeryConstantLvl r level (a O) (b O) pool) (sumV 1).
  Proof.
    intros H0. assert (H1 := Ha O H0). assert (H2 := Hb O H0). assert (H3 := fun i k => HV O i k H0). clear Ha Hb HV.
    revert H1 H2. apply g_op2. intros i k x y Hi Hk m Hx Hy E1 E2. unfold canon in Hy.
    destruct (prod_word i x y _ _ _ Hi Hx Hy E1 E2 (H3 i k Hi Hk)) as [P1 P2]. fold m in P1, P2.
    destruct (built_mod 2 r i ltac:(lia) Hr ltac:(lia)) as (Q5 & _). fold m in Q5.
    split; [unfold bnd; lia|]. unfold sumV. cbn [bigsum]. rewrite P2. apply eqm_eq. unfold m. ring.
  Qed.

  Lemma step_next c i acc : (i < beta)%nat -> 0 <= c -> c + 1 <= F -> grepr r level (bnd c) acc (sumV i) ->
    grepr r level (bnd (c + 1)) (MulCoeffsMontgomeryConstantAndAddNoModLvl r level (a i) (b i) acc) (sumV (S i)).
  Proof.
    intros H0 Hc HcF H4. assert (H1 := Ha i H0). assert (H2 := Hb i H0). assert (H3 := fun j k => HV i j k H0).
    revert H1 H2 H4. apply g_op3. intros j k x y z Hj Hk m Hx Hy Hz E1 E2 E3. unfold canon in Hy.
    destruct (prod_word j x y _ _ _ Hj Hx Hy E1 E2 (H3 j k Hj Hk)) as [P1 P2]. fold m in P1, P2.
    destruct (built_mod 2 r j ltac:(lia) Hr ltac:(lia)) as (Q5 & _). fold m in Q5.
    destruct (HB j Hj) as [HB1 HB2]. fold m in HB1, HB2.
    unfold bnd in *. set (v := MRedConstant x y (mq m) (mqinv m)) in *. set (sq := s (mq m)) in *.
    assert (Hlt : z + v < mq m + (c + 1) * sq) by lia.
    assert (Hle : (c + 1) * sq <= F * sq) by (apply Z.mul_le_mono_nonneg_r; lia).
    unfold wadd. rewrite w64_small by lia. split; [lia|].
    unfold sumV in *. cbn [bigsum]. apply eqm_add; assumption.
  Qed.

  Lemma acc_fold n pool : (0 < n)%nat -> (n <= beta)%nat ->
    grepr r level (bnd (Z.of_nat n mod F)) (fold_left (acc_step r level F a b) (seq 0 n) pool) (sumV n).
  Proof.
    assert (RED : forall c acc V', 0 <= c <= F -> grepr r level (bnd c) acc V' -> grepr r level (bnd 0) (ReduceLvl r level acc acc) V').
    { intros c acc V' Hc HX. apply (g_weaken _ _ canon); [intros i Hi; unfold bnd, canon; lia|].
      revert HX. apply g_reduce; [exact Hr|]. intros i Hi. destruct (HB i Hi) as [HB1 HB2]. unfold bnd.
      destruct (built_mod 2 r i ltac:(lia) Hr ltac:(lia)) as (Q5 & _).
      assert (0 <= s (Q i)). { unfold s. assert (0 <= Bx (Q i) * Q i / W); [|lia]. apply Z.div_pos; [|reflexivity]. clear - HB1 Q5. nia. }
      set (sq := s (Q i)) in *. clearbody sq. clear - Hc HB2 H. nia. }
    assert (FIN : forall n acc, 0 <= Z.of_nat n mod F + 1 <= F -> grepr r level (bnd (Z.of_nat n mod F + 1)) acc (sumV (S n)) ->
       grepr r level (bnd (Z.of_nat (S n) mod F)) (if Z.of_nat n mod F =? F - 1 then ReduceLvl r level acc acc else acc) (sumV (S n))).
    { intros n0 acc Hc HX. destruct (Z.eqb_spec (Z.of_nat n0 mod F) (F - 1)) as [E|E].
      - assert (E' : Z.of_nat (S n0) mod F = 0).
        { rewrite Nat2Z.inj_succ. unfold Z.succ. rewrite Z.add_mod by lia. rewrite E.
          destruct (Z.eq_dec F 1) as [-> | HF1]; [apply Z.mod_1_r|]. rewrite (Z.mod_small 1) by lia.
          replace (F - 1 + 1) with F by ring. apply Z.mod_same. lia. }
        rewrite E'. apply (RED (Z.of_nat n0 mod F + 1)); [lia|exact HX].
      - assert (E' : Z.of_nat (S n0) mod F = Z.of_nat n0 mod F + 1).
        { rewrite Nat2Z.inj_succ. unfold Z.succ. pose proof (Z.mod_pos_bound (Z.of_nat n0) F ltac:(lia)) as Bn.
          rewrite Z.add_mod by lia. assert (1 < F) by lia. rewrite (Z.mod_small 1) by lia.
          apply Z.mod_small. lia. }
        rewrite E'. exact HX. }
    induction n as [|n IH]; intros Hn Hnb; [lia|].
    rewrite seq_S, fold_left_app. cbn [fold_left Nat.add]. unfold acc_step at 1.
    pose proof (Z.mod_pos_bound (Z.of_nat n) F ltac:(lia)) as Bn.
    apply FIN; [lia|].
    destruct (Nat.eqb_spec n 0) as [-> | Hn0].
    - change (Z.of_nat 0) with 0. rewrite Z.mod_0_l by lia. apply step_first. lia.
    - apply step_next; [lia|lia|lia|]. apply IH; lia.
  Qed.

  Lemma accumulate_spec pool : (0 < beta)%nat ->
    grepr r level canon (accumulate r level F beta a b pool) (sumV beta).
  Proof.
    intros H0. pose proof (acc_fold beta pool H0 ltac:(lia)) as H. unfold accumulate.
    set (acc := fold_left _ _ _) in *.
    pose proof (Z.mod_pos_bound (Z.of_nat beta) F ltac:(lia)) as Bn.
    destruct (Z.eqb_spec (Z.of_nat beta mod F) 0) as [E|E].
    - rewrite E in H. revert H. apply g_weaken. intros i Hi. unfold bnd, canon. lia.
    - revert H. apply g_reduce; [exact Hr|]. intros i Hi. destruct (HB i Hi) as [HB1 HB2]. unfold bnd.
      destruct (built_mod 2 r i ltac:(lia) Hr ltac:(lia)) as (Q5 & _).
      assert (H : 0 <= s (Q i)). { unfold s. assert (0 <= Bx (Q i) * Q i / W); [|lia]. apply Z.div_pos; [|reflexivity]. clear - HB1 Q5. nia. }
      set (sq := s (Q i)) in *. clearbody sq. clear - Bn HB2 H. nia.
  Qed.
End Acc.

Lemma lazy_accumulation : forall r, built_ring 2 r -> forall L, rN r = (2 ^ L)%nat ->
  forall level Bx beta (a b : nat -> rows) (X Y : nat -> poly) pool,
  (level < length (rmods r))%nat -> (0 < beta)%nat ->
  (forall i, (i <= level)%nat -> 0 <= Bx (mq (rmod r i)) /\ Bx (mq (rmod r i)) + 2 * mq (rmod r i) + 16384 <= W) ->
  (forall j, (j < beta)%nat -> rns_ntt r L level Bx (a j) (X j) /\ rns_ntt r L level canon (b j) (pscale W (Y j))) ->
  let F := wshr (OverflowMargin (moduli r) level) 1 in
  1 <= F /\ rns_ntt r L level canon (accumulate r level F beta a b pool) (psum beta (fun j => pmul (rN r) (X j) (Y j))).
Proof.
  intros r Hr L EL level Bx beta a b X Y pool Hl Hb HB Hab F.
  destruct (margin_spec r level Hr Hl) as [F1 FM]. fold F in F1, FM. split; [exact F1|].
  apply (ntt_g _ _ _ _ _ _ EL).
  apply (g_peq _ _ _ _ (fun m k => bigsum beta (fun j => nttD L (pmul (rN r) (X j) (Y j)) m k))).
  - intros i k Hi Hk. unfold nttD, values. rewrite peval_psum. reflexivity.
  - apply (accumulate_spec r level Bx F Hr Hl F1) with (Va := fun j => nttD L (X j)) (Vb := fun j => nttD L (pscale W (Y j))).
    + intros i Hi. destruct (HB i Hi) as [B1 B2]. destruct (built_mod 2 r i ltac:(lia) Hr ltac:(lia)) as (Q5 & _).
      split; [lia|]. apply acc_bound; try lia. apply FM. exact Hi.
    + intros j Hj. apply (ntt_g _ _ _ _ _ _ EL). apply Hab. exact Hj.
    + intros j Hj. apply (ntt_g _ _ _ _ _ _ EL). apply Hab. exact Hj.
    + intros j i k Hj Hi Hk. apply (mont_values r L Hr EL). lia.
    + exact Hb.
Qed.
