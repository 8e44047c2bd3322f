(** The basis extension: what [basisextenderparameters], [reconstructRNS] and
    [multSum] compute. *)
From Coq Require Import Reals.
From Verif Require Import Word ModRed Arith ModRedProofs Fermat PolySpec PolyProofs Ring RingProofs NTT NTTProofs RingOps RNSSpec RowProofs Float64 FloatProofs BasisExt.
Open Scope Z_scope.

Lemma nth_map_seq {B} (f : nat -> B) n i d : (i < n)%nat -> nth i (map f (seq 0 n)) d = f i.
Proof.
  intros Hi. rewrite (nth_indep _ d (f O)) by (rewrite map_length, seq_length; exact Hi).
  rewrite map_nth, seq_nth by exact Hi. reflexivity.
Qed.
Lemma nth_map_any {A B} (f : A -> B) l i d d' : (i < length l)%nat -> nth i (map f l) d = f (nth i l d').
Proof. intros Hi. rewrite (nth_indep _ d (f d')) by (rewrite map_length; exact Hi). apply map_nth. Qed.

(** ** Products *)
Definition qstar (i : nat) (Q : list Z) : Z :=
  prodZ (map (fun j => if Nat.eqb j i then 1 else nth j Q 0) (seq 0 (length Q))).

Lemma prodZ_seq_nth Q : prodZ (map (fun j => nth j Q 0) (seq 0 (length Q))) = prodZ Q.
Proof.
  f_equal. apply (list_ext _ _ 0); [rewrite map_length, seq_length; reflexivity|].
  rewrite map_length, seq_length. intros i Hi.
  apply (nth_map_seq (fun j => nth j Q 0)). exact Hi.
Qed.

Lemma prod_ones l i Q : ~ In i l -> prodZ (map (fun j => if Nat.eqb j i then 1 else nth j Q 0) l) = prodZ (map (fun j => nth j Q 0) l).
Proof.
  intros H. f_equal. apply map_ext_in. intros j Hj. destruct (Nat.eqb_spec j i); [subst; contradiction|reflexivity].
Qed.

Lemma qstar_prod i Q : (i < length Q)%nat -> nth i Q 0 * qstar i Q = prodZ Q.
Proof.
  intros Hi. unfold qstar. rewrite <- (prodZ_seq_nth Q).
  replace (length Q) with (i + (S (length Q - S i)))%nat by lia.
  rewrite seq_app, !map_app, !prodZ_app. cbn [seq map Nat.add]. rewrite !prodZ_cons, Nat.eqb_refl.
  rewrite !prod_ones; [ring| |]; rewrite in_seq; lia.
Qed.

(** ** Montgomery products of plain numbers *)
Lemma MRed_MForm a c m : Z.odd m = true -> 2 <= m -> 2 * m <= W -> 0 <= a < W -> 0 <= c < W ->
  MRed a (MForm c m (BRedParams m)) m (MRedParams m) = (a * c) mod m.
Proof.
  intros Ho H2 HW Ha Hc. rewrite MForm_correct by assumption.
  assert (Hr : 0 <= (c * W) mod m < m) by (apply Z.mod_pos_bound; lia).
  set (y := (c * W) mod m) in *.
  assert (Hi := MRedParams_inv m Ho).
  assert (HP : a * y < m * W) by (assert (0 < W) by reflexivity; nia).
  apply eqm_mod_eq; [apply MRed_range; try assumption; lia|].
  apply odd_cancel_W; [lia|exact Ho|].
  rewrite MRed_eqm; try assumption; try lia. unfold y. rewrite eqm_mod. apply eqm_eq. ring.
Qed.

Section Params.
  Variables (Q : list Z) (m : Z).
  Hypothesis (HQ : forall q, In q Q -> 0 <= q < W) (Ho : Z.odd m = true) (H2 : 2 <= m) (HW : 2 * m <= W).

  Lemma nth_Q j : 0 <= nth j Q 0 < W.
  Proof.
    clear Ho H2 HW. destruct (Nat.lt_ge_cases j (length Q)) as [H|H].
    - apply HQ. apply nth_In. exact H.
    - rewrite nth_overflow by exact H. split; [lia|reflexivity].
  Qed.

  Lemma prod_except_fold i l : forall init, 0 <= init < m ->
    let v := fold_left (fun acc j => if Nat.eqb j i then acc else MRed acc (MForm (nth j Q 0) m (BRedParams m)) m (MRedParams m)) l init in
    0 <= v < m /\ eqm m v (init * prodZ (map (fun j => if Nat.eqb j i then 1 else nth j Q 0) l)).
  Proof.
    induction l as [|j l IH]; intros init Hi; cbn [fold_left map]; rewrite ?prodZ_nil, ?prodZ_cons.
    - split; [exact Hi|]. apply eqm_eq. ring.
    - destruct (Nat.eqb j i).
      + destruct (IH init Hi) as [R E]. split; [exact R|]. rewrite E. apply eqm_eq. ring.
      + rewrite MRed_MForm; try assumption; try lia; [|apply nth_Q].
        destruct (IH ((init * nth j Q 0) mod m)) as [R E]; [apply Z.mod_pos_bound; lia|].
        split; [exact R|]. rewrite E, eqm_mod. apply eqm_eq. ring.
  Qed.

  Lemma prod_except_spec i init : 0 <= init < m ->
    0 <= prod_except i init Q m < m /\ eqm m (prod_except i init Q m) (init * qstar i Q).
  Proof. intros Hi. apply (prod_except_fold i (seq 0 (length Q)) init Hi). Qed.

  Lemma prod_mod_spec : 0 <= prod_mod Q m < m /\ eqm m (prod_mod Q m) (prodZ Q).
  Proof.
    unfold prod_mod.
    assert (G : forall l init, (forall q, In q l -> 0 <= q < W) -> 0 <= init < m ->
       let v := fold_left (fun acc qi => MRed acc (MForm qi m (BRedParams m)) m (MRedParams m)) l init in
       0 <= v < m /\ eqm m v (init * prodZ l)).
    { induction l as [|q l IH]; intros init Hl Hi; cbn [fold_left]; rewrite ?prodZ_nil, ?prodZ_cons.
      - split; [exact Hi|]. apply eqm_eq. ring.
      - rewrite MRed_MForm; try assumption; try lia; [|apply Hl; left; reflexivity].
        destruct (IH ((init * q) mod m)) as [R E]; [intros; apply Hl; right; assumption|apply Z.mod_pos_bound; lia|].
        split; [exact R|]. rewrite E, eqm_mod. apply eqm_eq. ring. }
    destruct (G Q 1 HQ ltac:(lia)) as [R E]. split; [exact R|]. rewrite E. apply eqm_eq. ring.
  Qed.

  (** Entry v of the table of multiples of -Q. *)
  Lemma vtimes_nth n : forall prev v k, 0 <= prev < m -> 0 <= v <= m -> (k < n)%nat ->
    0 <= nth k (vtimes n prev v m) 0 < m /\ eqm m (nth k (vtimes n prev v m) 0) (prev + (Z.of_nat k + 1) * v).
  Proof.
    induction n as [|n IH]; intros prev v k Hp Hv Hk; [lia|]. cbn [vtimes].
    assert (E : CRed (wadd prev v) m = (prev + v) mod m).
    { unfold wadd. rewrite w64_small by lia. apply CRed_correct; lia. }
    assert (R : 0 <= (prev + v) mod m < m) by (apply Z.mod_pos_bound; lia).
    rewrite E. destruct k as [|k]; cbn [nth].
    - split; [exact R|]. rewrite eqm_mod. apply eqm_eq. lia.
    - destruct (IH ((prev + v) mod m) v k R Hv ltac:(lia)) as [R' E']. split; [exact R'|].
      rewrite E', eqm_mod. apply eqm_eq. lia.
  Qed.

  Lemma vtable_spec k : (k <= length Q)%nat ->
    let t := nth k (0 :: vtimes (length Q) 0 (wsub m (prod_mod Q m)) m) 0 in
    0 <= t < m /\ eqm m t (- (Z.of_nat k * prodZ Q)).
  Proof.
    intros Hk. destruct prod_mod_spec as [R E].
    assert (Ew : wsub m (prod_mod Q m) = m - prod_mod Q m) by (unfold wsub; apply w64_small; lia).
    rewrite Ew. destruct k as [|k]; cbn [nth].
    - split; [lia|]. apply eqm_eq. lia.
    - destruct (vtimes_nth (length Q) 0 (m - prod_mod Q m) k ltac:(lia) ltac:(lia) ltac:(lia)) as [R' E'].
      split; [exact R'|]. rewrite E'. rewrite Nat2Z.inj_succ.
      assert (E2 : eqm m (m - prod_mod Q m) (- prodZ Q)).
      { rewrite <- E. apply (eqm_intro _ _ _ 1). ring. }
      rewrite E2. apply eqm_eq. ring.
  Qed.
End Params.

(** ** One coefficient *)
Section Coefficient.
  Variables (ms : list modp).
  Let Q := map mq ms.
  Hypothesis (Hms : forall m, In m ms -> prime (mq m) /\ 5 <= mq m /\ 2 * mq m <= W /\ mqinv m = MRedParams (mq m)).
  Hypothesis (Hnd : NoDup Q).
  Let k := length ms.

  Lemma len_Q : length Q = k.
  Proof. clear. unfold Q, k. apply map_length. Qed.
  Lemma nth_mq i : (i < k)%nat -> nth i Q 0 = mq (nth i ms modp0).
  Proof. clear. intros Hi. unfold Q. rewrite (nth_indep _ 0 (mq modp0)) by (rewrite map_length; exact Hi). apply map_nth. Qed.
  Lemma ms_i i : (i < k)%nat -> let q := nth i Q 0 in
    prime q /\ 5 <= q /\ 2 * q <= W /\ mqinv (nth i ms modp0) = MRedParams q /\ Z.odd q = true.
  Proof.
    intros Hi. cbv zeta. rewrite nth_mq by exact Hi.
    destruct (Hms (nth i ms modp0)) as (A & B & C & D); [apply nth_In; exact Hi|].
    repeat (split; [assumption|]). apply prime_odd; [assumption|lia].
  Qed.
  Lemma Q_words q : In q Q -> 0 <= q < W.
  Proof.
    unfold Q. rewrite in_map_iff. intros (m & <- & Hm). destruct (Hms m Hm) as (_ & A & B & _). lia.
  Qed.
  Lemma Q_pos : 0 < prodZ Q.
  Proof.
    assert (G : forall l, (forall q, In q l -> 0 < q) -> 0 < prodZ l).
    { induction l as [|q l IH]; intros H; rewrite ?prodZ_nil, ?prodZ_cons; [lia|].
      apply Z.mul_pos_pos; [apply H; left; reflexivity|apply IH; intros; apply H; right; assumption]. }
    apply G. unfold Q. intros q. rewrite in_map_iff. intros (m & <- & Hm). destruct (Hms m Hm) as (_ & A & _). lia.
  Qed.

  (** q_i does not divide Q/q_i, every other modulus does. *)
  Lemma qstar_coprime i : (i < k)%nat -> ~ (nth i Q 0 | qstar i Q).
  Proof.
    intros Hi HD. destruct (ms_i i Hi) as (Hp & H5 & _).
    unfold qstar in HD.
    assert (G : forall l, (nth i Q 0 | prodZ (map (fun j => if Nat.eqb j i then 1 else nth j Q 0) l)) ->
       exists j, In j l /\ j <> i /\ (nth i Q 0 | nth j Q 0)).
    { induction l as [|j l IH]; cbn [map]; rewrite ?prodZ_nil, ?prodZ_cons; intros H.
      - exfalso. apply Z.divide_1_r_nonneg in H; lia.
      - apply prime_mult in H; [|exact Hp]. destruct H as [H|H].
        + destruct (Nat.eqb_spec j i) as [->|Hn].
          * exfalso. apply Z.divide_1_r_nonneg in H; lia.
          * exists j. split; [left; reflexivity|]. split; assumption.
        + destruct (IH H) as (j' & A & B). exists j'. split; [right; exact A|exact B]. }
    destruct (G _ HD) as (j & Hj & Hn & Hd). apply in_seq in Hj. rewrite len_Q in Hj.
    destruct (ms_i j ltac:(lia)) as (Hpj & _).
    apply prime_div_prime in Hd; [|assumption|assumption].
    apply Hn. rewrite NoDup_nth in Hnd. symmetry. apply (Hnd i j); rewrite ?len_Q; lia || exact Hd.
  Qed.

  Lemma qstar_other i j : (i < k)%nat -> (j < k)%nat -> i <> j -> (nth i Q 0 | qstar j Q).
  Proof.
    intros Hi Hj Hn. unfold qstar. rewrite len_Q.
    assert (G : forall l, In i l -> (nth i Q 0 | prodZ (map (fun u => if Nat.eqb u j then 1 else nth u Q 0) l))).
    { induction l as [|u l IH]; intros H; [destruct H|]. cbn [map]. rewrite prodZ_cons.
      destruct H as [->|H].
      - destruct (Nat.eqb_spec i j); [contradiction|]. apply Z.divide_mul_l. reflexivity.
      - apply Z.divide_mul_r. apply IH. exact H. }
    apply G. apply in_seq. lia.
  Qed.

  Variables (P : list Z) (xs : list Z).
  Hypothesis (Hxs : forall i, (i < k)%nat -> 0 <= nth i xs 0 < W).
  Let params := basisextenderparameters Q P.
  Let rc := reconstructRNS ms (qoverqiinvqi params) xs.
  Let ys := fst rc.

  Lemma ys_len : length ys = k.
  Proof. clear. unfold ys, rc, reconstructRNS. cbn [fst]. rewrite map_length, seq_length. reflexivity. Qed.

  Lemma inv_entry i : (i < k)%nat ->
    0 <= nth i (qoverqiinvqi params) 0 < nth i Q 0 /\
    eqm (nth i Q 0) (nth i (qoverqiinvqi params) 0) (qstar i Q ^ (nth i Q 0 - 2) * W).
  Proof.
    intros Hi. destruct (ms_i i Hi) as (Hp & H5 & HW & _ & Ho).
    unfold params, basisextenderparameters. cbn [qoverqiinvqi]. rewrite len_Q.
    set (f := fun i0 => _).
    rewrite nth_map_seq by exact Hi. unfold f. cbn [Nat.add]. cbv zeta. clear f.
    set (q := nth i Q 0) in *.
    assert (W1 : 1 < W) by reflexivity.
    assert (R1 : 0 <= MForm 1 q (BRedParams q) < q).
    { rewrite MForm_correct by lia. apply Z.mod_pos_bound. lia. }
    destruct (prod_except_spec Q q Q_words Ho ltac:(lia) HW i _ R1) as [R E].
    rewrite (ModexpMontgomery_correct _ _ _ (qstar i Q)); try assumption; try lia.
    - split; [apply Z.mod_pos_bound; lia|apply eqm_mod].
    - rewrite E. rewrite MForm_correct by lia. rewrite eqm_mod. apply eqm_eq. ring.
  Qed.

  Lemma ys_spec i : (i < k)%nat ->
    0 <= nth i ys 0 < nth i Q 0 /\ eqm (nth i Q 0) (nth i ys 0 * qstar i Q) (nth i xs 0).
  Proof.
    intros Hi. destruct (ms_i i Hi) as (Hp & H5 & HW & Eq & Ho).
    destruct (inv_entry i Hi) as [Rc Ec].
    unfold ys, rc, reconstructRNS. cbn [fst].
    set (f := fun i0 => _). fold k.
    rewrite nth_map_seq by exact Hi. unfold f. cbn [Nat.add]. cbv zeta. clear f.
    rewrite Eq, <- nth_mq by exact Hi. set (q := nth i Q 0) in *.
    set (c := nth i (qoverqiinvqi params) 0) in *. set (x := nth i xs 0).
    assert (Hx : 0 <= x < W) by (apply Hxs; exact Hi).
    assert (HP : x * c < q * W) by (clear - Hx Rc; assert (0 < W) by reflexivity; nia).
    assert (Hin := MRedParams_inv q Ho).
    split; [apply MRed_range; try assumption; lia|].
    apply odd_cancel_W; [lia|exact Ho|].
    replace (MRed x c q (MRedParams q) * qstar i Q * W) with ((MRed x c q (MRedParams q) * W) * qstar i Q) by ring.
    rewrite MRed_eqm; try assumption; try lia. rewrite Ec.
    transitivity (x * W * (qstar i Q * qstar i Q ^ (q - 2))); [apply eqm_eq; ring|].
    rewrite (fermat_inv q (qstar i Q) Hp (qstar_coprime i Hi)). apply eqm_eq. ring.
  Qed.

  (** The reconstructed integer. *)
  Definition recM : Z := bigsum k (fun i => nth i ys 0 * qstar i Q).

  Lemma recM_eqm i : (i < k)%nat -> eqm (nth i Q 0) recM (nth i xs 0).
  Proof.
    intros Hi. unfold recM. rewrite <- (proj2 (ys_spec i Hi)).
    assert (G : forall n, eqm (nth i Q 0) (bigsum n (fun j => if (n <=? k)%nat then nth j ys 0 * qstar j Q else 0))
       (if (n <=? k)%nat then (if (i <? n)%nat then nth i ys 0 * qstar i Q else 0) else 0)).
    { intros n. destruct (Nat.leb_spec n k) as [Hn|Hn].
      2:{ rewrite bigsum_0. reflexivity. }
      induction n as [|n IH]; [reflexivity|]. cbn [bigsum].
      rewrite IH by lia. destruct (Nat.ltb_spec i n), (Nat.ltb_spec i (S n)); try lia.
      - destruct (qstar_other i n Hi ltac:(lia) ltac:(lia)) as [c Hc]. rewrite Hc.
        apply (eqm_intro _ _ _ (nth n ys 0 * c)). ring.
      - assert (i = n) by lia. subst n. apply eqm_eq. ring.
      - destruct (qstar_other i n Hi ltac:(lia) ltac:(lia)) as [c Hc]. rewrite Hc.
        apply (eqm_intro _ _ _ (nth n ys 0 * c)). ring. }
    specialize (G k). rewrite Nat.leb_refl in G. destruct (Nat.ltb_spec i k); [exact G|lia].
  Qed.

  Lemma rsum_bigsum l : (forall q, In q (map snd l) -> q <> 0) ->
    rsum l = fold_right Rplus 0%R (map (fun p => (IZR (fst p) / IZR (snd p))%R) l).
  Proof. clear. intros _. induction l as [|p l IH]; simpl; [reflexivity|]. rewrite IH. reflexivity. Qed.

  Lemma rsum_recM : rsum (combine ys Q) = (IZR recM / IZR (prodZ Q))%R.
  Proof.
    assert (G : forall l l' (F : nat -> Z) n, length l = n -> length l' = n ->
      (forall i, (i < n)%nat -> nth i l' 0 <> 0 /\ nth i l' 0 * F i = prodZ Q) ->
      rsum (combine l l') = (IZR (bigsum n (fun i => (nth i l 0 * F i)%Z)) / IZR (prodZ Q))%R).
    { assert (P0 := Q_pos). assert (PR : IZR (prodZ Q) <> 0%R) by (apply IZR_neq; lia).
      induction l as [|y l IH]; intros l' F n El El' HF.
      - simpl in El. subst n. simpl. unfold Rdiv. rewrite Rmult_0_l. reflexivity.
      - destruct l' as [|q l']; [simpl in *; subst; discriminate|].
        destruct n as [|n]; [discriminate|]. cbn [length] in El, El'. injection El as El. injection El' as El'.
        rewrite bigsum_S_l. cbn [combine rsum fst snd nth].
        rewrite (IH l' (fun i => F (S i)) n El El').
        2:{ intros i Hi. apply (HF (S i)). lia. }
        destruct (HF O ltac:(lia)) as [Hq HE]. cbn [nth] in Hq, HE.
        assert (QR : IZR q <> 0%R) by (apply IZR_neq; exact Hq).
        rewrite plus_IZR, mult_IZR. rewrite <- HE, mult_IZR in PR |- *.
        assert (FR : IZR (F 0%nat) <> 0%R).
        { intros E0. rewrite E0, Rmult_0_r in PR. apply PR. reflexivity. }
        field. split; assumption. }
    apply G.
    - apply ys_len.
    - apply len_Q.
    - intros i Hi. destruct (ms_i i Hi) as (_ & H5 & _). split; [lia|].
      apply qstar_prod. rewrite len_Q. exact Hi.
  Qed.

  (** The correction index. *)
  Lemma rc_v : (k <= 32)%nat ->
    0 <= snd rc <= Z.of_nat k /\
    - prodZ Q < 2 ^ 42 * (recM - snd rc * prodZ Q) /\ 2 ^ 42 * (recM - snd rc * prodZ Q - prodZ Q) < prodZ Q.
  Proof.
    intros Hk.
    assert (L : length (combine ys Q) = k) by (rewrite combine_length, ys_len, len_Q; lia).
    rewrite <- L. unfold rc, reconstructRNS. cbn [snd].
    change (fold_left _ _ _) with (fsum (combine ys Q) (f64_of_Z 0)).
    apply rsum_common.
    - apply Q_pos.
    - apply rsum_recM.
    - intros y q Hin. apply (In_nth _ _ (0, 0)) in Hin. destruct Hin as (i & Hi & E).
      rewrite L in Hi. rewrite combine_nth in E by (rewrite ys_len, len_Q; reflexivity).
      injection E as E1 E2. subst y q. split; [apply ys_spec; exact Hi|].
      destruct (ms_i i Hi) as (_ & _ & HW & _). change W with (2 * 2 ^ 63) in HW. lia.
    - rewrite L. exact Hk.
  Qed.

  (** *** multSum *)
  Lemma acc_spec l : forall rlo rhi s,
    (forall y c, In (y, c) l -> 0 <= y < W /\ 0 <= c < W) ->
    0 <= rlo < W -> 0 <= rhi < W -> s = rlo + W * rhi ->
    s + fold_right Z.add 0 (map (fun p => fst p * snd p) l) < W * W ->
    let '(lo, hi) := fold_left (fun acc yc =>
        let '(rlo, rhi) := acc in
        let mhi := mul_hi (fst yc) (snd yc) in
        let mlo := mul_lo (fst yc) (snd yc) in
        (add_lo rlo mlo, wadd rhi (wadd mhi (add_carry rlo mlo)))) l (rlo, rhi) in
    0 <= lo < W /\ 0 <= hi < W /\ lo + W * hi = s + fold_right Z.add 0 (map (fun p => fst p * snd p) l).
  Proof.
    clear. induction l as [|[y c] l IH]; intros rlo rhi s Hl Hlo Hhi Es Hs.
    - cbn [fold_left map fold_right] in *. lia.
    - cbn [fold_left map fold_right fst snd] in *.
      destruct (Hl y c (or_introl eq_refl)) as [Hy Hc].
      set (mhi := mul_hi y c). set (mlo := mul_lo y c).
      assert (Em : y * c = mhi * W + mlo) by apply mul_hi_lo.
      assert (Rlo : 0 <= mlo < W) by apply w64_range.
      assert (Pos : 0 <= fold_right Z.add 0 (map (fun p => fst p * snd p) l)).
      { clear -Hl. induction l as [|[a b] l IH]; [cbn; lia|]. cbn [map fold_right fst snd].
        destruct (Hl a b (or_intror (or_introl eq_refl))).
        assert (0 <= fold_right Z.add 0 (map (fun p => fst p * snd p) l)).
        { apply IH. intros u v [H'|H']; apply Hl; [left|right; right]; assumption. }
        nia. }
      assert (Hh0 : 0 <= mhi) by (apply Z.div_pos; [nia|reflexivity]).
      assert (Ea : rlo + mlo = add_carry rlo mlo * W + add_lo rlo mlo).
      { unfold add_carry, add_lo, w64. rewrite Z.mul_comm. apply Z.div_mod. discriminate. }
      assert (Ral : 0 <= add_lo rlo mlo < W) by apply w64_range.
      assert (Rc : 0 <= add_carry rlo mlo) by (apply Z.div_pos; [lia|reflexivity]).
      set (F := fold_right Z.add 0 (map (fun p => fst p * snd p) l)) in *.
      set (a := add_lo rlo mlo) in *. set (cy := add_carry rlo mlo) in *.
      assert (Hsum : rhi + mhi + cy < W).
      { assert (W * (rhi + mhi + cy) < W * W) by (clear IH; nia). nia. }
      assert (E1 : wadd rhi (wadd mhi cy) = rhi + mhi + cy).
      { unfold wadd at 2. rewrite w64_small by lia. unfold wadd. rewrite w64_small; lia. }
      rewrite E1. specialize (IH a (rhi + mhi + cy) (s + y * c)).
      destruct (fold_left _ l (a, rhi + mhi + cy)) as [lo hi].
      replace (s + (y * c + F)) with (s + y * c + F) in * by ring.
      apply IH.
      + intros u v H. apply Hl. right. exact H.
      + exact Ral.
      + lia.
      + rewrite Em, Es. lia.
      + exact Hs.
  Qed.

  Lemma dot_bigsum l l' n : length l = n -> length l' = n ->
    fold_right Z.add 0 (map (fun p => fst p * snd p) (combine l l')) = bigsum n (fun i => nth i l 0 * nth i l' 0).
  Proof.
    clear. revert l l'. induction n as [|n IH]; intros l l' E E'; destruct l, l'; try discriminate; [reflexivity|].
    rewrite bigsum_S_l. cbn [combine map fold_right fst snd nth]. rewrite IH; [reflexivity| |]; cbn in *; lia.
  Qed.

  Variables (j : nat) (p qInv t : Z).
  Hypothesis (Hj : (j < length P)%nat) (Ep : nth j P 0 = p) (Ei : qInv = MRedParams p).
  Hypothesis (Hpo : Z.odd p = true) (Hp2 : 2 <= p).
  Hypothesis (Ht0 : 0 <= t) (Hsum : bigsum k (fun i => nth i Q 0) <= t * W) (HtW : (t + 2) * p <= W).

  Lemma cs_spec i : (i < k)%nat ->
    0 <= nth i (nth j (qoverqimodp params) []) 0 < p /\ eqm p (nth i (nth j (qoverqimodp params) []) 0) (qstar i Q * W).
  Proof.
    clear Hsum. intros Hi. unfold params, basisextenderparameters. cbn [qoverqimodp].
    set (f := fun pj => _).
    rewrite (nth_map_any f P j [] 0 Hj), Ep. unfold f. rewrite len_Q. clear f.
    set (f := fun i => _).
    rewrite nth_map_seq by exact Hi. unfold f. clear f. cbn [Nat.add].
    assert (HpW : 2 * p <= W) by nia.
    destruct (prod_except_spec Q p Q_words Hpo Hp2 HpW i 1 ltac:(lia)) as [R E].
    rewrite MForm_correct by lia. split; [apply Z.mod_pos_bound; lia|].
    rewrite eqm_mod, E. apply eqm_eq. ring.
  Qed.
  Lemma cs_len : length (nth j (qoverqimodp params) []) = k.
  Proof.
    clear -Hj. unfold params, basisextenderparameters. cbn [qoverqimodp].
    set (f := fun pj => _). rewrite (nth_map_any f P j [] 0 Hj). unfold f. rewrite map_length, seq_length. apply len_Q.
  Qed.

  Lemma bigsum_le_ n F G : (forall i, (i < n)%nat -> F i <= G i) -> bigsum n F <= bigsum n G.
  Proof.
    clear. induction n as [|n IH]; intros H; cbn [bigsum]; [lia|].
    assert (bigsum n F <= bigsum n G) by (apply IH; intros; apply H; lia). specialize (H n ltac:(lia)). lia.
  Qed.

  Lemma multSum_spec : (k <= 32)%nat ->
    let res := multSum rc p qInv (nth j (vtimesqmodp params) []) (nth j (qoverqimodp params) []) in
    0 < res < (t + 2) * p /\ eqm p res (recM - snd rc * prodZ Q).
  Proof.
    intros Hk. destruct (rc_v Hk) as (Rv & _ & _).
    unfold multSum. fold ys. set (cs := nth j (qoverqimodp params) []).
    assert (Lc : length cs = k) by apply cs_len.
    set (D := bigsum k (fun i => nth i ys 0 * nth i cs 0)).
    assert (HD0 : 0 <= D).
    { transitivity (bigsum k (fun _ => 0)); [rewrite bigsum_0; lia|]. apply bigsum_le_. intros i Hi.
      destruct (ys_spec i Hi) as [Hy _]. destruct (cs_spec i Hi) as [Hc _]. fold cs in Hc.
      apply Z.mul_nonneg_nonneg; lia. }
    assert (Hp0 : 0 < p) by lia.
    assert (HD : D <= t * W * p).
    { transitivity (bigsum k (fun i => nth i Q 0) * p); [|nia].
      unfold D. rewrite <- bigsum_scale_r. apply bigsum_le_. intros i Hi.
      destruct (ys_spec i Hi) as [Hy _]. destruct (cs_spec i Hi) as [Hc _]. fold cs in Hc.
      apply Z.mul_le_mono_nonneg; lia. }
    assert (HtpW : t * p + 2 * p <= W) by lia.
    assert (HDW : D < W * W) by (assert (0 < W) by reflexivity; nia).
    assert (A := acc_spec (combine ys cs) 0 0 0).
    destruct (fold_left _ (combine ys cs) (0, 0)) as [rlo rhi].
    rewrite (dot_bigsum ys cs k ys_len Lc) in A. fold D in A.
    destruct A as (Rlo & Rhi & Eacc).
    { intros y c Hin. apply (In_nth _ _ (0, 0)) in Hin. destruct Hin as (i & Hi & E).
      rewrite combine_length, ys_len, Lc in Hi. rewrite combine_nth in E by (rewrite ys_len, Lc; reflexivity).
      injection E as E1 E2. subst y c. assert (Hi' : (i < k)%nat) by lia.
      destruct (ys_spec i Hi') as [Hy _]. destruct (cs_spec i Hi') as [Hc _]. fold cs in Hc.
      destruct (ms_i i Hi') as (_ & _ & HW' & _). nia. }
    { split; [lia|reflexivity]. } { split; [lia|reflexivity]. } { reflexivity. } { lia. }
    rewrite Z.add_0_l in Eacc.
    (* the Montgomery step *)
    assert (Hin : eqm W (p * qInv) 1) by (rewrite Ei; apply MRedParams_inv; exact Hpo).
    assert (Core := mont_core rlo p qInv Rlo Hin).
    set (u := wmul rlo qInv) in *. assert (Ru : 0 <= u < W) by apply w64_range.
    set (hhi := mul_hi u p) in *.
    assert (Rh : 0 <= hhi < p).
    { unfold hhi, mul_hi. split; [apply Z.div_pos; [nia|reflexivity]|]. apply Z.div_lt_upper_bound; [reflexivity|]. nia. }
    (* the correction *)
    assert (Ev : Z.of_nat (Z.to_nat (snd rc)) = snd rc) by lia.
    assert (HpW : 2 * p <= W) by nia.
    destruct (vtable_spec Q p Q_words Hpo Hp2 HpW (Z.to_nat (snd rc)) ltac:(rewrite len_Q; lia)) as [Rt Et].
    assert (Evt : nth j (vtimesqmodp params) [] = 0 :: vtimes (length Q) 0 (wsub p (prod_mod Q p)) p).
    { unfold params, basisextenderparameters. cbn [vtimesqmodp].
      set (f := fun pj => _). rewrite (nth_map_any f P j [] 0 Hj), Ep. reflexivity. }
    rewrite Evt. set (tv := nth (Z.to_nat (snd rc)) _ 0) in *. rewrite Ev in Et.
    assert (Hrhi : rhi <= t * p) by (assert (0 < W) by reflexivity; nia).
    assert (Eres : wadd (wadd (wsub rhi hhi) p) tv = rhi - hhi + p + tv).
    { unfold wadd at 1. apply eqm_w64_eq; [lia|]. unfold wadd, wsub. rewrite !w64_eqm. reflexivity. }
    rewrite Eres. split; [lia|].
    rewrite Et. apply eqm_add; [|apply eqm_eq; ring].
    apply odd_cancel_W; [lia|exact Hpo|].
    assert (E1 : (rhi - hhi + p) * W = D + (W - u) * p) by lia.
    transitivity D; [apply (eqm_intro _ _ _ (W - u)); lia|].
    unfold D, recM. rewrite <- bigsum_scale_r. apply bigsum_eqm. intros i Hi.
    transitivity (nth i ys 0 * (qstar i Q * W)); [|apply eqm_eq; ring].
    apply eqm_mul; [reflexivity|]. exact (proj2 (cs_spec i Hi)).
  Qed.
End Coefficient.
