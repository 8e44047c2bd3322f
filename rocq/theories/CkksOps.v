(** Constants, additions and products of ckks ciphertexts. *)
From Verif Require Import Word ModRed Arith Fermat ModRedProofs PolySpec PolyProofs Ring RingProofs NTT NTTProofs RingOps RNSSpec RowProofs OpsProofs OpsProps NTTProps Repr BasisExt CRT BasisProofs BasisProps Automorphism AutoProps Scaling Gadget GadgetSpec GadgetProofs Frlwe FrlweSetup FrlweProps FrlweSwitch RlweSpec Rlwe RlweBase RlweKeys RlweSwitch RlweEnc RlweTop Float64 Ckks CkksSpec CkksBase CkksConst.

(** ** The decrypted polynomial *)
Section Val.
  Variables (r : Ring) (q : Z).
  Let n := rN r.
  Add Ring polyring : (poly_ring n q) (setoid (peq_equiv n q) (poly_ring_ext n q)).

  Lemma dval_S s C m : peq n q (dval r s C (S m)) (padd (dval r s C m) (pmul n (C m) (ppow n s m))).
  Proof. intros k Hk. unfold dval, psum. cbn [bigsum]. reflexivity. Qed.
  Lemma dval_peq s C C' m : (forall j, (j < m)%nat -> peq n q (C j) (C' j)) -> peq n q (dval r s C m) (dval r s C' m).
  Proof.
    induction m as [|m IH]; intros H; [reflexivity|]. rewrite !dval_S. apply padd_peq; [apply IH; intros j Hj; apply H; lia|].
    apply pmul_peq; [apply H; lia|reflexivity].
  Qed.
  Lemma dval_0 s C : peq n q (dval r s C 0) pzero.
  Proof. intros k Hk. reflexivity. Qed.
  Lemma dval_mul s C g m : peq n q (dval r s (fun j => pmul n g (C j)) m) (pmul n g (dval r s C m)).
  Proof.
    induction m as [|m IH]; [rewrite !dval_0; ring|]. rewrite !dval_S, IH. ring.
  Qed.
  Lemma dval_add s C D m : peq n q (dval r s (fun j => padd (C j) (D j)) m) (padd (dval r s C m) (dval r s D m)).
  Proof. induction m as [|m IH]; [rewrite !dval_0; ring|]. rewrite !dval_S, IH. ring. Qed.
  Lemma dval_opp s C m : peq n q (dval r s (fun j => popp (C j)) m) (popp (dval r s C m)).
  Proof. induction m as [|m IH]; [rewrite !dval_0; ring|]. rewrite !dval_S, IH. ring. Qed.
  Lemma dval_extend s C m m' : (m <= m')%nat -> peq n q (dval r s (fun j => if Nat.ltb j m then C j else pzero) m') (dval r s C m).
  Proof.
    intros Hm. induction m' as [|m' IH].
    - replace m with 0%nat by lia. rewrite !dval_0. reflexivity.
    - destruct (Nat.eq_dec m (S m')) as [-> | Hn].
      + apply dval_peq. intros j Hj. apply Nat.ltb_lt in Hj. rewrite Hj. reflexivity.
      + rewrite dval_S, IH by lia. assert (H : Nat.ltb m' m = false) by (apply Nat.ltb_ge; lia). rewrite H. ring.
  Qed.
  Lemma dval_1 s C : peq n q (dval r s C 1) (C 0%nat).
  Proof. rewrite dval_S, dval_0. cbn [ppow]. rewrite pmul_1_r. ring. Qed.
  Lemma dval_2 s C : peq n q (dval r s C 2) (padd (C 0%nat) (pmul n (C 1%nat) s)).
  Proof. rewrite dval_S, dval_1. cbn [ppow]. rewrite pmul_1_r || idtac. ring. Qed.
  Lemma dval_3 s C : peq n q (dval r s C 3) (padd (padd (C 0%nat) (pmul n (C 1%nat) s)) (pmul n (C 2%nat) (pmul n s s))).
  Proof. rewrite dval_S, dval_2. cbn [ppow]. ring. Qed.
  Lemma dval_tensor s C D :
    peq n q (dval r s (fun j => nth j [pmul n (C 0%nat) (D 0%nat); padd (pmul n (C 0%nat) (D 1%nat)) (pmul n (C 1%nat) (D 0%nat)); pmul n (C 1%nat) (D 1%nat)] pzero) 3)
            (pmul n (dval r s C 2) (dval r s D 2)).
  Proof. rewrite dval_3, !dval_2. cbn [nth]. ring. Qed.
End Val.

Lemma ctDegree_S c : (0 < length (ctV c))%nat -> S (ctDegree c) = length (ctV c).
Proof. unfold ctDegree. lia. Qed.

Lemma shaped_level d level c : shaped d level c -> ctLevel c = level.
Proof. intros (_ & _ & H). unfold ctLevel. rewrite H by lia. lia. Qed.

Section Ops.
  Variables (rQ : Ring).
  Hypothesis (BQ : built_ring 9 rQ).
  Variables (L : nat).
  Hypothesis (EL : rN rQ = (2 ^ L)%nat).
  Let n := rN rQ.
  Let B2 : built_ring 2 rQ := one_2 rQ BQ.
  Let q i := mq (rmod rQ i).

  Lemma fits_canon : fits rQ canon.
  Proof. intros i Hi. destruct (one_mod rQ BQ i Hi). unfold canon. lia. Qed.
  Lemma fits_closed : fits rQ closed.
  Proof. intros i Hi. destruct (one_mod rQ BQ i Hi). unfold closed. lia. Qed.
  Lemma fits_lazy : fits rQ lazy.
  Proof. intros i Hi. destruct (one_mod rQ BQ i Hi). unfold lazy. lia. Qed.

  Lemma ntt_level level level' B p X : (level' <= level)%nat -> rns_ntt rQ L level B p X -> rns_ntt rQ L level' B p X.
  Proof. intros Hl (A1 & A2 & A3). split; [lia|]. split; [lia|]. intros i Hi. apply A3. lia. Qed.
  Lemma ntt_sub level B p1 p2 out X Y : fits rQ B -> rns_ntt rQ L level B p1 X -> rns_ntt rQ L level closed p2 Y ->
    rns_ntt rQ L level B (SubLvl rQ level p1 p2 out) (psub X Y).
  Proof.
    intros HB H1 H2. assert (Hl := proj1 H1). apply (ntt_g _ _ _ _ _ _ EL). apply (ntt_g _ _ _ _ _ _ EL) in H1, H2.
    apply (g_peq _ _ _ _ (fun m k => nttD L X m k - nttD L Y m k)); [intros i k Hi Hk; unfold nttD; rewrite values_sub; reflexivity|].
    revert H1 H2. apply g_op2. intros i k x y Hi Hk m Hx Hy E1 E2. unfold closed in Hy.
    destruct (HB i ltac:(lia)) as [F1 F2]. fold m in F1, F2. destruct (one_mod rQ BQ i ltac:(lia)) as [Q5 Q9]. fold m in Q5, Q9.
    unfold wadd, wsub. rewrite (w64_small (x + mq m)) by lia. rewrite w64_small by lia.
    destruct (cred_word (x + mq m - y) (mq m) (B (mq m))) as [R1 R2]; try lia. split; [exact R1|].
    rewrite R2. transitivity (x - y); [apply (eqm_intro _ _ _ 1); ring|]. apply eqm_sub; assumption.
  Qed.
  Lemma ntt_neg level p out X : rns_ntt rQ L level closed p X -> rns_ntt rQ L level closed (NegLvl rQ level p out) (popp X).
  Proof.
    intros H1. assert (Hl := proj1 H1). apply (ntt_g _ _ _ _ _ _ EL). apply (ntt_g _ _ _ _ _ _ EL) in H1.
    apply (g_peq _ _ _ _ (fun m k => - nttD L X m k)); [intros i k Hi Hk; unfold nttD; rewrite values_opp; reflexivity|].
    revert H1. apply g_op1. intros i k x Hi Hk m Hx E1. unfold closed in *. destruct (one_mod rQ BQ i ltac:(lia)) as [Q5 Q9]. fold m in Q5, Q9.
    unfold wsub. rewrite w64_small by lia. split; [lia|].
    transitivity (- x); [apply (eqm_intro _ _ _ 1); ring|]. apply eqm_opp; assumption.
  Qed.
  Lemma ntt_copy level B p out X : rns_ntt rQ L level B p X -> rns_ntt rQ L level B (CopyValuesLvl level p out) X.
  Proof.
    intros (A1 & A2 & A3). split; [exact A1|]. split; [unfold CopyValuesLvl; rewrite lvl_length; lia|].
    intros i Hi. unfold CopyValuesLvl. rewrite lvl_nth_lt by lia. apply A3. exact Hi.
  Qed.

  (** ** Multiplication by a constant *)

  Lemma scale_word x scale i : (i < length (rmods rQ))%nat ->
    match (if f64_eq x f64_zero then None else Some (scaleUpExact x scale (q i))) with
    | Some y => 0 <= y <= q i /\ eqm (q i) y (scaled x scale)
    | None => scaled x scale = 0 end.
  Proof.
    intros Hi. destruct (one_mod rQ BQ i Hi) as [Q5 Q9]. fold (q i) in Q5, Q9. unfold scaled. destruct (f64_eq x f64_zero); [reflexivity|].
    unfold scaleUpExact. set (a := scaled_abs x scale).
    assert (R : 0 <= a mod q i < q i) by (apply Z.mod_pos_bound; lia).
    assert (E : eqm (q i) (a mod q i) a) by (apply eqm_mod).
    generalize dependent (a mod q i). intros t R E.
    destruct (f64_lt x f64_zero); [|split; [lia|exact E]].
    unfold wsub. rewrite w64_small by lia. split; [lia|]. transitivity (- t); [apply (eqm_intro _ _ _ 1); ring|]. apply eqm_opp. exact E.
  Qed.

  Lemma big_L : (2 <= L)%nat.
  Proof. pose proof (proj2 (built_L rQ L B2 EL)). lia. Qed.

  Lemma const_poly level words p out a b B X : (forall i, (i <= level)%nat -> B (q i) <= W) ->
    (forall i, (i <= level)%nat -> let w := words (rmod rQ i) in
       (match fst w with Some x => 0 <= x <= q i /\ eqm (q i) x a | None => a = 0 end) /\
       (match snd w with Some y => 0 <= y <= q i /\ eqm (q i) y b | None => b = 0 end)) ->
    rns_ntt rQ L level B p X -> rns_ntt rQ L level canon (mul_const_poly rQ level words p out) (pmul n (pgauss n a b) X).
  Proof.
    intros HB Hw (A1 & A2 & A3). split; [exact A1|]. split; [unfold mul_const_poly; rewrite lvl_length; lia|].
    intros i Hi. unfold mul_const_poly. rewrite lvl_nth_lt by lia. destruct (Hw i Hi) as [W1 W2]. destruct (words (rmod rQ i)) as [re im]. cbn [fst snd] in W1, W2.
    pose proof (built_wf rQ L B2 EL i ltac:(lia)) as Hwf. destruct (one_mod rQ BQ i ltac:(lia)) as [Q5 Q9].
    destruct (const_words_ok L (rmod rQ i) big_L Hwf re im a b ltac:(lia) W1 W2) as (C1 & C2 & C3 & C4).
    unfold n. rewrite EL. unfold canon. apply (halves_repr L (rmod rQ i) big_L Hwf _ a b (B (q i))); try assumption; try lia; [apply HB; exact Hi|apply A3; exact Hi].
  Qed.

  Lemma const_poly_length level words p out : length (mul_const_poly rQ level words p out) = Nat.max (S level) (length out).
  Proof. apply lvl_length. Qed.

  Lemma comp_rewrite f vs out sc t j : (j < length vs)%nat -> comp (mkCt (rewrite_comps f vs out) sc t) j = f (nth j vs []) (nth j out []).
  Proof.
    intros Hj. unfold comp, rewrite_comps. cbn [ctV]. rewrite app_nth1 by (rewrite map_length, seq_length; exact Hj).
    apply (nth_map_seq (fun i => f (nth i vs []) (nth i out [])) (length vs) j []). exact Hj.
  Qed.
  Lemma comp_rewrite' f vs out j : (j < length vs)%nat -> nth j (rewrite_comps f vs out) [] = f (nth j vs []) (nth j out []).
  Proof. intros Hj. exact (comp_rewrite f vs out f64_zero true j Hj). Qed.
  Lemma rewrite_length f vs out : length (rewrite_comps f vs out) = Nat.max (length vs) (length out).
  Proof. unfold rewrite_comps. rewrite app_length, map_length, seq_length, skipn_length. lia. Qed.

  (** One component after the other. *)
  Lemma rewrite_repr f F level level' B B' c C out sc t : t = true ->
    ct_repr rQ L level B c C -> (level' <= level)%nat -> shaped (ctDegree c) level' out ->
    (forall p X o, rns_ntt rQ L level' B p X -> rns_ntt rQ L level' B' (f p o) (F X) /\ length (f p o) = Nat.max (S level') (length o)) ->
    ct_repr rQ L level' B' (mkCt (rewrite_comps f (ctV c) (ctV out)) sc t) (fun j => F (C j)).
  Proof.
    intros -> (H1 & H2 & H3 & H4) Hl (S1 & S2 & S3) Hf. pose proof (ctDegree_S c (proj1 H2)) as ED.
    assert (EL' : length (rewrite_comps f (ctV c) (ctV out)) = length (ctV c)) by (rewrite rewrite_length; lia).
    split; [lia|]. cbn [ctV ctNTT]. rewrite EL'. split; [exact H2|]. split; [reflexivity|].
    intros j Hj. rewrite comp_rewrite by exact Hj. destruct (H4 j Hj) as [L1 R1].
    destruct (Hf (nth j (ctV c) []) (C j) (nth j (ctV out) [])) as [F1 F2]; [apply (ntt_level level); assumption|].
    split; [|exact F1]. rewrite F2. change (nth j (ctV out) []) with (comp out j). rewrite S3 by lia. lia.
  Qed.


  Lemma float_word level re im scale : (level < length (rmods rQ))%nat -> forall i, (i <= level)%nat -> let w := float_words re im scale (rmod rQ i) in
       (match fst w with Some x => 0 <= x <= q i /\ eqm (q i) x (scaled re scale) | None => scaled re scale = 0 end) /\
       (match snd w with Some y => 0 <= y <= q i /\ eqm (q i) y (scaled im scale) | None => scaled im scale = 0 end).
  Proof. intros Hl i Hi. unfold float_words. cbn [fst snd]. split; apply scale_word; lia. Qed.

  Lemma fits_W B : fits rQ B -> forall i, (i < length (rmods rQ))%nat -> B (q i) <= W.
  Proof. intros H i Hi. destruct (H i Hi). destruct (one_mod rQ BQ i Hi). unfold q. lia. Qed.

  Lemma mult_const level level' B c C k out : ct_repr rQ L level B c C -> fits rQ B -> (level' <= level)%nat -> shaped (ctDegree c) level' out ->
    let '(re, im, scale) := getConstAndScale rQ level' k in
    ct_repr rQ L level' canon (MultByConst rQ c k out) (fun j => pmul n (pgauss n (scaled re scale) (scaled im scale)) (C j)).
  Proof.
    intros HC HB Hl HS. pose proof (ct_repr_level rQ L EL _ _ _ _ HC) as E1. pose proof (shaped_level _ _ _ HS) as E2.
    assert (H1 := proj1 HC). unfold MultByConst. rewrite E1, E2, Nat.min_r by lia.
    destruct (getConstAndScale rQ level' k) as [[re im] scale].
    apply (rewrite_repr _ (fun X => pmul n (pgauss n (scaled re scale) (scaled im scale)) X) level level' B); try assumption; [apply HS|].
    intros p X o Hp. split; [|apply const_poly_length]. apply (const_poly level' _ _ _ _ _ B); [|apply float_word; lia|exact Hp].
    intros i Hi. apply fits_W; [exact HB|lia].
  Qed.

  (** Decryption of images. *)
  Lemma image_decrypts level level' B B' c C c' C' sk s M M' : secret rQ L sk s ->
    ct_repr rQ L level B c C -> fits rQ B -> ct_repr rQ L level' B' c' C' -> fits rQ B' -> (level' <= level)%nat ->
    (forall i, (i <= level')%nat -> peq n (q i) (dval rQ s C (length (ctV c))) M -> peq n (q i) (dval rQ s C' (length (ctV c'))) M') ->
    decrypts rQ L sk c M -> decrypts rQ L sk c' M'.
  Proof.
    intros Hs HC HB HC' HB' Hl H HD. apply (decrypts_iff rQ BQ L EL level' B' c' C' sk s M' HC' HB' Hs).
    intros i Hi. apply H; [exact Hi|]. apply (proj1 (decrypts_iff rQ BQ L EL level B c C sk s M HC HB Hs) HD). lia.
  Qed.
  Lemma image2_decrypts level0 level1 level' B0 B1 B' c0 C0 c1 C1 c' C' sk s M0 M1 M' : secret rQ L sk s ->
    ct_repr rQ L level0 B0 c0 C0 -> fits rQ B0 -> ct_repr rQ L level1 B1 c1 C1 -> fits rQ B1 ->
    ct_repr rQ L level' B' c' C' -> fits rQ B' -> (level' <= level0)%nat -> (level' <= level1)%nat ->
    (forall i, (i <= level')%nat -> peq n (q i) (dval rQ s C0 (length (ctV c0))) M0 -> peq n (q i) (dval rQ s C1 (length (ctV c1))) M1 ->
       peq n (q i) (dval rQ s C' (length (ctV c'))) M') ->
    decrypts rQ L sk c0 M0 -> decrypts rQ L sk c1 M1 -> decrypts rQ L sk c' M'.
  Proof.
    intros Hs HC HB HC1 HB1 HC' HB' Hl Hl1 H HD HD1. apply (decrypts_iff rQ BQ L EL level' B' c' C' sk s M' HC' HB' Hs).
    intros i Hi. apply H; [exact Hi| |].
    - apply (proj1 (decrypts_iff rQ BQ L EL level0 B0 c0 C0 sk s M0 HC HB Hs) HD). lia.
    - apply (proj1 (decrypts_iff rQ BQ L EL level1 B1 c1 C1 sk s M1 HC1 HB1 Hs) HD1). lia.
  Qed.

  Lemma mult_const_length level B c C k out : ct_repr rQ L level B c C -> length (ctV out) = S (ctDegree c) -> length (ctV (MultByConst rQ c k out)) = length (ctV c).
  Proof.
    intros HC HS. unfold MultByConst. destruct (getConstAndScale _ _ _) as [[re im] scale]. cbn [ctV]. rewrite rewrite_length. destruct HC as (_ & H2 & _).
    rewrite HS. unfold ctDegree. lia.
  Qed.

  Lemma mult_by_const level level' B c k out sk s M : secret rQ L sk s -> ct_ok rQ level B c -> fits rQ B -> decrypts rQ L sk c M ->
    shaped (ctDegree c) level' out -> (level' <= level)%nat ->
    let '(re, im, scale) := getConstAndScale rQ level' k in
    ct_ok rQ level' canon (MultByConst rQ c k out) /\
    decrypts rQ L sk (MultByConst rQ c k out) (pmul n (pgauss n (scaled re scale) (scaled im scale)) M).
  Proof.
    intros Hs Hc HB HD HS Hl. destruct (ct_ok_repr rQ BQ L EL level B c Hc) as [C HC].
    pose proof (mult_const level level' B c C k out HC HB Hl HS) as HM.
    pose proof (mult_const_length level B c C k out HC (proj1 HS)) as ELn.
    destruct (getConstAndScale rQ level' k) as [[re im] scale]. split; [apply (ct_repr_ok rQ L EL) in HM; exact HM|].
    apply (image_decrypts level level' B canon c C _ _ sk s M _ Hs HC HB HM fits_canon Hl); [|exact HD].
    intros i Hi E. rewrite ELn. unfold n. rewrite dval_mul. apply pmul_peq; [reflexivity|exact E].
  Qed.

  (** ** Multiplication by the imaginary unit *)
  Lemma mul_i_repr level inverse p out B X : (forall i, (i <= level)%nat -> B (q i) <= W) ->
    rns_ntt rQ L level B p X -> rns_ntt rQ L level canon (mul_i_poly rQ level inverse p out) (pmul n (pgauss n 0 (if inverse then -1 else 1)) X).
  Proof.
    intros HB (A1 & A2 & A3). split; [exact A1|]. split; [unfold mul_i_poly; rewrite lvl_length; lia|].
    intros i Hi. unfold mul_i_poly. rewrite lvl_nth_lt by lia.
    pose proof (built_wf rQ L B2 EL i ltac:(lia)) as Hwf. destruct (one_mod rQ BQ i ltac:(lia)) as [Q5 Q9].
    pose proof (psi1_pos L (rmod rQ i) big_L Hwf) as P1. destruct (psi1 L (rmod rQ i) big_L Hwf) as [_ P2].
    set (psi := nth 1 (mpsi (rmod rQ i)) 0) in *. clearbody psi.
    assert (E : wsub (mq (rmod rQ i)) psi = mq (rmod rQ i) - psi) by (unfold wsub; apply w64_small; lia). rewrite E.
    assert (E2 : eqm (mq (rmod rQ i)) (mq (rmod rQ i) - psi) (W * - root4 L (rmod rQ i))).
    { transitivity (- psi); [apply (eqm_intro _ _ _ 1); ring|]. transitivity (- (W * root4 L (rmod rQ i))); [apply eqm_opp; exact P2|apply eqm_eq; ring]. }
    unfold n. rewrite EL. unfold canon.
    destruct inverse; (eapply (halves_repr L (rmod rQ i) big_L Hwf _ 0 _ (B (q i))); [apply HB; exact Hi|cbn [fst snd]; lia|cbn [fst snd]; lia| | |apply A3; exact Hi]); cbn [fst snd].
    - rewrite E2. apply eqm_eq. ring.
    - rewrite P2. apply eqm_eq. ring.
    - rewrite P2. apply eqm_eq. ring.
    - rewrite E2. apply eqm_eq. ring.
  Qed.

  Lemma map_is_rewrite (f : rows -> rows -> rows) (vs out : list rows) : length out = length vs ->
    map (fun i => f (nth i vs []) (nth i out [])) (seq 0 (length out)) = rewrite_comps f vs out.
  Proof. intros E. unfold rewrite_comps. rewrite <- E. rewrite skipn_all, app_nil_r. reflexivity. Qed.

  Lemma mult_by_i level level' B inverse c out sk s M : secret rQ L sk s -> ct_ok rQ level B c -> fits rQ B -> decrypts rQ L sk c M ->
    shaped (ctDegree c) level' out -> (level' <= level)%nat ->
    ct_ok rQ level' canon (MultByi rQ inverse c out) /\
    decrypts rQ L sk (MultByi rQ inverse c out) (pmul n (pgauss n 0 (if inverse then -1 else 1)) M).
  Proof.
    intros Hs Hc HB HD HS Hl. destruct (ct_ok_repr rQ BQ L EL level B c Hc) as [C HC].
    pose proof (ct_repr_level rQ L EL _ _ _ _ HC) as E1. pose proof (shaped_level _ _ _ HS) as E2.
    assert (H1 := proj1 HC). assert (H2 := proj1 (proj2 HC)).
    assert (E3 : length (ctV out) = length (ctV c)) by (rewrite (proj1 HS); apply ctDegree_S; apply H2).
    assert (EQ : MultByi rQ inverse c out = mkCt (rewrite_comps (mul_i_poly rQ level' inverse) (ctV c) (ctV out)) (ctScale c) (ctNTT out)).
    { unfold MultByi. rewrite E1, E2, Nat.min_r by lia. f_equal. apply map_is_rewrite. exact E3. }
    rewrite EQ.
    assert (HM : ct_repr rQ L level' canon (mkCt (rewrite_comps (mul_i_poly rQ level' inverse) (ctV c) (ctV out)) (ctScale c) (ctNTT out)) (fun j => pmul n (pgauss n 0 (if inverse then -1 else 1)) (C j))).
    { apply (rewrite_repr _ (fun X => pmul n (pgauss n 0 (if inverse then -1 else 1)) X) level level' B); try assumption; [apply HS|].
      intros p X o Hp. split; [|apply lvl_length]. apply (mul_i_repr level' _ _ _ B); [|exact Hp]. intros i Hi. apply fits_W; [exact HB|lia]. }
    split; [apply (ct_repr_ok rQ L EL) in HM; exact HM|].
    apply (image_decrypts level level' B canon c C _ _ sk s M _ Hs HC HB HM fits_canon Hl); [|exact HD].
    intros i Hi E. cbn [ctV]. rewrite rewrite_length, E3, Nat.max_id. unfold n. rewrite dval_mul. apply pmul_peq; [reflexivity|exact E].
  Qed.

  (** ** Negation *)
  Lemma neg_correct level level' c out sk s M : secret rQ L sk s -> ct_ok rQ level closed c -> decrypts rQ L sk c M ->
    shaped (ctDegree c) level' out -> (level' <= level)%nat ->
    exists c', Neg rQ c out = Some c' /\ ct_ok rQ level' closed c' /\ ctScale c' = ctScale c /\ decrypts rQ L sk c' (popp M).
  Proof.
    intros Hs Hc HD HS Hl. destruct (ct_ok_repr rQ BQ L EL level closed c Hc) as [C HC].
    pose proof (ct_repr_level rQ L EL _ _ _ _ HC) as E1. pose proof (shaped_level _ _ _ HS) as E2.
    assert (H1 := proj1 HC). assert (H2 := proj1 (proj2 HC)).
    assert (E3 : length (ctV out) = length (ctV c)) by (rewrite (proj1 HS); apply ctDegree_S; apply H2).
    unfold Neg. assert (E4 : ctDegree out = ctDegree c) by (unfold ctDegree; rewrite E3; reflexivity). rewrite E4, Nat.eqb_refl. cbn [negb].
    eexists. split; [reflexivity|]. rewrite E1, E2, Nat.min_r by lia.
    assert (HM : ct_repr rQ L level' closed (mkCt (rewrite_comps (NegLvl rQ level') (ctV c) (ctV out)) (ctScale c) (ctNTT out)) (fun j => popp (C j))).
    { apply (rewrite_repr _ popp level level' closed); try assumption; [apply HS|].
      intros p X o Hp. split; [apply ntt_neg; exact Hp|apply lvl_length]. }
    split; [apply (ct_repr_ok rQ L EL) in HM; exact HM|]. split; [reflexivity|].
    apply (image_decrypts level level' closed closed c C _ _ sk s M _ Hs HC fits_closed HM fits_closed Hl); [|exact HD].
    intros i Hi E. cbn [ctV]. rewrite rewrite_length, E3, Nat.max_id. unfold n. rewrite dval_opp. intros k Hk. unfold popp. apply eqm_opp. apply E. exact Hk.
  Qed.
End Ops.
