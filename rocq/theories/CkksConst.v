(** Multiplication of the two halves of the rows by constants. *)
From Verif Require Import Word ModRed Arith Fermat ModRedProofs PolySpec PolyProofs Ring RingProofs NTT NTTProofs RingOps RNSSpec RowProofs OpsProofs OpsProps NTTProps Repr Automorphism AutoProps RlweSpec Rlwe RlweKeys Ckks CkksSpec.

Lemma peval_single N j c r : (j < N)%nat -> peval N (fun k => if Nat.eqb k j then c else 0) r = c * r ^ Z.of_nat j.
Proof.
  intros Hj. unfold peval. rewrite (bigsum_single _ j); [rewrite Nat.eqb_refl; reflexivity|exact Hj|].
  intros i Hi Hn. apply Nat.eqb_neq in Hn. rewrite Hn. ring.
Qed.

Lemma peval_gauss N a b r : (2 <= N)%nat -> peval N (pgauss N a b) r = a + b * r ^ Z.of_nat (N / 2).
Proof.
  intros HN. assert (H : (0 < N / 2 < N)%nat) by (split; [apply Nat.div_str_pos; lia|apply Nat.div_lt; lia]).
  transitivity (peval N (padd (fun k => if Nat.eqb k 0 then a else 0) (fun k => if Nat.eqb k (N / 2) then b else 0)) r).
  - unfold peval. apply bigsum_ext. intros i Hi. f_equal. unfold pgauss, padd. destruct (Nat.eqb_spec i 0), (Nat.eqb_spec i (N / 2)); lia.
  - rewrite peval_add, !peval_single by lia. change (Z.of_nat 0) with 0. rewrite Z.pow_0_r. ring.
Qed.

Lemma rev_bits_parity n i : (i < 2 ^ S n)%nat -> exists c, 0 <= c /\ rev_bits (S n) (Z.of_nat i) = 2 * c + (if Nat.ltb i (2 ^ n) then 0 else 1).
Proof.
  intros Hi. exists (rev_bits n (Z.of_nat i mod 2 ^ Z.of_nat n)). split; [apply rev_bits_range|]. rewrite rev_bits_top by lia. f_equal.
  pose proof (Z.pow_pos_nonneg 2 (Z.of_nat n) ltac:(lia) ltac:(lia)) as P. pose proof (two_pow_nat n) as E. cbn [Nat.pow] in Hi.
  destruct (Nat.ltb_spec i (2 ^ n)).
  - rewrite Z.div_small by lia. reflexivity.
  - rewrite <- (Z.mod_small 1 2) by lia. f_equal. symmetry. apply Z.div_unique with (Z.of_nat i - 2 ^ Z.of_nat n); lia.
Qed.

Section Halves.
  Variables (L : nat) (m : modp).
  Hypothesis HL : (2 <= L)%nat.
  Hypothesis Hwf : wf_modp L m.
  Let q := mq m.
  Let N := (2 ^ L)%nat.
  (** The square root of -1. *)
  Definition root4 : Z := psi_of m ^ 2 ^ Z.of_nat (L - 1).

  Lemma half_N : (N / 2 = 2 ^ (L - 1))%nat.
  Proof. unfold N. clear Hwf. destruct L as [|n]; [lia|]. cbn [Nat.pow Nat.sub]. rewrite Nat.sub_0_r, Nat.mul_comm. apply Nat.div_mul. lia. Qed.

  Lemma pt_half i : (i < N)%nat -> eqm q (pt m L i ^ Z.of_nat (N / 2)) (if Nat.ltb i (N / 2) then root4 else - root4).
  Proof.
    intros Hi. rewrite half_N, two_pow_nat, (pt_rev L m). unfold root4.
    destruct L as [|n]; [lia|]. replace (S n - 1)%nat with n by lia.
    destruct (rev_bits_parity n i Hi) as (c & Hc & ->). set (e := if Nat.ltb i (2 ^ n) then 0 else 1).
    assert (He : 0 <= e) by (unfold e; destruct (Nat.ltb _ _); lia).
    pose proof (Z.pow_pos_nonneg 2 (Z.of_nat n) ltac:(lia) ltac:(lia)) as P.
    rewrite <- Z.pow_mul_r by lia.
    replace ((2 * (2 * c + e) + 1) * 2 ^ Z.of_nat n) with (2 ^ Z.of_nat (S n) * (2 * c + e) + 2 ^ Z.of_nat n) by (rewrite pow2_S; ring).
    rewrite Z.pow_add_r by lia. rewrite Z.pow_mul_r by lia.
    transitivity ((-1) ^ (2 * c + e) * psi_of m ^ 2 ^ Z.of_nat n); [apply eqm_mul; [apply eqm_pow; apply (wf_psi (S n) m Hwf)|reflexivity]|].
    rewrite Z.pow_add_r, Z.pow_mul_r by lia. change ((-1) ^ 2) with 1. rewrite Z.pow_1_l by exact Hc.
    apply eqm_eq. unfold e. destruct (Nat.ltb _ _); [change ((-1) ^ 0) with 1|change ((-1) ^ 1) with (-1)]; ring.
  Qed.

  Lemma values_gauss a b i : (i < N)%nat -> eqm q (values m L (pgauss N a b) i) (if Nat.ltb i (N / 2) then a + b * root4 else a - b * root4).
  Proof.
    intros Hi. unfold values. fold N. rewrite peval_gauss by (unfold N; destruct L as [|[|n]]; cbn; lia).
    rewrite (pt_half i Hi). destruct (Nat.ltb _ _); apply eqm_eq; ring.
  Qed.

  Lemma psi1 : 0 <= nth 1 (mpsi m) 0 < q /\ eqm q (nth 1 (mpsi m) 0) (W * root4).
  Proof.
    rewrite (wf_tbl L m Hwf) by (destruct L as [|[|n]]; cbn; lia). pose proof (wf_ge L m Hwf) as Q5. split; [apply Z.mod_pos_bound; fold q in Q5; lia|].
    fold q. rewrite eqm_mod. apply eqm_eq. rewrite Z.mul_comm. f_equal. unfold root4. f_equal. destruct L as [|n]; [lia|].
    cbn [rev_bits Nat.sub]. rewrite Nat.sub_0_r. change (Z.of_nat 1 mod 2) with 1. change (Z.of_nat 1 / 2) with 0. rewrite rev_bits_0. ring.
  Qed.

  Lemma root4_sq : eqm q (root4 * root4) (-1).
  Proof.
    unfold root4. rewrite <- Z.pow_add_r by (apply Z.pow_nonneg; lia). rewrite <- (wf_psi L m Hwf). apply eqm_eq. f_equal.
    destruct L as [|l]; [lia|]. replace (S l - 1)%nat with l by lia. rewrite pow2_S. ring.
  Qed.
  Lemma psi1_pos : 0 < nth 1 (mpsi m) 0 < q.
  Proof.
    destruct psi1 as [P1 P2]. split; [|lia]. destruct (Z.eq_dec (nth 1 (mpsi m) 0) 0) as [E|E]; [exfalso|lia].
    rewrite E in P2. pose proof (wf_ge L m Hwf) as Q5. fold q in Q5.
    assert (R0 : eqm q 0 root4).
    { apply (mont_cancel q Q5 (wf_odd L m Hwf)). rewrite Z.mul_0_l. exact P2. }
    assert (H : eqm q 0 (-1)) by (rewrite <- root4_sq; transitivity (0 * 0); [reflexivity|apply eqm_mul; exact R0]).
    apply eqm_divide in H; [|lia]. apply Zdivide_bounds in H; [|lia]. change (Z.abs (0 - -1)) with 1 in H. lia.
  Qed.

  Lemma nth_halves c row i : length row = N -> (i < N)%nat ->
    nth i (mul_halves N m c row) 0 = MRed (nth i row 0) (if Nat.ltb i (N / 2) then fst c else snd c) q (mqinv m).
  Proof.
    intros Hr Hi. unfold mul_halves. assert (H2 : (N / 2 <= N)%nat) by (apply Nat.div_le_upper_bound; lia).
    assert (LF : length (firstn (N / 2) row) = (N / 2)%nat) by (rewrite firstn_length; lia).
    destruct (Nat.ltb_spec i (N / 2)).
    - rewrite app_nth1 by (rewrite map_length, LF; lia). rewrite (nth_map_any _ _ _ 0) by (rewrite LF; lia). rewrite nth_firstn by lia. reflexivity.
    - rewrite app_nth2 by (rewrite map_length, LF; lia). rewrite map_length, LF. rewrite (nth_map_any _ _ _ 0) by (rewrite skipn_length; lia).
      rewrite nth_skipn. do 2 f_equal. lia.
  Qed.

  Lemma halves_length c row : length row = N -> length (mul_halves N m c row) = N.
  Proof. intros Hr. unfold mul_halves. rewrite app_length, !map_length, firstn_length, skipn_length. lia. Qed.

  Lemma halves_repr c a b B row X : B <= W -> 0 <= fst c < q -> 0 <= snd c < q ->
    eqm q (fst c) (W * (a + b * root4)) -> eqm q (snd c) (W * (a - b * root4)) ->
    ntt_repr L m B row X -> ntt_repr L m q (mul_halves N m c row) (pmul N (pgauss N a b) X).
  Proof.
    intros HB R1 R2 E1 E2 [Hr Hk]. split; [apply halves_length; exact Hr|]. intros i Hi. fold N in Hi. rewrite nth_halves by assumption.
    destruct (Hk i Hi) as [K1 K2]. fold q in K2.
    set (w := if Nat.ltb i (N / 2) then fst c else snd c).
    assert (Hw : 0 <= w < q) by (unfold w; destruct (Nat.ltb _ _); lia).
    set (v := if Nat.ltb i (N / 2) then a + b * root4 else a - b * root4).
    assert (Ew : eqm q w (W * v)) by (unfold w, v; destruct (Nat.ltb _ _); assumption).
    apply (mred_word q (mqinv m)) with (B1 := B) (B2 := q) (v1 := values m L X i) (v2 := W * v); try assumption.
    - unfold q. pose proof (wf_ge L m Hwf). lia.
    - apply (wf_W L m Hwf).
    - apply (wf_odd L m Hwf).
    - apply (wf_inv L m Hwf).
    - rewrite Z.mul_comm. apply Z.mul_le_mono_nonneg_l; lia.
    - transitivity (W * (v * values m L X i)); [apply eqm_eq; ring|]. apply eqm_mul; [reflexivity|].
      symmetry. unfold N. rewrite (values_mul L m Hwf). fold N. apply eqm_mul; [apply values_gauss; exact Hi|reflexivity].
  Qed.

  (** The words of the code. *)
  Lemma const_words_ok real imag a b : 3 * q <= W ->
    (match real with Some x => 0 <= x <= q /\ eqm q x a | None => a = 0 end) ->
    (match imag with Some y => 0 <= y <= q /\ eqm q y b | None => b = 0 end) ->
    let c := const_words m real imag in
    0 <= fst c < q /\ 0 <= snd c < q /\ eqm q (fst c) (W * (a + b * root4)) /\ eqm q (snd c) (W * (a - b * root4)).
  Proof.
    intros H3 Hre Him. pose proof (wf_ge L m Hwf) as Q5. pose proof (wf_W L m Hwf) as Q2. fold q in Q5, Q2.
    set (re := match real with Some x => x | None => 0 end).
    assert (R : 0 <= re <= q /\ eqm q re a) by (unfold re; destruct real; [exact Hre|rewrite Hre; split; [lia|reflexivity]]). clear Hre.
    assert (MF : forall x v, 0 <= x < W -> eqm q x v -> 0 <= MForm x q (mbred m) < q /\ eqm q (MForm x q (mbred m)) (W * v)).
    { intros x v Hx Ex. rewrite (wf_bred L m Hwf). fold q. rewrite MForm_correct by lia. split; [apply Z.mod_pos_bound; lia|].
      rewrite eqm_mod. rewrite Z.mul_comm. apply eqm_mul; [reflexivity|exact Ex]. }
    assert (CW : forall x v, 0 <= x < 2 * q + 1 -> eqm q x v -> 0 <= CRed x q < W /\ eqm q (CRed x q) v).
    { intros x v Hx Ex. destruct (cred_word x q (q + 1)) as [C1 C2]; try lia. split; [lia|]. rewrite C2. exact Ex. }
    unfold const_words. fold q. fold re. destruct imag as [y|].
    - destruct Him as [Hy Ey]. destruct psi1 as [P1 P2].
      assert (HM : 0 <= MRed y (nth 1 (mpsi m) 0) q (mqinv m) < q /\ eqm q (MRed y (nth 1 (mpsi m) 0) q (mqinv m)) (b * root4)).
      { apply (mred_word q (mqinv m)) with (B1 := q + 1) (B2 := q) (v1 := b) (v2 := W * root4); try assumption; try lia.
        - apply (wf_odd L m Hwf).
        - apply (wf_inv L m Hwf).
        - rewrite Z.mul_comm. apply Z.mul_le_mono_nonneg_l; lia.
        - apply eqm_eq. ring. }
      set (im := MRed y _ q _) in *. destruct HM as [M1 M2]. cbn [fst snd]. destruct R as [R1 R2].
      assert (W1 : wadd re im = re + im) by (unfold wadd; apply w64_small; lia).
      assert (W2 : wsub q im = q - im) by (unfold wsub; apply w64_small; lia).
      assert (W3 : wadd re (wsub q im) = re + (q - im)) by (rewrite W2; unfold wadd; apply w64_small; lia).
      rewrite W1, W3.
      destruct (CW (re + im) (a + b * root4) ltac:(lia)) as [A1 A2]; [apply eqm_add; assumption|].
      destruct (CW (re + (q - im)) (a - b * root4) ltac:(lia)) as [A3 A4].
      { transitivity (re + - im); [apply (eqm_intro _ _ _ 1); ring|]. replace (a - b * root4) with (a + - (b * root4)) by ring. apply eqm_add; [exact R2|apply eqm_opp; exact M2]. }
      destruct (MF _ _ A1 A2), (MF _ _ A3 A4). repeat split; try assumption; lia.
    - cbn [fst snd]. subst b. destruct R as [R1 R2]. destruct (MF re (a + 0 * root4) ltac:(lia)) as [A1 A2]; [rewrite R2; apply eqm_eq; ring|].
      replace (a - 0 * root4) with (a + 0 * root4) by ring. repeat split; try assumption; lia.
  Qed.
End Halves.
