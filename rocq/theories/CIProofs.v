(** The conjugate-invariant transforms compute the first half of the standard transform of twice the degree. *)
From Verif Require Import Word ModRed Arith ModRedProofs PolySpec PolyProofs Ring RingProofs NTT NTTProofs RingOps RNSSpec RowProofs
  CI CISpec.

Lemma nth_map_seq0 (f : nat -> Z) n j : (j < n)%nat -> nth j (map f (seq 0 n)) 0 = f j.
Proof.
  intros H. rewrite (nth_indep _ 0 (f O)) by (rewrite map_length, seq_length; exact H). rewrite map_nth, seq_nth by exact H. reflexivity.
Qed.

Lemma Len64_odd s : Z.odd (Len64 (Z.of_nat (2 ^ s))) = Nat.even s.
Proof.
  rewrite Len64_pow2, Z.add_1_r, Z.odd_succ. 
  destruct (Nat.Even_or_Odd s) as [[m ->]|[m ->]].
  - rewrite Nat.even_mul. cbn [Nat.even orb]. rewrite Nat2Z.inj_mul. rewrite Z.even_mul. reflexivity.
  - rewrite Nat.even_add, Nat.even_mul. rewrite Nat2Z.inj_add, Nat2Z.inj_mul, Z.even_add, Z.even_mul. reflexivity.
Qed.

Lemma firstn_skipn_nth' {A} h m (l : list A) i d : (i < h)%nat -> nth i (firstn h (skipn m l)) d = nth (m + i) l d.
Proof. intros. rewrite nth_firstn by assumption. apply nth_skipn. Qed.

Lemma Rsum_1 psi f L j : Rsum psi f L 1 0 j = f j + psi ^ 2 ^ Z.of_nat L * f (j + 2 ^ L)%nat.
Proof.
  assert (E : zexp L 1 0 = 2 ^ Z.of_nat L) by (unfold zexp; change (rev_bits 1 (Z.of_nat 0)) with 0; ring).
  unfold Rsum. rewrite E. change (2 ^ 1)%nat with 2%nat. cbn [bigsum].
  replace (j + 0 * 2 ^ L)%nat with j by lia. replace (j + 1 * 2 ^ L)%nat with (j + 2 ^ L)%nat by lia.
  change (Z.of_nat 0) with 0. change (Z.of_nat 1) with 1. rewrite Z.pow_0_r, Z.pow_1_r. ring.
Qed.

Lemma root_sq q psi L : eqm q (psi ^ 2 ^ Z.of_nat (S L)) (-1) ->
  eqm q (psi ^ 2 ^ Z.of_nat L * psi ^ 2 ^ Z.of_nat L) (-1).
Proof.
  intros Hpsi. assert (P := Z.pow_pos_nonneg 2 (Z.of_nat L) ltac:(lia) ltac:(lia)).
  rewrite <- Hpsi. apply eqm_eq. rewrite <- Z.pow_add_r by lia. f_equal. rewrite Nat2Z.inj_succ, Z.pow_succ_r by lia. ring.
Qed.

Section Pair.
  Variables (q qInv : Z).
  Hypothesis Hq : 2 <= q.
  Hypothesis Hodd : Z.odd q = true.
  Hypothesis Hinv : eqm W (q * qInv) 1.
  (** x_j - F x_(N-j), for words below B. *)
  Lemma pair_spec B x y F w : 2 * q <= W -> 0 <= B -> B + 2 * q <= W -> 0 <= x < B -> 0 <= y < B -> 0 <= F < q -> eqm q F (w * W) ->
    0 <= wsub (wadd x (2 * q)) (MRedConstant y F q qInv) < B + 2 * q /\
    eqm q (wsub (wadd x (2 * q)) (MRedConstant y F q qInv)) (x - w * y).
  Proof.
    intros HqW HB0 HB Hx Hy HF Ew.
    assert (Hp : y * F < q * W) by nia.
    pose proof (MRedConstant_range y F q qInv ltac:(lia) HqW Hinv ltac:(lia) ltac:(lia) Hp) as RV.
    pose proof (MRedConstant_eqm y F q qInv ltac:(lia) HqW Hinv ltac:(lia) ltac:(lia) Hp) as EV.
    set (V := MRedConstant y F q qInv) in *. clearbody V.
    assert (EV' : eqm q V (w * y)).
    { apply odd_cancel_W; [lia|exact Hodd|]. rewrite EV, Ew. apply eqm_eq. ring. }
    assert (A2 : wadd x (2 * q) = x + 2 * q) by (apply w64_small; lia). rewrite A2.
    assert (A3 : wsub (x + 2 * q) V = x + 2 * q - V) by (apply w64_small; lia). rewrite A3.
    split; [lia|]. rewrite EV'. apply (eqm_intro _ _ _ 2). ring.
  Qed.
End Pair.

Section Forward.
  Variables (q qInv psi : Z) (L : nat) (tbl : list Z).
  Hypothesis Hq : 2 <= q.
  Hypothesis Hodd : Z.odd q = true.
  Hypothesis Hinv : eqm W (q * qInv) 1.
  Hypothesis Hpsi : eqm q (psi ^ 2 ^ Z.of_nat (S L)) (-1).
  Hypothesis Htlen : length tbl = (2 ^ S L)%nat.
  Hypothesis Htbl : forall k, (k < 2 ^ S L)%nat -> nth k tbl 0 = (psi ^ rev_bits (S L) (Z.of_nat k) * W) mod q.

  Lemma ci_rounds_spec B f k : forall s xs, (s + k = L)%nat ->
    4 * q <= B -> B + 4 * q <= W ->
    length xs = (2 ^ L)%nat -> below (round_bound q B (S s)) xs ->
    (forall i j, (i < 2 ^ s)%nat -> (j < 2 ^ k)%nat ->
       eqm q (nth (i * 2 ^ k + j) xs 0) (Rsum psi f k (S s) i j)) ->
    let ys := ci_rounds k (2 ^ S s) tbl q qInv xs in
    length ys = (2 ^ L)%nat /\ below (round_bound q B (S L)) ys /\
    (forall i, (i < 2 ^ L)%nat -> eqm q (nth i ys 0) (Rsum psi f 0 (S L) i 0)).
  Proof.
    induction k as [|k IH]; intros s xs E HB4 HB Hlen Hbel Hval; cbv zeta.
    - cbn [ci_rounds]. assert (s = L) by lia. subst s. split; [exact Hlen|]. split; [exact Hbel|]. intros i Hi.
      specialize (Hval i O Hi ltac:(cbn; lia)).
      replace (i * 2 ^ 0 + 0)%nat with i in Hval by (cbn [Nat.pow]; lia). exact Hval.
    - cbn [ci_rounds].
      assert (E' : (S (S s + k) = S L)%nat) by lia.
      assert (EL : (2 ^ L = 2 ^ s * (2 * 2 ^ k))%nat).
      { rewrite <- E, Nat.pow_add_r. cbn [Nat.pow]. lia. }
      pose proof (pow2n_pos s) as Ps. pose proof (pow2n_pos k) as Pk.
      assert (Eh : Nat.div2 (2 ^ S s) = (2 ^ s)%nat).
      { replace (2 ^ S s)%nat with (2 * 2 ^ s)%nat by (cbn [Nat.pow]; lia). apply Nat.div2_double. }
      rewrite Eh. clear Eh.
      set (psis := firstn (2 ^ s) (skipn (2 ^ S s) tbl)).
      assert (Lp : length psis = (2 ^ s)%nat).
      { unfold psis. rewrite firstn_length, skipn_length, Htlen. cbn [Nat.pow]. nia. }
      rewrite Len64_odd. set (red := Nat.even (S s)).
      assert (Hrb : 0 <= round_bound q B (S s) <= W).
      { unfold round_bound. destruct (Nat.even (S s)); lia. }
      assert (Hnext : next_bound q red (round_bound q B (S s)) <= round_bound q B (S (S s))).
      { unfold next_bound, round_bound, red. rewrite (Nat.even_succ (S s)), <- (Nat.negb_even (S s)).
        destruct (Nat.even (S s)); cbn [negb]; lia. }
      assert (HnW : next_bound q red (round_bound q B (S s)) <= W).
      { unfold round_bound in Hnext at 2. destruct (Nat.even (S (S s))); lia. }
      destruct (ntt_layer_spec q qInv Hq Hodd Hinv red (round_bound q B (S s)) psis (2 ^ k) xs (twid psi k (S s)))
        as (Hl & Hb & Hv); try lia.
      + exact Hbel.
      + intros i Hi. rewrite Lp in Hi. unfold psis. rewrite firstn_skipn_nth' by exact Hi.
        apply (tbl_entry q psi (S L) tbl); try assumption. cbn [Nat.pow]. lia.
      + replace (2 * 2 ^ S s)%nat with (2 ^ S (S s))%nat by (cbn [Nat.pow]; lia).
        apply (IH (S s)); try lia.
        * apply (below_weaken _ _ _ Hnext). exact Hb.
        * rewrite Lp in Hv. intros i j Hi Hj.
          assert (Hi2 : (i / 2 < 2 ^ s)%nat).
          { apply Nat.div_lt_upper_bound; [lia|]. cbn [Nat.pow] in Hi. lia. }
          destruct (Hv (i / 2)%nat j Hi2 Hj) as [V1 V2].
          assert (A1 := Hval (i / 2)%nat j Hi2 ltac:(cbn [Nat.pow]; lia)).
          assert (A2 := Hval (i / 2)%nat (j + 2 ^ k)%nat Hi2 ltac:(cbn [Nat.pow]; lia)).
          replace (2 ^ S k)%nat with (2 * 2 ^ k)%nat in A1, A2 by (cbn [Nat.pow]; lia).
          replace (i / 2 * (2 * 2 ^ k) + (j + 2 ^ k))%nat with (i / 2 * (2 * 2 ^ k) + 2 ^ k + j)%nat in A2 by lia.
          pose proof (Nat.div_mod i 2 ltac:(lia)) as D.
          pose proof (Nat.mod_upper_bound i 2 ltac:(lia)) as M.
          assert (Hc : (i = 2 * (i / 2) \/ i = 2 * (i / 2) + 1)%nat) by lia.
          clear D M. set (i2 := (i / 2)%nat) in *. clearbody i2. destruct Hc as [-> | ->].
          -- rewrite Rsum_even.
             replace (2 * i2 * 2 ^ k + j)%nat with (i2 * (2 * 2 ^ k) + j)%nat by lia.
             rewrite V1, A1, A2. reflexivity.
          -- rewrite (Rsum_odd q psi (S L)) by assumption.
             replace ((2 * i2 + 1) * 2 ^ k + j)%nat with (i2 * (2 * 2 ^ k) + 2 ^ k + j)%nat by lia.
             rewrite V2, A1, A2. reflexivity.
  Qed.

  (** The entry used by the first round is the square root of -1. *)
  Lemma tbl_first : 0 <= nth 1 tbl 0 < q /\ eqm q (nth 1 tbl 0) (psi ^ 2 ^ Z.of_nat L * W).
  Proof.
    pose proof (tbl_entry q psi (S L) tbl Hq Htlen Htbl L O O ltac:(lia) ltac:(cbn; lia)) as [R E].
    cbn [Nat.pow Nat.add] in R, E. split; [exact R|]. rewrite E. apply eqm_eq. f_equal. unfold twid, zexp. cbn [rev_bits]. f_equal. ring.
  Qed.

  Lemma ci_first_spec B xs : 4 * q <= B -> B + 4 * q <= W -> length xs = (2 ^ L)%nat -> below B xs ->
    let ys := ci_first (nth 1 tbl 0) q qInv (2 ^ L) xs in
    length ys = (2 ^ L)%nat /\ below (B + 2 * q) ys /\
    forall j, (j < 2 ^ L)%nat -> eqm q (nth j ys 0) (Rsum psi (ci_poly (2 ^ L) (co xs)) L 1 0 j).
  Proof.
    intros HB4 HB Hlen Hbel. cbv zeta. unfold ci_first.
    assert (E2 : wmul 2 q = 2 * q) by (apply w64_small; lia). rewrite E2.
    set (g := fun j : nat => _).
    assert (Hl : length (map g (seq 0 (2 ^ L))) = (2 ^ L)%nat) by (rewrite map_length, seq_length; reflexivity).
    destruct tbl_first as [RF EF].
    assert (P : forall j, (j < 2 ^ L)%nat -> 0 <= g j < B + 2 * q /\ eqm q (g j) (Rsum psi (ci_poly (2 ^ L) (co xs)) L 1 0 j)).
    { intros j Hj. rewrite Rsum_1. unfold ci_poly, co.
      destruct (Nat.ltb_spec j (2 ^ L)) as [_|]; [|lia].
      destruct (Nat.ltb_spec (j + 2 ^ L) (2 ^ L)) as [|_]; [lia|].
      destruct j as [|j].
      - cbn [g]. pose proof (below_nth _ _ O Hbel ltac:(lia)). split; [lia|].
        cbn [Nat.add]. rewrite Nat.eqb_refl. apply eqm_eq. ring.
      - destruct (Nat.eqb_spec (S j + 2 ^ L) (2 ^ L)) as [|_]; [lia|].
        replace (2 * 2 ^ L - (S j + 2 ^ L))%nat with (2 ^ L - S j)%nat by lia.
        unfold g.
        pose proof (below_nth _ _ (S j) Hbel ltac:(lia)) as Hx. pose proof (below_nth _ _ (2 ^ L - S j) Hbel ltac:(lia)) as Hy.
        destruct (pair_spec q qInv Hq Hodd Hinv B _ _ _ _ ltac:(lia) ltac:(lia) ltac:(lia) Hx Hy RF EF) as [R E].
        split; [exact R|]. rewrite E. apply eqm_eq. ring. }
    split; [exact Hl|]. split.
    - apply below_intro. intros n Hn. rewrite Hl in Hn. rewrite nth_map_seq0 by exact Hn. apply P. exact Hn.
    - intros j Hj. rewrite nth_map_seq0 by exact Hj. apply P. exact Hj.
  Qed.
End Forward.

Section Inverse.
  Variables (q qInv psi psiInv : Z) (L : nat) (tbl : list Z).
  Hypothesis Hq : 2 <= q.
  Hypothesis Hq6 : 6 * q <= W.
  Hypothesis Hodd : Z.odd q = true.
  Hypothesis Hinv : eqm W (q * qInv) 1.
  Hypothesis Hpsi : eqm q (psi ^ 2 ^ Z.of_nat (S L)) (-1).
  Hypothesis Hpi : eqm q (psi * psiInv) 1.
  Hypothesis Htlen : length tbl = (2 ^ S L)%nat.
  Hypothesis Htbl : forall k, (k < 2 ^ S L)%nat -> nth k tbl 0 = (psiInv ^ rev_bits (S L) (Z.of_nat k) * W) mod q.

  Lemma ci_inv_round k s xs :
    (S (s + k) = L)%nat -> length xs = (2 ^ L)%nat -> below (2 * q) xs ->
    let ys := inv_layer (firstn (2 ^ s) (skipn (2 ^ S s) tbl)) (2 ^ k) q qInv xs in
    length ys = (2 ^ L)%nat /\ below (2 * q) ys /\
    forall i j, (i < 2 ^ s)%nat -> (j < 2 ^ k)%nat ->
      let x := nth (2 * i * 2 ^ k + j) xs 0 in
      let y := nth ((2 * i + 1) * 2 ^ k + j) xs 0 in
      eqm q (nth (i * 2 ^ S k + j) ys 0) (x + y) /\
      eqm q (nth (i * 2 ^ S k + (j + 2 ^ k)) ys 0) (twid psiInv k (S s) i * (x - y)).
  Proof.
    intros E Hlen Hbel. cbv zeta.
    assert (EL : (2 ^ L = 2 ^ s * (2 * 2 ^ k))%nat).
    { rewrite <- E. replace (S (s + k)) with (s + S k)%nat by lia. rewrite Nat.pow_add_r. cbn [Nat.pow]. lia. }
    pose proof (pow2n_pos s) as Ps. pose proof (pow2n_pos k) as Pk.
    set (psis := firstn (2 ^ s) (skipn (2 ^ S s) tbl)).
    assert (Lp : length psis = (2 ^ s)%nat).
    { unfold psis. rewrite firstn_length, skipn_length, Htlen. cbn [Nat.pow]. clear - EL Ps Pk. nia. }
    destruct (inv_layer_spec q qInv Hq Hodd Hinv psis (2 ^ k) xs (twid psiInv k (S s))) as (Hl & Hb & Hv).
    - exact Hq6.
    - rewrite Lp, Hlen. exact EL.
    - exact Hbel.
    - intros i Hi. rewrite Lp in Hi. unfold psis. rewrite firstn_skipn_nth' by exact Hi.
      apply (tbl_entry q psiInv (S L) tbl); try assumption; [lia|cbn [Nat.pow]; lia].
    - split; [rewrite Hl; exact Hlen|]. split; [exact Hb|].
      rewrite Lp in Hv. intros i j Hi Hj. destruct (Hv i j Hi Hj) as [V1 V2].
      replace (2 * i * 2 ^ k + j)%nat with (i * (2 * 2 ^ k) + j)%nat by (clear; lia).
      replace ((2 * i + 1) * 2 ^ k + j)%nat with (i * (2 * 2 ^ k) + 2 ^ k + j)%nat by (clear; lia).
      replace (i * 2 ^ S k + (j + 2 ^ k))%nat with (i * (2 * 2 ^ k) + 2 ^ k + j)%nat by (clear; cbn [Nat.pow]; lia).
      replace (i * 2 ^ S k + j)%nat with (i * (2 * 2 ^ k) + j)%nat by (clear; cbn [Nat.pow]; lia).
      split; assumption.
  Qed.

  Lemma ci_inv_rounds_below s : forall k xs, (s + k = L)%nat -> length xs = (2 ^ L)%nat -> below (2 * q) xs ->
    let ys := ci_inv_rounds s (2 ^ k) tbl q qInv xs in length ys = (2 ^ L)%nat /\ below (2 * q) ys.
  Proof.
    induction s as [|s IH]; intros k xs E Hlen Hbel; cbv zeta; cbn [ci_inv_rounds]; [split; assumption|].
    destruct (ci_inv_round k s xs) as (Hl & Hb & _); try assumption; try lia.
    replace (2 * 2 ^ k)%nat with (2 ^ S k)%nat by (cbn [Nat.pow]; lia).
    apply IH; try assumption. lia.
  Qed.

  Lemma ci_inv_rounds_value f s : forall k xs, (s + k = L)%nat -> length xs = (2 ^ L)%nat -> below (2 * q) xs ->
    forall c, (forall i j, (i < 2 ^ s)%nat -> (j < 2 ^ k)%nat ->
       eqm q (nth (i * 2 ^ k + j) xs 0) (c * Rsum psi f k (S s) i j)) ->
    forall j, (j < 2 ^ L)%nat ->
      eqm q (nth j (ci_inv_rounds s (2 ^ k) tbl q qInv xs) 0) (c * 2 ^ Z.of_nat s * Rsum psi f L 1 0 j).
  Proof.
    induction s as [|s IH]; intros k xs E Hlen Hbel c Hval j Hj; cbn [ci_inv_rounds].
    - assert (k = L) by lia. subst k. specialize (Hval O j ltac:(cbn; lia) Hj).
      cbn [Nat.mul Nat.add] in Hval. rewrite Hval. apply eqm_eq. change (2 ^ Z.of_nat 0) with 1. ring.
    - assert (E' : (S (s + k) = L)%nat) by lia.
      destruct (ci_inv_round k s xs) as (Hl & Hb & Hv); try assumption.
      replace (2 * 2 ^ k)%nat with (2 ^ S k)%nat by (cbn [Nat.pow]; lia).
      rewrite (IH (S k) _ ltac:(lia) Hl Hb (2 * c)).
      + apply eqm_eq. rewrite pow2_S. ring.
      + intros i j' Hi Hj'.
        assert (C : forall jj, (jj < 2 ^ k)%nat ->
          let x := nth (2 * i * 2 ^ k + jj) xs 0 in let y := nth ((2 * i + 1) * 2 ^ k + jj) xs 0 in
          let A := Rsum psi f (S k) (S s) i jj in let B := Rsum psi f (S k) (S s) i (jj + 2 ^ k) in
          eqm q x (c * (A + twid psi k (S s) i * B)) /\ eqm q y (c * (A - twid psi k (S s) i * B))).
        { intros jj Hjj. cbv zeta.
          rewrite (Hval (2 * i)%nat jj) by (cbn [Nat.pow]; lia).
          rewrite (Hval (2 * i + 1)%nat jj) by (cbn [Nat.pow]; lia).
          rewrite Rsum_even, (Rsum_odd q psi (S L)) by (assumption || lia). split; reflexivity. }
        destruct (Nat.lt_ge_cases j' (2 ^ k)) as [Hlt|Hge].
        * destruct (Hv i j' Hi Hlt) as [V _]. destruct (C j' Hlt) as [X Y]. cbv zeta in X, Y.
          rewrite V, X, Y. apply eqm_eq. ring.
        * assert (Hlt : (j' - 2 ^ k < 2 ^ k)%nat) by (cbn [Nat.pow] in Hj'; lia).
          destruct (Hv i (j' - 2 ^ k)%nat Hi Hlt) as [_ V]. destruct (C _ Hlt) as [X Y]. cbv zeta in X, Y.
          replace (j' - 2 ^ k + 2 ^ k)%nat with j' in * by lia.
          rewrite V, X, Y.
          match goal with |- eqm q (?v * (c * (?a + ?w * ?b) - _)) _ =>
            transitivity (2 * c * (w * v) * b); [apply eqm_eq; ring|] end.
          rewrite (twid_inv q psi psiInv Hpi). apply eqm_eq. ring.
      + exact Hj.
  Qed.

  Lemma ci_inv_rounds_onto f s : forall k xs, (s + k = L)%nat -> length xs = (2 ^ L)%nat -> below (2 * q) xs ->
    (forall j, (j < 2 ^ L)%nat -> eqm q (Rsum psi f L 1 0 j) (nth j (ci_inv_rounds s (2 ^ k) tbl q qInv xs) 0)) ->
    forall i j, (i < 2 ^ s)%nat -> (j < 2 ^ k)%nat ->
      eqm q (Rsum psi f k (S s) i j) (2 ^ Z.of_nat s * nth (i * 2 ^ k + j) xs 0).
  Proof.
    induction s as [|s IH]; intros k xs E Hlen Hbel Hval i j Hi Hj; cbn [ci_inv_rounds] in Hval.
    - assert (k = L) by lia. subst k. assert (i = O) by (cbn in Hi; lia). subst i.
      cbn [Nat.mul Nat.add]. rewrite Hval by exact Hj. apply eqm_eq. change (2 ^ Z.of_nat 0) with 1. ring.
    - assert (E' : (S (s + k) = L)%nat) by lia.
      destruct (ci_inv_round k s xs) as (Hl & Hb & Hv); try assumption.
      replace (2 * 2 ^ k)%nat with (2 ^ S k)%nat in Hval by (cbn [Nat.pow]; lia).
      specialize (IH (S k) _ ltac:(lia) Hl Hb Hval).
      assert (Hi2 : (i / 2 < 2 ^ s)%nat).
      { apply Nat.div_lt_upper_bound; [lia|]. cbn [Nat.pow] in Hi. lia. }
      destruct (Hv (i / 2)%nat j Hi2 Hj) as [V1 V2].
      assert (A1 := IH (i / 2)%nat j Hi2 ltac:(cbn [Nat.pow]; lia)).
      assert (A2 := IH (i / 2)%nat (j + 2 ^ k)%nat Hi2 ltac:(cbn [Nat.pow]; lia)).
      pose proof (Nat.div_mod i 2 ltac:(lia)) as D.
      pose proof (Nat.mod_upper_bound i 2 ltac:(lia)) as M.
      assert (Hc : (i = 2 * (i / 2) \/ i = 2 * (i / 2) + 1)%nat) by lia.
      clear D M. set (i2 := (i / 2)%nat) in *. clearbody i2.
      assert (TI := twid_inv q psi psiInv Hpi k (S s) i2).
      destruct Hc as [-> | ->].
      + rewrite Rsum_even, A1, A2, V1, V2, pow2_S.
        match goal with |- eqm q (?p * (?x + ?y) + ?w * (?p * (?v * _))) _ =>
          transitivity (p * (x + y) + (w * v) * (p * (x - y))); [apply eqm_eq; ring|] end.
        rewrite TI. apply eqm_eq. ring.
      + rewrite (Rsum_odd q psi (S L)) by (assumption || lia). rewrite A1, A2, V1, V2, pow2_S.
        match goal with |- eqm q (?p * (?x + ?y) - ?w * (?p * (?v * _))) _ =>
          transitivity (p * (x + y) - (w * v) * (p * (x - y))); [apply eqm_eq; ring|] end.
        rewrite TI. apply eqm_eq. ring.
  Qed.

  (** psi^N is a square root of -1, so its inverse is its opposite. *)
  Lemma root_inv : eqm q (psiInv ^ 2 ^ Z.of_nat L) (- psi ^ 2 ^ Z.of_nat L).
  Proof.
    assert (P := Z.pow_pos_nonneg 2 (Z.of_nat L) ltac:(lia) ltac:(lia)).
    assert (A : eqm q (psi ^ 2 ^ Z.of_nat L * psi ^ 2 ^ Z.of_nat L) (-1)).
    { rewrite <- Hpsi. apply eqm_eq. rewrite <- Z.pow_add_r by lia. f_equal. rewrite Nat2Z.inj_succ, Z.pow_succ_r by lia. ring. }
    assert (B : eqm q (psi ^ 2 ^ Z.of_nat L * psiInv ^ 2 ^ Z.of_nat L) 1).
    { rewrite <- Z.pow_mul_l. rewrite (eqm_pow q _ _ _ Hpi). rewrite Z.pow_1_l by lia. reflexivity. }
    set (u := psi ^ 2 ^ Z.of_nat L) in *. set (v := psiInv ^ 2 ^ Z.of_nat L) in *. clearbody u v.
    transitivity (- (u * u) * v); [rewrite A; apply eqm_eq; ring|].
    transitivity (- u * (u * v)); [apply eqm_eq; ring|]. rewrite B. apply eqm_eq. ring.
  Qed.
  Lemma ci_last_spec xs : length xs = (2 ^ L)%nat -> below (2 * q) xs ->
    let ys := ci_last (nth 1 tbl 0) q qInv (2 ^ L) xs in
    length ys = (2 ^ L)%nat /\ below (4 * q) ys /\
    forall j, (j < 2 ^ L)%nat -> eqm q (nth j ys 0)
      (match j with O => 2 * nth 0 xs 0 | _ => nth j xs 0 + psi ^ 2 ^ Z.of_nat L * nth (2 ^ L - j) xs 0 end).
  Proof.
    intros Hlen Hbel. cbv zeta. unfold ci_last, wshl.
    assert (E2 : w64 (q * 2 ^ 1) = 2 * q) by (rewrite w64_small; lia). rewrite E2.
    set (g := fun j : nat => _).
    assert (Hl : length (map g (seq 0 (2 ^ L))) = (2 ^ L)%nat) by (rewrite map_length, seq_length; reflexivity).
    destruct (tbl_first q psiInv L tbl Hq Htlen Htbl) as [RF EF].
    assert (P : forall j, (j < 2 ^ L)%nat -> 0 <= g j < 4 * q /\ eqm q (g j)
      (match j with O => 2 * nth 0 xs 0 | _ => nth j xs 0 + psi ^ 2 ^ Z.of_nat L * nth (2 ^ L - j) xs 0 end)).
    { intros j Hj. destruct j as [|j]; unfold g.
      - pose proof (below_nth _ _ O Hbel ltac:(lia)) as Hx. set (x := nth 0 xs 0) in *. clearbody x.
        assert (Ex : w64 (x * 2 ^ 1) = 2 * x) by (rewrite w64_small; lia). rewrite Ex.
        unfold CRed, csub. destruct (Z.leb_spec q (2 * x)).
        + assert (A : wsub (2 * x) q = 2 * x - q) by (apply w64_small; lia). rewrite A. split; [lia|]. apply (eqm_intro _ _ _ (-1)). ring.
        + split; [lia|reflexivity].
      - pose proof (below_nth _ _ (S j) Hbel ltac:(lia)) as Hx. pose proof (below_nth _ _ (2 ^ L - S j) Hbel ltac:(lia)) as Hy.
        destruct (pair_spec q qInv Hq Hodd Hinv (2 * q) _ _ _ _ ltac:(lia) ltac:(lia) ltac:(lia) Hx Hy RF EF) as [R E].
        split; [lia|]. rewrite E. rewrite root_inv. apply eqm_eq. ring. }
    split; [exact Hl|]. split.
    - apply below_intro. intros n Hn. rewrite Hl in Hn. rewrite nth_map_seq0 by exact Hn. apply P. exact Hn.
    - intros j Hj. rewrite nth_map_seq0 by exact Hj. apply P. exact Hj.
  Qed.
End Inverse.

(** ** Rows *)
(** A row holding the values of a conjugate-invariant polynomial at the first half of the points. *)
Definition ci_repr (L : nat) (m : modp) (B : Z) (row : list Z) (X : poly) : Prop :=
  row_repr (2 ^ L) (mq m) B row (values m (S L) (ci_poly (2 ^ L) X)).

Section Row.
  Variables (L : nat) (m : modp).
  Hypothesis HL : (2 <= L)%nat.
  Hypothesis Hwf : wf_modp (S L) m.
  Let q := mq m.
  Let N := (2 ^ L)%nat.

  Lemma ci_poly_peq X Y : peq N q X Y -> peq (2 * N) q (ci_poly N X) (ci_poly N Y).
  Proof.
    intros H k Hk. unfold ci_poly. destruct (Nat.ltb_spec k N); [apply H; assumption|].
    destruct (Nat.eqb_spec k N); [reflexivity|].
    assert (E := H (2 * N - k)%nat ltac:(lia)). apply eqm_opp. exact E.
  Qed.

  Lemma two_N : (2 ^ S L = 2 * N)%nat. Proof. unfold N. cbn [Nat.pow]. lia. Qed.

  Lemma ci_lazy_repr B row X : 4 * q <= B -> B + 4 * q <= W ->
    row_repr N q B row X -> ci_repr L m (B + 4 * q) (NTTConjugateInvariantLazy row N (mpsi m) q (mqinv m)) X.
  Proof.
    intros HB4 HB HX. pose proof (q_ge5 _ m Hwf) as G. pose proof (q_2W _ m Hwf) as G2. fold q in G, G2.
    assert (Hpsi := wf_psi _ m Hwf). fold q in Hpsi.
    destruct (ci_first_spec q (mqinv m) (psi_of m) L (mpsi m) ltac:(lia) (q_odd _ m Hwf) (q_inv _ m Hwf) (wf_tbl_len _ m Hwf) (wf_tbl _ m Hwf)
      B row HB4 HB (row_repr_length _ _ _ _ _ HX) (row_repr_below _ _ _ _ _ HX)) as (Fl & Fb & Fv).
    destruct (ci_rounds_spec q (mqinv m) (psi_of m) L (mpsi m) ltac:(lia) (q_odd _ m Hwf) (q_inv _ m Hwf) Hpsi
       (wf_tbl_len _ m Hwf) (wf_tbl _ m Hwf) B (ci_poly (2 ^ L) (co row)) L O _ eq_refl HB4 HB Fl) as (Hl & Hb & Hv).
    - exact Fb.
    - intros i j Hi Hj. assert (i = O) by (cbn in Hi; lia). subst i. cbn [Nat.mul Nat.add]. apply Fv. exact Hj.
    - unfold NTTConjugateInvariantLazy, N. rewrite Nat.log2_pow2 by lia. change (2 ^ 1)%nat with 2%nat in *.
      split; [exact Hl|]. intros i Hi. fold q.
      assert (Bd := below_nth _ _ i Hb ltac:(rewrite Hl; exact Hi)).
      split; [unfold round_bound in Bd; destruct (Nat.even (S L)); lia|].
      rewrite Hv by exact Hi. rewrite Rsum_final. unfold values. rewrite pt_rev.
      apply peval_peq; [|reflexivity]. rewrite two_N. apply ci_poly_peq. intros k Hk. apply HX. exact Hk.
  Qed.

  Lemma ci_ntt_repr B row X : B + 4 * q <= W -> 8 * q <= W ->
    row_repr N q B row X -> ci_repr L m q (NTTConjugateInvariant row N (mpsi m) q (mqinv m) (mbred m)) X.
  Proof.
    intros HB H8 HX. pose proof (q_ge5 _ m Hwf) as G. fold q in G.
    assert (HX' : row_repr N q (Z.max B (4 * q)) row X) by (apply (row_repr_weaken _ _ B); [lia|exact HX]).
    apply ci_lazy_repr in HX'; [|lia|lia].
    unfold NTTConjugateInvariant. apply (ReduceVec_repr (S L) m ltac:(lia) Hwf _ (Z.max B (4 * q) + 4 * q)); [lia|exact HX'].
  Qed.

  Lemma ci_core_spec row : 6 * q <= W -> length row = N -> below (2 * q) row ->
    let xs := ci_inv_rounds L 1 (mpsiInv m) q (mqinv m) row in
    let ys := invNTTConjugateInvariantCore row N (mpsiInv m) q (mqinv m) in
    (length xs = N /\ below (2 * q) xs) /\ length ys = N /\ below (4 * q) ys /\
    forall j, (j < N)%nat -> eqm q (nth j ys 0)
      (match j with O => 2 * nth 0 xs 0 | _ => nth j xs 0 + psi_of m ^ 2 ^ Z.of_nat L * nth (N - j) xs 0 end).
  Proof.
    intros H6 Hl Hb. cbv zeta. pose proof (q_ge5 _ m Hwf) as G. fold q in G.
    assert (A : length (ci_inv_rounds L (2 ^ 0) (mpsiInv m) q (mqinv m) row) = (2 ^ L)%nat /\
      below (2 * q) (ci_inv_rounds L (2 ^ 0) (mpsiInv m) q (mqinv m) row)).
    { apply (ci_inv_rounds_below q (mqinv m) (psi_of m) (psiInv_of m) L (mpsiInv m)); try assumption; try lia;
        [apply (q_odd _ m Hwf)|apply (q_inv _ m Hwf)|apply (wf_tblInv_len _ m Hwf)|apply (wf_tblInv _ m Hwf)]. }
    cbv zeta in A. change (2 ^ 0)%nat with 1%nat in A. split; [exact A|]. destruct A as [A1 A2].
    unfold invNTTConjugateInvariantCore, N. rewrite Nat.log2_pow2 by lia.
    apply (ci_last_spec q (mqinv m) (psi_of m) (psiInv_of m) L (mpsiInv m)); try assumption; try lia.
    - apply (q_odd _ m Hwf).
    - apply (q_inv _ m Hwf).
    - apply (wf_psi _ m Hwf).
    - apply (wf_psiInv _ m Hwf).
    - apply (wf_tblInv_len _ m Hwf).
    - apply (wf_tblInv _ m Hwf).
  Qed.

  Lemma ci_ninv_scale x : 6 * q <= W -> 0 <= x < 4 * q ->
    0 <= MRed x (mninv m) q (mqinv m) < q /\ eqm q (2 ^ Z.of_nat (S L) * MRed x (mninv m) q (mqinv m)) x /\
    0 <= MRedConstant x (mninv m) q (mqinv m) < 2 * q /\ eqm q (2 ^ Z.of_nat (S L) * MRedConstant x (mninv m) q (mqinv m)) x.
  Proof.
    intros H6 Hx. pose proof (q_ge5 _ m Hwf) as G. fold q in G. pose proof (wf_ninv_range _ m Hwf) as Hn. fold q in Hn.
    pose proof (wf_ninv _ m Hwf) as En. fold q in En. pose proof (q_inv _ m Hwf) as Qi. fold q in Qi.
    assert (Hp : x * mninv m < q * W) by nia.
    assert (C : forall v, eqm q (v * W) (x * mninv m) -> eqm q (2 ^ Z.of_nat (S L) * v) x).
    { intros v Ev. apply odd_cancel_W; [lia|apply (q_odd _ m Hwf)|].
      transitivity (2 ^ Z.of_nat (S L) * (v * W)); [apply eqm_eq; ring|]. rewrite Ev.
      transitivity (x * (mninv m * 2 ^ Z.of_nat (S L))); [apply eqm_eq; ring|]. rewrite En. reflexivity. }
    split; [apply MRed_range; try lia; exact Qi|].
    split; [apply C, MRed_eqm; try lia; exact Qi|].
    split; [pose proof (MRedConstant_range x (mninv m) q (mqinv m) ltac:(lia) ltac:(lia) Qi ltac:(lia) ltac:(lia) Hp); lia|].
    apply C, MRedConstant_eqm; try lia; exact Qi.
  Qed.

  Lemma ci_inv_value row X : 6 * q <= W -> ci_repr L m (2 * q) row X ->
    row_repr N q (4 * q) (invNTTConjugateInvariantCore row N (mpsiInv m) q (mqinv m)) (fun k => 2 ^ Z.of_nat (S L) * X k).
  Proof.
    intros H6 HX. pose proof (q_ge5 _ m Hwf) as G. fold q in G.
    assert (Hb := row_repr_below _ _ _ _ _ HX). assert (Hl := row_repr_length _ _ _ _ _ HX).
    destruct (ci_core_spec row H6 Hl Hb) as ([A1 A2] & C1 & C2 & C3). cbv zeta in *.
    split; [exact C1|]. intros k Hk. split; [apply below_nth; [exact C2|lia]|].
    assert (V : forall j, (j < N)%nat -> eqm q (nth j (ci_inv_rounds L 1 (mpsiInv m) q (mqinv m) row) 0)
      (1 * 2 ^ Z.of_nat L * Rsum (psi_of m) (ci_poly N X) L 1 0 j)).
    { intros j Hj. apply (ci_inv_rounds_value q (mqinv m) (psi_of m) (psiInv_of m) L (mpsiInv m)) with (k := O);
        try assumption; try lia.
      - apply (q_odd _ m Hwf).
      - apply (q_inv _ m Hwf).
      - apply (wf_psi _ m Hwf).
      - apply (wf_psiInv _ m Hwf).
      - apply (wf_tblInv_len _ m Hwf).
      - apply (wf_tblInv _ m Hwf).
      - intros i j' Hi Hj'. assert (j' = O) by (cbn in Hj'; lia). subst j'.
        replace (i * 2 ^ 0 + 0)%nat with i by (cbn [Nat.pow]; lia).
        destruct (proj2 HX i Hi) as [_ E]. rewrite E, Rsum_final. unfold values. rewrite pt_rev. apply eqm_eq. unfold N. ring. }
    assert (S2 := root_sq q (psi_of m) L (wf_psi _ m Hwf)).
    set (F := psi_of m ^ 2 ^ Z.of_nat L) in *.
    assert (R : forall j, (0 < j < N)%nat -> eqm q (nth j (ci_inv_rounds L 1 (mpsiInv m) q (mqinv m) row) 0)
       (2 ^ Z.of_nat L * (X j - F * X (N - j)%nat))).
    { intros j Hj. rewrite V by lia. rewrite Rsum_1. fold F. fold N. unfold ci_poly.
      destruct (Nat.ltb_spec j N) as [_|]; [|lia]. destruct (Nat.ltb_spec (j + N) N) as [|_]; [lia|].
      destruct (Nat.eqb_spec (j + N) N) as [|_]; [lia|]. replace (2 * N - (j + N))%nat with (N - j)%nat by lia.
      apply eqm_eq. ring. }
    rewrite C3 by exact Hk. rewrite pow2_S. destruct k as [|k].
    - rewrite V by exact Hk. rewrite Rsum_1. fold N. cbn [Nat.add]. unfold ci_poly at 2. rewrite Nat.ltb_irrefl, Nat.eqb_refl.
      unfold ci_poly. destruct (Nat.ltb_spec 0 N); [|lia]. apply eqm_eq. ring.
    - rewrite !R by lia. replace (N - (N - S k))%nat with (S k) by lia.
      match goal with |- eqm q (?p * (?x - ?f * ?y) + ?f * (?p * (?y - ?f * ?x))) _ =>
        transitivity (p * (x - (f * f) * x)); [apply eqm_eq; ring|] end.
      rewrite S2. apply eqm_eq. ring.
  Qed.

  Lemma pow2S_cancel a b : eqm q (2 ^ Z.of_nat (S L) * a) (2 ^ Z.of_nat (S L) * b) -> eqm q a b.
  Proof. apply (pow2_cancel (S L) m ltac:(lia) Hwf). Qed.

  Lemma ci_inv_repr row X : 6 * q <= W -> ci_repr L m (2 * q) row X ->
    row_repr N q q (InvNTTConjugateInvariant row N (mpsiInv m) (mninv m) q (mqinv m)) X /\
    row_repr N q (2 * q) (InvNTTConjugateInvariantLazy row N (mpsiInv m) (mninv m) q (mqinv m)) X.
  Proof.
    intros H6 HX. assert (V := ci_inv_value row X H6 HX).
    unfold InvNTTConjugateInvariant, InvNTTConjugateInvariantLazy, MulScalarMontgomeryVec, MulScalarMontgomeryConstantVec.
    split; (eapply row_map; [|exact V]); intros k x Hk Hx E; destruct (ci_ninv_scale x H6 Hx) as (R1 & S1 & R2 & S2).
    - split; [exact R1|]. apply pow2S_cancel. rewrite S1. exact E.
    - split; [exact R2|]. apply pow2S_cancel. rewrite S2. exact E.
  Qed.

  Lemma ci_repr_exists row : 6 * q <= W -> length row = N -> below (2 * q) row ->
    ci_repr L m (2 * q) row (co (InvNTTConjugateInvariant row N (mpsiInv m) (mninv m) q (mqinv m))).
  Proof.
    intros H6 Hl Hb. pose proof (q_ge5 _ m Hwf) as G. fold q in G.
    split; [exact Hl|]. intros i Hi. fold N in Hi. split; [apply below_nth; [exact Hb|lia]|]. fold N. fold q.
    destruct (ci_core_spec row H6 Hl Hb) as ([A1 A2] & C1 & C2 & C3). cbv zeta in *.
    set (core := invNTTConjugateInvariantCore row N (mpsiInv m) q (mqinv m)) in *.
    set (xs := ci_inv_rounds L 1 (mpsiInv m) q (mqinv m) row) in *.
    set (c := co (InvNTTConjugateInvariant row N (mpsiInv m) (mninv m) q (mqinv m))).
    assert (Ec : forall k, (k < N)%nat -> eqm q (2 ^ Z.of_nat (S L) * c k) (nth k core 0)).
    { intros k Hk. unfold c, co, InvNTTConjugateInvariant, MulScalarMontgomeryVec. fold core.
      rewrite nth_map_lt by lia. apply ci_ninv_scale; [exact H6|]. apply below_nth; [exact C2|lia]. }
    assert (S2 := root_sq q (psi_of m) L (wf_psi _ m Hwf)).
    set (F := psi_of m ^ 2 ^ Z.of_nat L) in *.
    set (f := fun k => 2 ^ Z.of_nat L * ci_poly N c k).
    assert (Hf : forall j, (j < 2 ^ L)%nat -> eqm q (Rsum (psi_of m) f L 1 0 j) (nth j (ci_inv_rounds L (2 ^ 0) (mpsiInv m) q (mqinv m) row) 0)).
    { intros j Hj. change (2 ^ 0)%nat with 1%nat. fold xs. fold N in Hj. rewrite Rsum_1. fold F. fold N. unfold f.
      apply (eqm_cancel q _ _ 2); [lia|apply (odd_gcd_pow2 q 1); [apply (q_odd _ m Hwf)|lia]|].
      destruct j as [|j].
      - cbn [Nat.add]. unfold ci_poly at 2. rewrite Nat.ltb_irrefl, Nat.eqb_refl. unfold ci_poly. destruct (Nat.ltb_spec 0 N); [|lia].
        rewrite <- (C3 O) by exact Hj. rewrite <- Ec by exact Hj. rewrite pow2_S. apply eqm_eq. ring.
      - unfold ci_poly. destruct (Nat.ltb_spec (S j) N) as [_|]; [|lia]. destruct (Nat.ltb_spec (S j + N) N) as [|_]; [lia|].
        destruct (Nat.eqb_spec (S j + N) N) as [|_]; [lia|]. replace (2 * N - (S j + N))%nat with (N - S j)%nat by lia.
        assert (E1 := C3 (S j) Hj). rewrite <- Ec in E1 by exact Hj.
        assert (Hj' : (N - S j < N)%nat) by lia.
        assert (E2 := C3 (N - S j)%nat Hj'). rewrite <- Ec in E2 by exact Hj'.
        destruct (N - S j)%nat as [|j'] eqn:En; [lia|]. replace (N - S j')%nat with (S j) in E2 by lia.
        rewrite pow2_S in E1, E2.
        transitivity (2 * 2 ^ Z.of_nat L * c (S j) - F * (2 * 2 ^ Z.of_nat L * c (S j'))); [apply eqm_eq; ring|].
        rewrite E1, E2.
        match goal with |- eqm q (?x + ?f * ?y - ?f * (?y + ?f * ?x)) _ => transitivity (x - (f * f) * x); [apply eqm_eq; ring|] end.
        rewrite S2. apply eqm_eq. ring. }
    assert (O1 := ci_inv_rounds_onto q (mqinv m) (psi_of m) (psiInv_of m) L (mpsiInv m)
       ltac:(lia) H6 (q_odd _ m Hwf) (q_inv _ m Hwf) (wf_psi _ m Hwf) (wf_psiInv _ m Hwf) (wf_tblInv_len _ m Hwf) (wf_tblInv _ m Hwf)
       f L O row ltac:(lia) Hl Hb Hf i O Hi ltac:(cbn; lia)).
    replace (i * 2 ^ 0 + 0)%nat with i in O1 by (cbn [Nat.pow]; lia).
    apply (eqm_cancel q _ _ (2 ^ Z.of_nat L)); [lia|apply odd_gcd_pow2; [apply (q_odd _ m Hwf)|lia]|].
    rewrite <- O1. rewrite Rsum_final. unfold values. rewrite <- pt_rev.
    rewrite <- peval_scale. apply peval_peq; [|reflexivity]. intros k Hk. reflexivity.
  Qed.
End Row.
