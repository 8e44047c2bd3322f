(** The slots of the part of a polynomial in X^gap are averages of its slots; the coefficients are bounded by the slots. *)
From Coq Require Import Reals ZArith Lra Lia List Arith.
From Coquelicot Require Import Complex.
From Verif Require Import PolySpec PolyProofs FftSpec FftRing SlotSpec SlotProofs EncFft EncSlots.
Import ListNotations.
Open Scope R_scope.

Notation c0 := (RtoC 0).
Notation csum_ext := (sum_ext c0 Cplus).

Lemma half_twice (x : C) : Cmult (RtoC (/ 2)) (Cplus x x) = x.
Proof. unfold RtoC, Cmult, Cplus. destruct x as [a b]. cbn [fst snd]. f_equal; field. Qed.
Lemma cis_shift x c : cis (x + PI * INR (2 * c + 1)) = Copp (cis x).
Proof.
  rewrite plus_INR, mult_INR. cbn [INR]. replace (x + PI * ((1 + 1) * INR c + 1)) with ((x + PI) + 2 * PI * INR c) by ring.
  rewrite cis_period, cis_add, cis_PI. ring.
Qed.
Lemma cis_shift_even x c : cis (x + PI * INR (2 * c)) = cis x.
Proof. rewrite mult_INR. cbn [INR]. replace (x + PI * ((1 + 1) * INR c)) with (x + 2 * PI * INR c) by ring. apply cis_period. Qed.

(** One halving. *)
Lemma half_step m j p k : (j < m)%nat -> let N := (2 ^ (m + 1))%nat in
  slot N (in_gap (2 ^ S j) p) k = Cmult (RtoC (/ 2)) (Cplus (slot N (in_gap (2 ^ j) p) k) (slot N (in_gap (2 ^ j) p) (k + 2 ^ (m - 1 - j)))).
Proof.
  intros Hj N. unfold slot. rewrite <- csum_add, <- csum_scale. apply csum_ext. intros i Hi.
  assert (P2 : (2 ^ j <> 0)%nat) by (apply Nat.pow_nonzero; lia).
  unfold in_gap at 2 3. destruct (Nat.eqb_spec (i mod 2 ^ j) 0) as [E|E].
  - apply Nat.mod_divides in E; [|exact P2]. destruct E as [t ->].
    destruct (five_order (m - 1 - j)) as [c F]. destruct (odd_pow5 k) as [d D].
    assert (NE : (N = 2 ^ j * 2 ^ (m - 1 - j + 2))%nat) by (unfold N; rewrite <- Nat.pow_add_r; f_equal; lia).
    assert (A : PI * INR (5 ^ (k + 2 ^ (m - 1 - j)) * (2 ^ j * t)) / INR N = PI * INR (5 ^ k * (2 ^ j * t)) / INR N + PI * INR ((2 * d + 1) * (2 * c + 1) * t)).
    { rewrite Nat.pow_add_r, F, D. replace ((2 * d + 1) * (1 + 2 ^ (m - 1 - j + 2) * (2 * c + 1)) * (2 ^ j * t))%nat
        with ((2 * d + 1) * (2 ^ j * t) + N * ((2 * d + 1) * (2 * c + 1) * t))%nat by (rewrite NE; ring).
      rewrite plus_INR, (mult_INR N). assert (0 < INR N) by (unfold N; apply INR_pow2_pos). field. lra. }
    rewrite A. unfold in_gap. destruct (Nat.Even_or_Odd t) as [[u Hu]|[u Hu]].
    + subst t. replace (2 ^ j * (2 * u))%nat with (u * 2 ^ S j)%nat at 1 by (rewrite Nat.pow_succ_r'; ring). rewrite Nat.mod_mul by (apply Nat.pow_nonzero; lia). cbn [Nat.eqb].
      replace (2 ^ j * (2 * u))%nat with (u * 2 ^ S j)%nat by (rewrite Nat.pow_succ_r'; ring).
      replace ((2 * d + 1) * (2 * c + 1) * (2 * u))%nat with (2 * ((2 * d + 1) * (2 * c + 1) * u))%nat by ring. rewrite cis_shift_even.
      rewrite half_twice. reflexivity.
    + assert (M : ((2 ^ j * t) mod 2 ^ S j <> 0)%nat).
      { intros X. apply Nat.mod_divides in X; [|apply Nat.pow_nonzero; lia]. destruct X as [v X]. rewrite Nat.pow_succ_r' in X. assert (t = 2 * v)%nat by nia. lia. }
      rewrite (proj2 (Nat.eqb_neq _ _) M). subst t.
      replace ((2 * d + 1) * (2 * c + 1) * (2 * u + 1))%nat with (2 * (((2 * d + 1) * c + d) * (2 * u + 1) + u) + 1)%nat by ring. rewrite cis_shift. ring.
  - unfold in_gap. destruct (Nat.eqb_spec (i mod 2 ^ S j) 0) as [X|X]; [|ring]. exfalso. apply E.
    apply Nat.mod_divides in X; [|apply Nat.pow_nonzero; lia]. destruct X as [v ->]. rewrite Nat.pow_succ_r'. replace (2 * 2 ^ j * v)%nat with (2 * v * 2 ^ j)%nat by ring. apply Nat.mod_mul. exact P2.
Qed.

(** All slots of p are close to a function of period 2^L: so are those of its part in X^(2^(m-L)). *)
Lemma trace_near m L p (f : nat -> C) e : (L <= m)%nat -> let N := (2 ^ (m + 1))%nat in
  (forall k, f (k + 2 ^ L)%nat = f k) -> (forall k, Cmod (slot N p k - f k)%C <= e) -> forall k, Cmod (slot N (in_gap (2 ^ (m - L)) p) k - f k)%C <= e.
Proof.
  intros HL N Hf Hp.
  assert (PER : forall t k, f (k + t * 2 ^ L)%nat = f k).
  { induction t as [|t IH]; intros k; [rewrite Nat.add_0_r; reflexivity|]. replace (k + S t * 2 ^ L)%nat with ((k + t * 2 ^ L) + 2 ^ L)%nat by (cbn; lia). rewrite Hf. apply IH. }
  assert (IND : forall j, (j <= m - L)%nat -> forall k, Cmod (slot N (in_gap (2 ^ j) p) k - f k)%C <= e).
  { induction j as [|j IH]; intros Hj k.
    - replace (slot N (in_gap (2 ^ 0) p) k) with (slot N p k); [apply Hp|]. apply csum_ext. intros i Hi. unfold in_gap. rewrite Nat.mod_1_r. reflexivity.
    - assert (HS := half_step m j p k ltac:(lia)). cbv zeta in HS. fold N in HS. rewrite HS.
      set (a := slot N (in_gap (2 ^ j) p) k). set (b := slot N (in_gap (2 ^ j) p) (k + 2 ^ (m - 1 - j))).
      assert (A : Cmod (a - f k)%C <= e) by (apply IH; lia).
      assert (B : Cmod (b - f k)%C <= e).
      { replace (f k) with (f (k + 2 ^ (m - 1 - j))%nat); [apply IH; lia|]. replace (2 ^ (m - 1 - j))%nat with (2 ^ (m - 1 - j - L) * 2 ^ L)%nat by (rewrite <- Nat.pow_add_r; f_equal; lia). apply PER. }
      replace (RtoC (/ 2) * (a + b) - f k)%C with (RtoC (/ 2) * ((a - f k) + (b - f k)))%C.
      + rewrite Cmod_mult, Cmod_R, Rabs_pos_eq by lra. pose proof (Cmod_triangle (a - f k)%C (b - f k)%C). lra.
      + rewrite <- (half_twice (f k)) at 3. unfold Cminus. ring. }
  apply IND. lia.
Qed.

Lemma Cpw_mod x n : Cmod x = 1 -> Cmod (rpow (RtoC 1) Cmult x n) = 1.
Proof. intros H. induction n as [|n IH]; cbn [rpow]; [rewrite Cmod_R, Rabs_R1; reflexivity|]. rewrite Cmod_mult, H, IH. ring. Qed.

Lemma slot_Tn N i p k : (0 < N)%nat -> Cmod (slot N (Tn N i p) k) = Cmod (slot N p k).
Proof.
  intros HN. rewrite !slot_ev by exact HN. rewrite ev_Tn by (try apply pnt_N; exact HN). rewrite Cmod_mult, Cpw_mod; [ring|]. unfold pnt. apply Cmod_cis.
Qed.

(** The lowest and the middle coefficient. *)
Lemma ends_bound m p B : let N := (2 ^ (m + 1))%nat in (forall k, Cmod (slot N p k) <= B) -> Cmod ((IZR (p O), IZR (p (2 ^ m)%nat)) : C) <= B.
Proof.
  intros N H. assert (T := trace_near m 0 p (fun _ => c0) B ltac:(lia)). cbv zeta beta in T. fold N in T.
  specialize (T ltac:(reflexivity) ltac:(intros k; replace (slot N p k - c0)%C with (slot N p k) by (unfold Cminus; ring); apply H) 0%nat).
  replace (slot N (in_gap (2 ^ (m - 0)) p) 0 - c0)%C with (slot N (in_gap (2 ^ (m - 0)) p) 0) in T by (unfold Cminus; ring).
  rewrite Nat.sub_0_r in T. apply Rle_trans with (2 := T). apply Req_le. f_equal.
  assert (P2 : (0 < 2 ^ m)%nat) by (apply Nat.neq_0_lt_0, Nat.pow_nonzero; lia).
  unfold slot. replace N with (2 * 2 ^ m)%nat at 1 by (unfold N; rewrite Nat.add_comm; reflexivity).
  rewrite csum_sparse.
  - unfold csum. cbn [bsum]. rewrite Nat.pow_0_r, !Nat.mul_1_l, !Nat.mul_0_l. unfold in_gap. rewrite Nat.mod_0_l, Nat.mod_same by lia. cbn [Nat.eqb]. change (INR 0) with 0.
    replace (PI * INR (2 ^ m) / INR N) with (PI / 2).
    + rewrite cis_half. replace (PI * 0 / INR N) with 0 by (unfold Rdiv; ring). rewrite cis_0. unfold Ci, RtoC, Cplus, Cmult. cbn [fst snd]. f_equal; ring.
    + unfold N. rewrite Nat.add_comm. change (2 ^ (1 + m))%nat with (2 * 2 ^ m)%nat. rewrite mult_INR. change (INR 2) with 2. pose proof (INR_pow2_pos m). field. lra.
  - exact P2.
  - intros i _ Hi. unfold in_gap. rewrite (proj2 (Nat.eqb_neq _ _) Hi). ring.
Qed.
Lemma pairs_bound m p B : let N := (2 ^ (m + 1))%nat in (forall k, Cmod (slot N p k) <= B) -> forall i, (i < 2 ^ m)%nat -> Cmod ((IZR (p i), IZR (p (2 ^ m + i)%nat)) : C) <= B.
Proof.
  intros N H i Hi. assert (EN : (N = 2 * 2 ^ m)%nat) by (unfold N; rewrite Nat.add_comm; reflexivity).
  assert (E := ends_bound m (Tn N (N - i) p) B). cbv zeta in E. fold N in E. specialize (E ltac:(intros k; rewrite slot_Tn by lia; apply H)).
  rewrite !Tn_formula in E by lia. rewrite (proj2 (Nat.leb_gt _ _)) in E by lia. rewrite (proj2 (Nat.leb_gt _ _)) in E by lia.
  replace (N + 0 - (N - i))%nat with i in E by lia. replace (N + 2 ^ m - (N - i))%nat with (2 ^ m + i)%nat in E by lia.
  apply Rle_trans with (2 := E). apply Req_le. rewrite !opp_IZR. rewrite <- Cmod_opp. f_equal.
Qed.
Lemma coeff_bound m p B : let N := (2 ^ (m + 1))%nat in (forall k, Cmod (slot N p k) <= B) -> forall i, (i < N)%nat -> Rabs (IZR (p i)) <= B.
Proof.
  intros N H i Hi. assert (EN : (N = 2 * 2 ^ m)%nat) by (unfold N; rewrite Nat.add_comm; reflexivity).
  destruct (Nat.lt_ge_cases i (2 ^ m)) as [C|C].
  - apply Rle_trans with (2 := pairs_bound m p B H i C). apply (Cmod_fst (IZR _, IZR _)).
  - replace i with (2 ^ m + (i - 2 ^ m))%nat by lia. apply Rle_trans with (2 := pairs_bound m p B H (i - 2 ^ m) ltac:(lia)). apply (Cmod_snd (IZR _, IZR _)).
Qed.

(** The slots are bounded by the coefficients. *)
Lemma slot_bound N p B k : (forall i, (i < N)%nat -> (Z.abs (p i) <= B)%Z) -> Cmod (slot N p k) <= INR N * IZR B.
Proof.
  intros H. apply (Cmod_csum 0 0 (le_n 0)). intros i Hi. rewrite Cmod_mult, Cmod_cis, Cmod_R, Rmult_1_r, <- abs_IZR. apply IZR_le. apply H. exact Hi.
Qed.
Lemma slot_boundR N p B k : (forall i, (i < N)%nat -> Rabs (IZR (p i)) <= B) -> Cmod (slot N p k) <= INR N * B.
Proof. intros H. apply (Cmod_csum 0 0 (le_n 0)). intros i Hi. rewrite Cmod_mult, Cmod_cis, Cmod_R, Rmult_1_r. apply H. exact Hi. Qed.
