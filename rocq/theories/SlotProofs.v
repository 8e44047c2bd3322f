(** Slots: evaluation is a ring morphism, and the transform computes it. *)
From Coq Require Import Reals ZArith List Lia Lra Arith.
From Coquelicot Require Import Complex.
From Verif Require Import Word Arith PolySpec PolyProofs Fft FftSpec FftProofs FftRing FftTop SlotSpec.
Import ListNotations.
Local Open Scope nat_scope.

Notation Cpw := (rpow (RtoC 1) Cmult).
Notation c0 := (RtoC 0).
Notation c1 := (RtoC 1).

Lemma nth_map_seq {A} (f : nat -> A) n j d : j < n -> nth j (map f (seq 0 n)) d = f j.
Proof. intros H. rewrite (nth_indep _ d (f 0)) by (rewrite map_length, seq_length; exact H). rewrite map_nth, seq_nth by exact H. reflexivity. Qed.

(** ** Roots of unity *)
Lemma cis_add x y : cis (x + y)%R = Cmult (cis x) (cis y).
Proof. unfold cis, Cmult. cbn [fst snd]. rewrite cos_plus, sin_plus. f_equal; ring. Qed.
Lemma cis_0 : cis 0%R = c1.
Proof. unfold cis. rewrite cos_0, sin_0. reflexivity. Qed.
Lemma cis_pow x n : Cpw (cis x) n = cis (x * INR n)%R.
Proof.
  induction n as [|n IH]; [cbn [rpow]; cbn [INR]; rewrite Rmult_0_r, cis_0; reflexivity|].
  cbn [rpow]. rewrite IH, <- cis_add. f_equal. rewrite S_INR. ring.
Qed.
Lemma cis_PI : cis PI = Copp c1.
Proof. unfold cis, Copp, RtoC. cbn [fst snd]. rewrite cos_PI, sin_PI. f_equal. ring. Qed.
Lemma cis_period x n : cis (x + 2 * PI * INR n)%R = cis x.
Proof. unfold cis. rewrite <- (cos_period x n), <- (sin_period x n). f_equal; f_equal; ring. Qed.
Lemma cis_half : cis (PI / 2)%R = Ci.
Proof. unfold cis, Ci. rewrite cos_PI2, sin_PI2. reflexivity. Qed.
Lemma cis_opp x : cis (- x)%R = Cconj (cis x).
Proof. unfold cis, Cconj. cbn [fst snd]. rewrite cos_neg, sin_neg. reflexivity. Qed.
Lemma INR_pow2_pos n : (0 < INR (2 ^ n))%R.
Proof. apply lt_0_INR. apply Nat.neq_0_lt_0. apply Nat.pow_nonzero. lia. Qed.

Lemma exact_root_table m : root_table c0 c1 Cmult Copp (cis (2 * PI / INR (2 ^ (m + 2)))) (2 ^ (m + 2)) (exact_roots (2 ^ (m + 2))).
Proof.
  assert (P := INR_pow2_pos (m + 2)). split.
  - intros i Hi. unfold exact_roots. rewrite (nth_indep _ c0 (cis (2 * PI * INR 0 / INR (2 ^ (m + 2)))%R)) by (rewrite map_length, seq_length; lia).
    rewrite (map_nth (fun j => cis (2 * PI * INR j / INR (2 ^ (m + 2)))%R)). rewrite seq_nth by lia. rewrite cis_pow. f_equal. cbn [Nat.add]. field. lra.
  - replace (m + 2) with (S (m + 1)) in * by lia. rewrite div2_pow, cis_pow, <- cis_PI. f_equal. rewrite Nat.pow_succ_r', mult_INR in *. cbn [INR] in *. field.
    rewrite <- (Rmult_0_r (1 + 1)) in P. apply Rmult_lt_reg_l in P; lra.
Qed.

(** ** Evaluation of integer polynomials *)
Definition ev (N : nat) (p : poly) (x : C) : C := csum N (fun i => Cmult (RtoC (IZR (p i))) (Cpw x i)).
Notation csum_ext := (sum_ext c0 Cplus).

Lemma csum_add n f g : csum n (fun i => Cplus (f i) (g i)) = Cplus (csum n f) (csum n g).
Proof. unfold csum. induction n as [|n IH]; cbn [bsum]; [ring|]. rewrite IH. ring. Qed.
Lemma csum_scale n c f : csum n (fun i => Cmult c (f i)) = Cmult c (csum n f).
Proof. unfold csum. induction n as [|n IH]; cbn [bsum]; [ring|]. rewrite IH. ring. Qed.
Lemma csum_scale_r n c f : csum n (fun i => Cmult (f i) c) = Cmult (csum n f) c.
Proof. unfold csum. induction n as [|n IH]; cbn [bsum]; [ring|]. rewrite IH. ring. Qed.
Lemma csum_zero n : csum n (fun _ => c0) = c0.
Proof. unfold csum. induction n as [|n IH]; cbn [bsum]; [reflexivity|]. rewrite IH. ring. Qed.
Lemma csum_swap n k f : csum n (fun i => csum k (fun j => f i j)) = csum k (fun j => csum n (fun i => f i j)).
Proof.
  induction n as [|n IH]; [unfold csum at 1; cbn [bsum]; symmetry; apply csum_zero|].
  unfold csum at 1. cbn [bsum]. change (bsum c0 Cplus n (fun i => csum k (fun j => f i j))) with (csum n (fun i => csum k (fun j => f i j))). rewrite IH, <- csum_add. reflexivity.
Qed.
Lemma csum_S_l n f : csum (S n) f = Cplus (f 0) (csum n (fun i => f (S i))).
Proof.
  unfold csum. induction n as [|n IH]; [cbn [bsum]; ring|]. change (bsum c0 Cplus (S (S n)) f) with (Cplus (bsum c0 Cplus (S n) f) (f (S n))). rewrite IH. cbn [bsum]. ring.
Qed.
Lemma csum_split n k f : csum (n + k) f = Cplus (csum n f) (csum k (fun i => f (n + i))).
Proof. unfold csum. induction k as [|k IH]; [rewrite Nat.add_0_r; cbn [bsum]; ring|]. rewrite Nat.add_succ_r. cbn [bsum]. rewrite IH. ring. Qed.
Lemma csum_IZR n f : RtoC (IZR (bigsum n f)) = csum n (fun i => RtoC (IZR (f i))).
Proof. unfold csum. induction n as [|n IH]; cbn [bsum bigsum]; [reflexivity|]. rewrite plus_IZR, RtoC_plus, IH. reflexivity. Qed.

Lemma ev_ext N p q x : (forall k, k < N -> p k = q k) -> ev N p x = ev N q x.
Proof. intros H. apply csum_ext. intros i Hi. rewrite H by exact Hi. reflexivity. Qed.
Lemma ev_T N a x : 0 < N -> Cpw x N = Copp c1 -> ev N (T N a) x = Cmult x (ev N a x).
Proof.
  intros HN Hx. destruct N as [|n]; [lia|]. unfold ev. rewrite csum_S_l. unfold csum at 2. cbn [bsum T]. replace (S n - 1) with n by lia.
  change (bsum c0 Cplus n (fun i => Cmult (RtoC (IZR (a i))) (Cpw x i))) with (csum n (fun i => Cmult (RtoC (IZR (a i))) (Cpw x i))).
  rewrite (csum_ext n _ (fun i => Cmult x (Cmult (RtoC (IZR (a i))) (Cpw x i)))) by (intros i Hi; cbn [rpow]; ring).
  fold (csum n (fun i => Cmult x (Cmult (RtoC (IZR (a i))) (Cpw x i)))).
  rewrite csum_scale. cbn [rpow] in Hx |- *. rewrite opp_IZR, RtoC_opp.
  transitivity (Cplus (Cmult (RtoC (IZR (a n))) (Cmult x (Cpw x n))) (Cmult x (csum n (fun i => Cmult (RtoC (IZR (a i))) (Cpw x i))))); [rewrite Hx; ring|ring].
Qed.
Lemma ev_Tn N i a x : 0 < N -> Cpw x N = Copp c1 -> ev N (Tn N i a) x = Cmult (Cpw x i) (ev N a x).
Proof. intros HN Hx. induction i as [|i IH]; [cbn [rpow]; change (Tn N 0 a) with a; ring|]. rewrite Tn_S, ev_T by assumption. rewrite IH. cbn [rpow]. ring. Qed.
Lemma ev_mul N a b x : 0 < N -> Cpw x N = Copp c1 -> ev N (pmul N a b) x = Cmult (ev N a x) (ev N b x).
Proof.
  intros HN Hx. transitivity (csum N (fun i => Cmult (RtoC (IZR (a i))) (ev N (Tn N i b) x))).
  - unfold ev at 1. rewrite (csum_ext N _ (fun k => csum N (fun i => Cmult (RtoC (IZR (a i))) (Cmult (RtoC (IZR (Tn N i b k))) (Cpw x k))))).
    + fold (csum N (fun k => csum N (fun i => Cmult (RtoC (IZR (a i))) (Cmult (RtoC (IZR (Tn N i b k))) (Cpw x k))))).
      rewrite csum_swap. apply csum_ext. intros i Hi. rewrite csum_scale. reflexivity.
    + intros k Hk. rewrite pmul_Tn by exact Hk. rewrite csum_IZR, <- csum_scale_r. apply csum_ext. intros i Hi. rewrite mult_IZR, RtoC_mult. ring.
  - unfold ev at 2. rewrite <- csum_scale_r. apply csum_ext. intros i Hi. rewrite ev_Tn by assumption. ring.
Qed.
Lemma ev_add N a b x : ev N (padd a b) x = Cplus (ev N a x) (ev N b x).
Proof. unfold ev. rewrite <- csum_add. apply csum_ext. intros i Hi. unfold padd. rewrite plus_IZR, RtoC_plus. ring. Qed.
Lemma ev_one N x : 0 < N -> ev N pone x = c1.
Proof.
  intros HN. destruct N as [|n]; [lia|]. unfold ev. rewrite csum_S_l. rewrite (csum_ext n _ (fun _ => c0)).
  - fold (csum n (fun _ => c0)). rewrite csum_zero. cbn [rpow pone Nat.eqb]. ring.
  - intros i Hi. cbn [pone Nat.eqb]. ring.
Qed.
Lemma ev_auto N g a x : 0 < N -> Cpw x N = Copp c1 -> ev N (pauto N g a) x = ev N a (Cpw x g).
Proof.
  intros HN Hx. transitivity (csum N (fun i => Cmult (RtoC (IZR (a i))) (ev N (Tn N (g * i) pone) x))).
  - unfold ev at 1. rewrite (csum_ext N _ (fun k => csum N (fun i => Cmult (RtoC (IZR (a i))) (Cmult (RtoC (IZR (Tn N (g * i) pone k))) (Cpw x k))))).
    + fold (csum N (fun k => csum N (fun i => Cmult (RtoC (IZR (a i))) (Cmult (RtoC (IZR (Tn N (g * i) pone k))) (Cpw x k))))).
      rewrite csum_swap. apply csum_ext. intros i Hi. rewrite csum_scale. reflexivity.
    + intros k Hk. rewrite pauto_Tn by exact Hk. rewrite csum_IZR, <- csum_scale_r. apply csum_ext. intros i Hi. rewrite mult_IZR, RtoC_mult. ring.
  - apply csum_ext. intros i Hi. rewrite ev_Tn by assumption. rewrite ev_one by exact HN. rewrite (pow_mul _ _ _ _ _ _ C_ring_theory). ring.
Qed.

(** ** Slots *)
Definition pnt (N k : nat) : C := cis (PI * INR (5 ^ k) / INR N).
Lemma slot_ev N p k : 0 < N -> slot N p k = ev N p (pnt N k).
Proof.
  intros HN. assert (0 < INR N)%R by (apply lt_0_INR; exact HN). apply csum_ext. intros i Hi. unfold pnt. rewrite cis_pow. do 2 f_equal. rewrite mult_INR. field. lra.
Qed.
Lemma pnt_N N k : 0 < N -> Cpw (pnt N k) N = Copp c1.
Proof.
  intros HN. assert (0 < INR N)%R by (apply lt_0_INR; exact HN). unfold pnt. rewrite cis_pow. destruct (odd_pow5 k) as [c E].
  replace (PI * INR (5 ^ k) / INR N * INR N)%R with (PI + 2 * PI * INR c)%R.
  - rewrite cis_period. apply cis_PI.
  - rewrite E, plus_INR, mult_INR. cbn [INR]. field. lra.
Qed.
Lemma pnt_rot N k r : 0 < N -> Cpw (pnt N k) (5 ^ r) = pnt N (k + r).
Proof. intros HN. assert (0 < INR N)%R by (apply lt_0_INR; exact HN). unfold pnt. rewrite cis_pow. f_equal. rewrite Nat.pow_add_r, mult_INR. field. lra. Qed.

Lemma slot_add N a b k : 0 < N -> slot N (padd a b) k = Cplus (slot N a k) (slot N b k).
Proof. intros HN. rewrite !slot_ev by exact HN. apply ev_add. Qed.
Lemma slot_mul N a b k : 0 < N -> slot N (pmul N a b) k = Cmult (slot N a k) (slot N b k).
Proof. intros HN. rewrite !slot_ev by exact HN. apply ev_mul; [exact HN|apply pnt_N; exact HN]. Qed.
Lemma slot_rotate N a k r : 0 < N -> slot N (pauto N (5 ^ r) a) k = slot N a (k + r).
Proof. intros HN. rewrite !slot_ev by exact HN. rewrite ev_auto, pnt_rot by (try apply pnt_N; exact HN). reflexivity. Qed.
Lemma slot_period m a k : slot (2 ^ (m + 1)) a (k + 2 ^ m) = slot (2 ^ (m + 1)) a k.
Proof.
  assert (P : 0 < 2 ^ (m + 1)) by (apply Nat.neq_0_lt_0, Nat.pow_nonzero; lia). rewrite !slot_ev by exact P. f_equal. unfold pnt.
  destruct (five_order m) as [c E]. rewrite Nat.pow_add_r, E.
  rewrite <- (cis_period (PI * INR (5 ^ k) / INR (2 ^ (m + 1)))%R (5 ^ k * (2 * c + 1))). f_equal.
  replace (5 ^ k * (1 + 2 ^ (m + 2) * (2 * c + 1))) with (5 ^ k + 2 * 2 ^ (m + 1) * (5 ^ k * (2 * c + 1))) by (replace (m + 2) with (S (m + 1)) by lia; rewrite Nat.pow_succ_r'; ring).
  rewrite plus_INR, mult_INR, mult_INR. change (INR 2) with 2%R. assert (Q := INR_pow2_pos (m + 1)). field. lra.
Qed.
Lemma Cmult_conj x y : Cconj (Cmult x y) = Cmult (Cconj x) (Cconj y).
Proof. unfold Cconj, Cmult. cbn [fst snd]. f_equal; ring. Qed.
Lemma Cplus_conj x y : Cconj (Cplus x y) = Cplus (Cconj x) (Cconj y).
Proof. unfold Cconj, Cplus. cbn [fst snd]. f_equal; ring. Qed.
Lemma slot_conj N a k : 0 < N -> slot N (pauto N (2 * N - 1) a) k = Cconj (slot N a k).
Proof.
  intros HN. rewrite !slot_ev by exact HN. rewrite ev_auto by (try apply pnt_N; exact HN).
  assert (HP : (0 < INR N)%R) by (apply lt_0_INR; exact HN).
  assert (E : Cpw (pnt N k) (2 * N - 1) = Cconj (pnt N k)).
  { unfold pnt. rewrite cis_pow, <- cis_opp.
    rewrite <- (cis_period (- (PI * INR (5 ^ k) / INR N))%R (5 ^ k)). f_equal. rewrite minus_INR, mult_INR by lia. change (INR 2) with 2%R. change (INR 1) with 1%R. field. lra. }
  rewrite E. unfold ev, csum. clear E.
  assert (PC : forall i, Cpw (Cconj (pnt N k)) i = Cconj (Cpw (pnt N k) i)).
  { induction i as [|i IH]; cbn [rpow]; [unfold Cconj, RtoC; cbn; f_equal; ring|]. rewrite IH, Cmult_conj. reflexivity. }
  generalize N at 1 3. intros n. induction n as [|n IH]; cbn [bsum]; [unfold Cconj, RtoC; cbn; f_equal; ring|].
  rewrite IH, PC, Cplus_conj, Cmult_conj. f_equal. f_equal. unfold Cconj, RtoC. cbn. f_equal. ring.
Qed.

Lemma five_mod4 k : exists c, 5 ^ k = 4 * c + 1.
Proof. induction k as [|k [c IH]]; [exists 0; reflexivity|]. exists (5 * c + 1). rewrite Nat.pow_succ_r', IH. ring. Qed.

(** ** The transform *)
Lemma csum_sparse n gap f : 0 < gap -> (forall i, i < n * gap -> i mod gap <> 0 -> f i = c0) -> csum (n * gap) f = csum n (fun j => f (j * gap)).
Proof.
  intros Hg. induction n as [|n IH]; intros H; [reflexivity|]. replace (S n * gap) with (n * gap + gap) by lia. rewrite csum_split, IH by (intros i Hi; apply H; lia).
  unfold csum at 3. cbn [bsum]. f_equal. destruct gap as [|g]; [lia|]. rewrite csum_S_l. rewrite Nat.add_0_r. rewrite (csum_ext g _ (fun _ => c0)).
  - fold (csum g (fun _ => c0)). rewrite csum_zero. ring.
  - intros i Hi. apply H; [lia|]. rewrite Nat.add_comm, Nat.mod_add by lia. rewrite Nat.mod_small by lia. lia.
Qed.

Lemma transform_slots m L p : L <= m -> sparse (2 ^ (m + 1)) (2 ^ (m - L)) p ->
  SpecialFFTVec Cplus Cminus Cmult c0 (packed (2 ^ (m + 1)) (2 ^ L) p) (2 ^ L) (2 ^ (m + 2)) (rotGroup (2 ^ (m + 2))) (exact_roots (2 ^ (m + 2)))
  = map (slot (2 ^ (m + 1)) p) (seq 0 (2 ^ L)).
Proof.
  intros HL HS. set (N := 2 ^ (m + 1)). set (gap := 2 ^ (m - L)).
  assert (EG : N / (2 * 2 ^ L) = gap). { unfold N, gap. replace (m + 1) with (m - L + S L) by lia. rewrite Nat.pow_add_r, (Nat.pow_succ_r' 2 L). apply Nat.div_mul. assert (2 ^ L <> 0) by (apply Nat.pow_nonzero; lia). lia. }
  assert (EH : N / 2 = 2 ^ L * gap). { unfold N, gap. rewrite <- Nat.pow_add_r. replace (L + (m - L)) with m by lia. rewrite Nat.add_comm. change (1 + m) with (S m). rewrite Nat.pow_succ_r', Nat.mul_comm. apply Nat.div_mul. lia. }
  assert (HN : 0 < N) by (apply Nat.neq_0_lt_0, Nat.pow_nonzero; lia). assert (HG : 0 < gap) by (apply Nat.neq_0_lt_0, Nat.pow_nonzero; lia).
  assert (EN : N = (2 * 2 ^ L) * gap). { unfold N, gap. rewrite <- Nat.pow_succ_r', <- Nat.pow_add_r. f_equal. lia. }
  assert (LP : length (packed N (2 ^ L) p) = 2 ^ L) by (unfold packed; rewrite map_length, seq_length; reflexivity).
  assert (PK : forall j, j < 2 ^ L -> nth j (packed N (2 ^ L) p) c0 = (IZR (p (j * gap)), IZR (p (2 ^ L * gap + j * gap)))).
  { intros j Hj. unfold packed. rewrite nth_map_seq by exact Hj. rewrite EG, EH. reflexivity. }
  set (pk := packed N (2 ^ L) p) in *. clearbody pk.
  destruct (special_fft c0 c1 Cplus Cmult Cminus Copp C_ring_theory m L _ _ (exact_root_table m) HL pk) as [F1 [F2 _]]; [lia|].
  apply (NTTProofs.list_ext _ _ c0); [rewrite F1, map_length, seq_length; exact LP|]. intros k Hk. rewrite F1, LP in Hk. rewrite F2 by exact Hk.
  rewrite (nth_indep _ c0 (slot N p 0)) by (rewrite map_length, seq_length; exact Hk). rewrite map_nth, seq_nth by exact Hk. cbn [Nat.add].
  rewrite slot_ev by exact HN. unfold eval_poly, ev. rewrite EN. rewrite csum_sparse; [|exact HG|].
  2:{ intros i Hi Hm. rewrite HS; [ring| |exact Hm]. fold N. lia. }
  replace (2 * 2 ^ L) with (2 ^ L + 2 ^ L) by lia. rewrite csum_split, <- csum_add. apply csum_ext. intros j Hj.
  rewrite PK by exact Hj.
  assert (X : Cpw (cis (2 * PI / INR (2 ^ (m + 2)))) (gap * 5 ^ k) = Cpw (pnt ((2 ^ L + 2 ^ L) * gap) k) gap).
  { unfold pnt. rewrite !cis_pow. f_equal. replace (2 ^ L + 2 ^ L) with (2 * 2 ^ L) by lia. rewrite <- EN. unfold N. replace (m + 2) with (S (m + 1)) by lia.
    rewrite Nat.pow_succ_r', !mult_INR. change (INR 2) with 2%R. assert (Q := INR_pow2_pos (m + 1)). field. lra. }
  fold gap. rewrite X. rewrite <- (pow_mul _ _ _ _ _ _ C_ring_theory). rewrite (Nat.mul_comm gap j).
  rewrite (Nat.mul_add_distr_r (2 ^ L) j gap). rewrite (pow_add _ _ _ _ _ _ C_ring_theory (pnt _ k) (2 ^ L * gap)).
  assert (I : Cpw (pnt ((2 ^ L + 2 ^ L) * gap) k) (2 ^ L * gap) = Ci).
  { unfold pnt. rewrite cis_pow, <- cis_half. destruct (five_mod4 k) as [c E]. rewrite <- (cis_period (PI / 2)%R c). f_equal.
    replace ((2 ^ L + 2 ^ L) * gap) with (2 * (2 ^ L * gap)) by ring. rewrite E, mult_INR, plus_INR, (mult_INR 4). change (INR 2) with 2%R. replace (INR 4) with 4%R by (cbn [INR]; ring). change (INR 1) with 1%R.
    assert (0 < INR (2 ^ L * gap))%R by (apply lt_0_INR; assert (2 ^ L <> 0) by (apply Nat.pow_nonzero; lia); nia). field. lra. }
  rewrite I. set (w := Cpw _ (j * gap)). clearbody w. set (u := IZR _). set (v := IZR _). clearbody u v.
  replace ((u, v) : C) with (Cplus (RtoC u) (Cmult Ci (RtoC v))) by (unfold Cplus, Cmult, Ci, RtoC; cbn [fst snd]; f_equal; ring). ring.
Qed.
