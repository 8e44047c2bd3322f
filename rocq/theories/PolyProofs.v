(** Ring laws of the specification of Z[X]/(X^N+1). *)
From Verif Require Import Word Arith PolySpec.

(** ** Finite sums *)
Lemma bigsum_ext n f g : (forall i, (i < n)%nat -> f i = g i) -> bigsum n f = bigsum n g.
Proof.
  induction n as [|n IH]; intros H; cbn [bigsum]; [reflexivity|].
  rewrite IH by (intros; apply H; lia). rewrite H by lia. reflexivity.
Qed.

Lemma bigsum_eqm q n f g :
  (forall i, (i < n)%nat -> eqm q (f i) (g i)) -> eqm q (bigsum n f) (bigsum n g).
Proof.
  induction n as [|n IH]; intros H; cbn [bigsum]; [reflexivity|].
  rewrite IH by (intros; apply H; lia). rewrite H by lia. reflexivity.
Qed.

Lemma bigsum_0 n : bigsum n (fun _ => 0) = 0.
Proof. induction n as [|n IH]; cbn [bigsum]; lia. Qed.

Lemma bigsum_zero n f : (forall i, (i < n)%nat -> f i = 0) -> bigsum n f = 0.
Proof. intros H. rewrite <- (bigsum_0 n). apply bigsum_ext. assumption. Qed.

Lemma bigsum_add n f g : bigsum n (fun i => f i + g i) = bigsum n f + bigsum n g.
Proof. induction n as [|n IH]; cbn [bigsum]; lia. Qed.

Lemma bigsum_sub n f g : bigsum n (fun i => f i - g i) = bigsum n f - bigsum n g.
Proof. induction n as [|n IH]; cbn [bigsum]; lia. Qed.

Lemma bigsum_opp n f : bigsum n (fun i => - f i) = - bigsum n f.
Proof. induction n as [|n IH]; cbn [bigsum]; lia. Qed.

Lemma bigsum_scale n c f : bigsum n (fun i => c * f i) = c * bigsum n f.
Proof. induction n as [|n IH]; cbn [bigsum]; lia. Qed.

Lemma bigsum_scale_r n c f : bigsum n (fun i => f i * c) = bigsum n f * c.
Proof. induction n as [|n IH]; cbn [bigsum]; lia. Qed.

Lemma bigsum_swap n m f :
  bigsum n (fun i => bigsum m (fun j => f i j)) = bigsum m (fun j => bigsum n (fun i => f i j)).
Proof.
  induction n as [|n IH]; cbn [bigsum].
  - symmetry. apply bigsum_0.
  - rewrite IH, <- bigsum_add. reflexivity.
Qed.

Lemma bigsum_split n m f :
  bigsum (n + m) f = bigsum n f + bigsum m (fun i => f (n + i)%nat).
Proof.
  induction m as [|m IH].
  - rewrite Nat.add_0_r. cbn [bigsum]. lia.
  - rewrite Nat.add_succ_r. cbn [bigsum]. rewrite IH. lia.
Qed.

Lemma bigsum_S_l n f : bigsum (S n) f = f O + bigsum n (fun i => f (S i)).
Proof. rewrite (bigsum_split 1 n). cbn [bigsum Nat.add]. lia. Qed.

Lemma bigsum_single n j f :
  (j < n)%nat -> (forall i, (i < n)%nat -> i <> j -> f i = 0) -> bigsum n f = f j.
Proof.
  induction n as [|n IH]; intros Hj Hf; [lia|]. cbn [bigsum].
  destruct (Nat.eq_dec j n) as [->|Hn].
  - rewrite bigsum_zero; [lia|]. intros i Hi. apply Hf; lia.
  - rewrite IH; [rewrite (Hf n) by lia; lia|lia|]. intros i Hi Hij. apply Hf; lia.
Qed.

Lemma bigsum_double n f :
  bigsum (2 * n) f = bigsum n (fun i => f (2 * i)%nat) + bigsum n (fun i => f (2 * i + 1)%nat).
Proof.
  induction n as [|n IH]; [reflexivity|].
  replace (2 * S n)%nat with (S (S (2 * n))) by lia. cbn [bigsum]. rewrite IH.
  replace (2 * n + 1)%nat with (S (2 * n)) by lia. lia.
Qed.

Lemma bigsum_abs n f B : (forall i, (i < n)%nat -> Z.abs (f i) <= B) -> Z.abs (bigsum n f) <= Z.of_nat n * B.
Proof.
  induction n as [|n IH]; intros H; cbn [bigsum]; [lia|].
  assert (Z.abs (bigsum n f) <= Z.of_nat n * B) by (apply IH; intros; apply H; lia).
  assert (Z.abs (f n) <= B) by (apply H; lia). nia.
Qed.

(** ** Setoid structure *)
Lemma peq_at N q a b k : peq N q a b -> (k < N)%nat -> eqm q (a k) (b k).
Proof. intros H Hk. exact (H k Hk). Qed.

Global Instance peq_equiv N q : Equivalence (peq N q).
Proof.
  split.
  - intros a k _. reflexivity.
  - intros a b H k Hk. symmetry. apply H; assumption.
  - intros a b c H1 H2 k Hk. etransitivity; [apply H1|apply H2]; assumption.
Qed.

Global Instance padd_peq N q : Proper (peq N q ==> peq N q ==> peq N q) padd.
Proof. intros a b H c d H' k Hk. unfold padd. rewrite (peq_at _ _ _ _ k H Hk), (peq_at _ _ _ _ k H' Hk). reflexivity. Qed.
Global Instance psub_peq N q : Proper (peq N q ==> peq N q ==> peq N q) psub.
Proof. intros a b H c d H' k Hk. unfold psub. rewrite (peq_at _ _ _ _ k H Hk), (peq_at _ _ _ _ k H' Hk). reflexivity. Qed.
Global Instance popp_peq N q : Proper (peq N q ==> peq N q) popp.
Proof. intros a b H k Hk. unfold popp. rewrite (peq_at _ _ _ _ k H Hk). reflexivity. Qed.
Global Instance pscale_peq N q c : Proper (peq N q ==> peq N q) (pscale c).
Proof. intros a b H k Hk. unfold pscale. rewrite (peq_at _ _ _ _ k H Hk). reflexivity. Qed.
Global Instance pmul_peq N q : Proper (peq N q ==> peq N q ==> peq N q) (pmul N).
Proof.
  intros a b H c d H' k Hk. unfold pmul. apply bigsum_eqm. intros i Hi.
  rewrite (peq_at _ _ _ _ i H Hi).
  destruct (Nat.leb_spec i k);
  [rewrite (peq_at _ _ _ _ (k - i) H') by lia|rewrite (peq_at _ _ _ _ (N + k - i) H') by lia]; reflexivity.
Qed.
Global Instance peval_peq N q : Proper (peq N q ==> eq ==> eqm q) (peval N).
Proof.
  intros a b H r r' <-. unfold peval. apply bigsum_eqm. intros i Hi.
  rewrite (peq_at _ _ _ _ i H Hi). reflexivity.
Qed.
Global Instance pauto_peq N q g : Proper (peq N q ==> peq N q) (pauto N g).
Proof.
  intros a b H k Hk. unfold pauto. apply bigsum_eqm. intros i Hi.
  rewrite (peq_at _ _ _ _ i H Hi). reflexivity.
Qed.
Lemma psum_peq N q n F G :
  (forall j, (j < n)%nat -> peq N q (F j) (G j)) -> peq N q (psum n F) (psum n G).
Proof. intros H k Hk. unfold psum. apply bigsum_eqm. intros j Hj. apply H; assumption. Qed.

Lemma peq_dvd N q q' a b : q <> 0 -> (q' | q) -> peq N q a b -> peq N q' a b.
Proof. intros Hq Hd H k Hk. eapply eqm_dvd; [exact Hq|exact Hd|apply H; assumption]. Qed.

Lemma peq_exact N q a b : (forall k, (k < N)%nat -> a k = b k) -> peq N q a b.
Proof. intros H k Hk. rewrite H by assumption. reflexivity. Qed.

Lemma eqm_0 a b : eqm 0 a b <-> a = b.
Proof. unfold eqm. rewrite !Zmod_0_r. reflexivity. Qed.

Lemma peq_0 N q a b : peq N 0 a b -> peq N q a b.
Proof. intros H k Hk. apply eqm_eq. apply eqm_0. apply H; assumption. Qed.

(** ** The shift operator and the commutative ring structure *)
Definition T (N : nat) (a : poly) : poly := fun k =>
  match k with O => - a (N - 1)%nat | S k' => a k' end.

Definition Tn (N i : nat) (a : poly) : poly := Nat.iter i (T N) a.

Lemma Tn_S N i a : Tn N (S i) a = T N (Tn N i a).
Proof. reflexivity. Qed.

Lemma Tn_add N i j a : Tn N (i + j) a = Tn N i (Tn N j a).
Proof. unfold Tn. induction i as [|i IH]; simpl; [reflexivity|]. rewrite IH. reflexivity. Qed.

Lemma Tn_formula N i a k :
  (i <= N)%nat -> (k < N)%nat ->
  Tn N i a k = if Nat.leb i k then a (k - i)%nat else - a (N + k - i)%nat.
Proof.
  revert k. induction i as [|i IH]; intros k Hi Hk.
  - cbn. f_equal. lia.
  - rewrite Tn_S. destruct k as [|k]; cbn [T].
    + rewrite IH by lia. destruct (Nat.leb_spec i (N - 1)); [|lia].
      cbn [Nat.leb]. f_equal. f_equal. lia.
    + rewrite IH by lia. cbn [Nat.leb].
      destruct (Nat.leb_spec i k); [f_equal; lia|]. f_equal. f_equal. lia.
Qed.

Lemma pmul_Tn N a b k : (k < N)%nat -> pmul N a b k = bigsum N (fun i => a i * Tn N i b k).
Proof.
  intros Hk. apply bigsum_ext. intros i Hi. rewrite Tn_formula by lia. reflexivity.
Qed.

(** Two functions that agree below N. *)
Notation peqx N := (peq N 0).

Lemma peqx_intro N a b : (forall k, (k < N)%nat -> a k = b k) -> peqx N a b.
Proof. apply peq_exact. Qed.

Lemma peqx_elim N a b k : peqx N a b -> (k < N)%nat -> a k = b k.
Proof. intros H Hk. apply eqm_0. apply H; assumption. Qed.

Global Instance T_peq N q : Proper (peq N q ==> peq N q) (T N).
Proof.
  intros a b H k Hk. destruct k as [|k]; cbn [T].
  - rewrite (peq_at _ _ _ _ (N - 1) H) by lia. reflexivity.
  - apply H. lia.
Qed.

Global Instance Tn_peq N q i : Proper (peq N q ==> peq N q) (Tn N i).
Proof. intros a b H. induction i as [|i IH]; [exact H|]. rewrite !Tn_S. rewrite IH. reflexivity. Qed.

Lemma T_lin N n c F k :
  T N (fun k => bigsum n (fun j => c j * F j k)) k = bigsum n (fun j => c j * T N (F j) k).
Proof.
  destruct k as [|k]; cbn [T]; [|reflexivity].
  rewrite <- bigsum_opp. apply bigsum_ext. intros. lia.
Qed.

Lemma T_ext N a b k : (forall k, a k = b k) -> T N a k = T N b k.
Proof. intros H. destruct k; cbn [T]; rewrite H; reflexivity. Qed.

Lemma Tn_lin N i n c F k :
  Tn N i (fun k => bigsum n (fun j => c j * F j k)) k = bigsum n (fun j => c j * Tn N i (F j) k).
Proof.
  revert k. induction i as [|i IH]; intros k; [reflexivity|].
  rewrite Tn_S. rewrite (T_ext N _ _ k IH). rewrite T_lin. reflexivity.
Qed.

Lemma pmul_swap N q a b c : peq N q (pmul N a (pmul N b c)) (pmul N b (pmul N a c)).
Proof.
  apply peq_exact. intros k Hk.
  assert (G : forall a b, pmul N a (pmul N b c) k =
     bigsum N (fun i => bigsum N (fun j => a i * b j * Tn N (i + j) c k))).
  { intros a' b'. rewrite pmul_Tn by assumption. apply bigsum_ext. intros i Hi.
    rewrite <- (bigsum_ext N (fun j => a' i * (b' j * Tn N (i + j) c k))) by (intros; ring).
    rewrite bigsum_scale. f_equal.
    assert (E : peqx N (pmul N b' c) (fun k => bigsum N (fun j => b' j * Tn N j c k)))
      by (apply peqx_intro; intros; apply pmul_Tn; assumption).
    rewrite (peqx_elim N _ _ k (Tn_peq N 0 i _ _ E) Hk). rewrite Tn_lin.
    apply bigsum_ext. intros j Hj. rewrite Tn_add. reflexivity. }
  rewrite (G a b), (G b a). rewrite bigsum_swap.
  apply bigsum_ext. intros i Hi. apply bigsum_ext. intros j Hj.
  rewrite (Nat.add_comm j i). ring.
Qed.

Lemma Tn_pone N i k : (i < N)%nat -> (k < N)%nat -> Tn N i pone k = if Nat.eqb k i then 1 else 0.
Proof.
  intros Hi Hk. rewrite Tn_formula by lia. unfold pone.
  destruct (Nat.leb_spec i k).
  - destruct (Nat.eqb_spec k i); destruct (Nat.eqb_spec (k - i) 0); lia.
  - destruct (Nat.eqb_spec (N + k - i) 0); destruct (Nat.eqb_spec k i); lia.
Qed.

Lemma pmul_1_r N q a : peq N q (pmul N a pone) a.
Proof.
  apply peq_exact. intros k Hk. rewrite pmul_Tn by assumption.
  rewrite (bigsum_single N k).
  - rewrite Tn_pone by assumption. rewrite Nat.eqb_refl. lia.
  - assumption.
  - intros i Hi Hik. rewrite Tn_pone by assumption.
    destruct (Nat.eqb_spec k i); [congruence|lia].
Qed.

Lemma pmul_comm N q a b : peq N q (pmul N a b) (pmul N b a).
Proof.
  rewrite <- (pmul_1_r N q b) at 1. rewrite pmul_swap. rewrite (pmul_1_r N q a). reflexivity.
Qed.

Lemma pmul_assoc N q a b c : peq N q (pmul N a (pmul N b c)) (pmul N (pmul N a b) c).
Proof.
  rewrite (pmul_comm N q b c). rewrite pmul_swap. rewrite (pmul_comm N q c). reflexivity.
Qed.

Lemma pmul_1_l N q a : peq N q (pmul N pone a) a.
Proof. rewrite pmul_comm. apply pmul_1_r. Qed.

Lemma pmul_add_l N q a b c : peq N q (pmul N (padd a b) c) (padd (pmul N a c) (pmul N b c)).
Proof.
  apply peq_exact. intros k Hk. unfold pmul, padd. rewrite <- bigsum_add.
  apply bigsum_ext. intros. ring.
Qed.

Lemma poly_ring N q : ring_theory pzero pone padd (pmul N) psub popp (peq N q).
Proof.
  constructor; intros.
  - apply peq_exact; intros; unfold padd, pzero; lia.
  - apply peq_exact; intros; unfold padd; lia.
  - apply peq_exact; intros; unfold padd; lia.
  - apply pmul_1_l.
  - apply pmul_comm.
  - apply pmul_assoc.
  - apply pmul_add_l.
  - apply peq_exact; intros; unfold psub, padd, popp; lia.
  - apply peq_exact; intros; unfold padd, popp, pzero; lia.
Qed.

Lemma poly_ring_ext N q : ring_eq_ext padd (pmul N) popp (peq N q).
Proof.
  constructor.
  - intros a b H c d H'. rewrite H, H'. reflexivity.
  - intros a b H c d H'. rewrite H, H'. reflexivity.
  - intros a b H. rewrite H. reflexivity.
Qed.

(** ** Scaling by constants *)
Lemma pscale_pmul_l N q c a b : peq N q (pmul N (pscale c a) b) (pscale c (pmul N a b)).
Proof.
  apply peq_exact. intros k Hk. unfold pmul, pscale. rewrite <- bigsum_scale.
  apply bigsum_ext. intros. ring.
Qed.

Lemma pscale_pmul_r N q c a b : peq N q (pmul N a (pscale c b)) (pscale c (pmul N a b)).
Proof. rewrite pmul_comm, pscale_pmul_l, (pmul_comm N q b a). reflexivity. Qed.

Lemma pscale_add N q c a b : peq N q (pscale c (padd a b)) (padd (pscale c a) (pscale c b)).
Proof. apply peq_exact. intros. unfold pscale, padd. ring. Qed.

Lemma pscale_one N q c a : peq N q (pmul N (pscale c pone) a) (pscale c a).
Proof. rewrite pscale_pmul_l, pmul_1_l. reflexivity. Qed.

Lemma pscale_peq_eqm N q c c' a b :
  eqm q c c' -> peq N q a b -> peq N q (pscale c a) (pscale c' b).
Proof. intros Hc H k Hk. unfold pscale. rewrite Hc, (peq_at _ _ _ _ k H Hk). reflexivity. Qed.

Lemma pscale_pscale N q c d a : peq N q (pscale c (pscale d a)) (pscale (c * d) a).
Proof. apply peq_exact. intros. unfold pscale. ring. Qed.

Lemma pscale_cancel N q c a b :
  q <> 0 -> Z.gcd c q = 1 -> peq N q (pscale c a) (pscale c b) -> peq N q a b.
Proof. intros Hq Hg H k Hk. apply (eqm_cancel q _ _ c); auto. apply H; assumption. Qed.

(** ** Sums of polynomials *)
Lemma pmul_psum_l N q n F b : peq N q (pmul N (psum n F) b) (psum n (fun j => pmul N (F j) b)).
Proof.
  apply peq_exact. intros k Hk. unfold pmul, psum. rewrite bigsum_swap.
  apply bigsum_ext. intros i Hi. rewrite <- bigsum_scale_r. reflexivity.
Qed.

Lemma pmul_psum_r N q n F b : peq N q (pmul N b (psum n F)) (psum n (fun j => pmul N b (F j))).
Proof.
  rewrite pmul_comm, pmul_psum_l. apply psum_peq. intros. apply pmul_comm.
Qed.

Lemma psum_add N q n F G : peq N q (psum n (fun j => padd (F j) (G j))) (padd (psum n F) (psum n G)).
Proof. apply peq_exact. intros. unfold psum, padd. apply bigsum_add. Qed.

Lemma psum_scale N q n c F : peq N q (psum n (fun j => pscale c (F j))) (pscale c (psum n F)).
Proof. apply peq_exact. intros. unfold psum, pscale. apply bigsum_scale. Qed.

(** ** Norms *)
Lemma pmul_bound N A B a b :
  0 <= A -> 0 <= B -> pbound N A a -> pbound N B b -> pbound N (Z.of_nat N * (A * B)) (pmul N a b).
Proof.
  intros HA HB Ha Hb k Hk. unfold pmul. apply bigsum_abs. intros i Hi.
  rewrite Z.abs_mul. pose proof (Ha i Hi).
  assert (Z.abs (if Nat.leb i k then b (k - i)%nat else - b (N + k - i)%nat) <= B).
  { destruct (Nat.leb_spec i k); rewrite ?Z.abs_opp; apply Hb; lia. }
  apply Z.mul_le_mono_nonneg; lia.
Qed.

Lemma psum_bound N n B F :
  (forall j, (j < n)%nat -> pbound N B (F j)) -> pbound N (Z.of_nat n * B) (psum n F).
Proof. intros H k Hk. unfold psum. apply bigsum_abs. intros j Hj. apply H; assumption. Qed.

(** ** Evaluation is multiplicative at roots of X^N+1 *)
Lemma peval_T N q a r :
  (0 < N)%nat -> eqm q (r ^ Z.of_nat N) (-1) -> eqm q (peval N (T N a) r) (r * peval N a r).
Proof.
  intros HN Hr. destruct N as [|n]; [lia|]. unfold peval.
  rewrite bigsum_S_l. cbn [T bigsum]. replace (S n - 1)%nat with n by lia.
  rewrite Z.pow_0_r, Z.mul_1_r.
  rewrite Z.mul_add_distr_l, <- bigsum_scale.
  rewrite (bigsum_ext n (fun i => a i * r ^ Z.of_nat (S i)) (fun i => r * (a i * r ^ Z.of_nat i))).
  - replace (r * (a n * r ^ Z.of_nat n)) with (a n * r ^ Z.of_nat (S n)).
    + rewrite Hr. apply eqm_eq. ring.
    + rewrite Nat2Z.inj_succ, Z.pow_succ_r by lia. ring.
  - intros i Hi. rewrite Nat2Z.inj_succ, Z.pow_succ_r by lia. ring.
Qed.

Lemma peval_Tn N q i a r :
  (0 < N)%nat -> eqm q (r ^ Z.of_nat N) (-1) ->
  eqm q (peval N (Tn N i a) r) (r ^ Z.of_nat i * peval N a r).
Proof.
  intros HN Hr. induction i as [|i IH].
  - change (Tn N 0 a) with a. rewrite Z.pow_0_r, Z.mul_1_l. reflexivity.
  - rewrite Tn_S, peval_T by assumption. rewrite IH.
    rewrite Nat2Z.inj_succ, Z.pow_succ_r by lia. apply eqm_eq. ring.
Qed.

Lemma peval_mul N q a b r :
  (0 < N)%nat -> eqm q (r ^ Z.of_nat N) (-1) ->
  eqm q (peval N (pmul N a b) r) (peval N a r * peval N b r).
Proof.
  intros HN Hr.
  assert (E : peval N (pmul N a b) r = bigsum N (fun i => a i * peval N (Tn N i b) r)).
  { unfold peval.
    rewrite (bigsum_ext N (fun k => pmul N a b k * r ^ Z.of_nat k)
              (fun k => bigsum N (fun i => a i * Tn N i b k * r ^ Z.of_nat k))).
    - rewrite bigsum_swap. apply bigsum_ext. intros i Hi. rewrite <- bigsum_scale.
      apply bigsum_ext. intros. ring.
    - intros k Hk. rewrite pmul_Tn by assumption. rewrite <- bigsum_scale_r. reflexivity. }
  rewrite E.
  rewrite (bigsum_eqm q N _ (fun i => a i * r ^ Z.of_nat i * peval N b r)).
  - rewrite bigsum_scale_r. reflexivity.
  - intros i Hi. rewrite peval_Tn by assumption. apply eqm_eq. ring.
Qed.

Lemma peval_add N a b r : peval N (padd a b) r = peval N a r + peval N b r.
Proof. unfold peval, padd. rewrite <- bigsum_add. apply bigsum_ext. intros. ring. Qed.
Lemma peval_sub N a b r : peval N (psub a b) r = peval N a r - peval N b r.
Proof. unfold peval, psub. rewrite <- bigsum_sub. apply bigsum_ext. intros. ring. Qed.
Lemma peval_opp N a r : peval N (popp a) r = - peval N a r.
Proof. unfold peval, popp. rewrite <- bigsum_opp. apply bigsum_ext. intros. ring. Qed.
Lemma peval_scale N c a r : peval N (pscale c a) r = c * peval N a r.
Proof. unfold peval, pscale. rewrite <- bigsum_scale. apply bigsum_ext. intros. ring. Qed.
Lemma peval_psum N n F r : peval N (psum n F) r = bigsum n (fun j => peval N (F j) r).
Proof.
  unfold peval, psum. rewrite bigsum_swap. apply bigsum_ext. intros k Hk.
  rewrite <- bigsum_scale_r. reflexivity.
Qed.

(** ** Automorphisms *)
Lemma Tn_N N a k : (0 < N)%nat -> (k < N)%nat -> Tn N N a k = - a k.
Proof. intros HN Hk. rewrite Tn_formula by lia. destruct (Nat.leb_spec N k); [lia|]. f_equal. f_equal. lia. Qed.

(** X^m is the m-fold shift of 1. *)
Lemma pmono_Tn N m k : (0 < N)%nat -> (k < N)%nat -> pmono N m k = Tn N m pone k.
Proof.
  intros HN Hk.
  pose proof (Nat.div_mod m N ltac:(lia)) as Hm.
  assert (Hr : (m mod N < N)%nat) by (apply Nat.mod_upper_bound; lia).
  unfold pmono. set (c := (m / N)%nat) in *. set (r := (m mod N)%nat) in *.
  rewrite Hm. clearbody c r. clear Hm m.
  assert (G : forall c k, (k < N)%nat ->
     Tn N (N * c + r) pone k = (if Nat.even c then 1 else -1) * (if Nat.eqb k r then 1 else 0)).
  { clear c k Hk. induction c as [|c IH]; intros k Hk.
    - rewrite Nat.mul_0_r. cbn [Nat.add]. rewrite Tn_pone by assumption. cbn [Nat.even]. lia.
    - replace (N * S c + r)%nat with (N + (N * c + r))%nat by lia.
      rewrite Tn_add, Tn_N by assumption. rewrite IH by assumption.
      rewrite Nat.even_succ, <- Nat.negb_even. destruct (Nat.even c); cbn [negb]; lia. }
  rewrite G by assumption.
  destruct (Nat.eqb k r); destruct (Nat.even c); lia.
Qed.

Lemma pauto_Tn N g a k :
  (k < N)%nat -> pauto N g a k = bigsum N (fun i => a i * Tn N (g * i) pone k).
Proof. intros Hk. apply bigsum_ext. intros i Hi. rewrite pmono_Tn by lia. reflexivity. Qed.

Lemma Tn_odd_N N g a k : (0 < N)%nat -> Nat.odd g = true -> (k < N)%nat -> Tn N (g * N) a k = - a k.
Proof.
  intros HN Hg. revert k.
  destruct (proj1 (Nat.odd_spec g) Hg) as [h ->]. clear Hg.
  induction h as [|h IH]; intros k Hk.
  - cbn [Nat.mul Nat.add]. rewrite Nat.add_0_r. apply Tn_N; assumption.
  - replace ((2 * S h + 1) * N)%nat with (N + (N + (2 * h + 1) * N))%nat by lia.
    rewrite Tn_add, Tn_N, Tn_add, Tn_N by assumption. rewrite IH by assumption. lia.
Qed.

(** The automorphism turns one shift into g shifts. *)
Lemma pauto_T N q g a :
  (0 < N)%nat -> Nat.odd g = true -> peq N q (pauto N g (T N a)) (Tn N g (pauto N g a)).
Proof.
  intros HN Hg. apply peq_exact. intros k Hk.
  assert (E : peqx N (pauto N g a) (fun k => bigsum N (fun i => a i * Tn N (g * i) pone k)))
    by (apply peqx_intro; intros; apply pauto_Tn; assumption).
  rewrite (peqx_elim N _ _ k (Tn_peq N 0 g _ _ E) Hk). rewrite Tn_lin.
  rewrite pauto_Tn by assumption.
  destruct N as [|n]; [lia|]. rewrite bigsum_S_l. cbn [T].
  replace (S n - 1)%nat with n by lia. rewrite Nat.mul_0_r. change (Tn (S n) 0 pone) with pone.
  cbn [bigsum]. rewrite Z.add_comm. f_equal.
  - apply bigsum_ext. intros i Hi. f_equal. rewrite <- Tn_add. f_equal. lia.
  - rewrite <- Tn_add. replace (g + g * n)%nat with (g * S n)%nat by lia.
    rewrite Tn_odd_N by (try assumption; lia). lia.
Qed.

Lemma pauto_Tn_comm N q g i a :
  (0 < N)%nat -> Nat.odd g = true -> peq N q (pauto N g (Tn N i a)) (Tn N (g * i) (pauto N g a)).
Proof.
  intros HN Hg. induction i as [|i IH].
  - rewrite Nat.mul_0_r. reflexivity.
  - rewrite Tn_S, pauto_T by assumption. rewrite IH.
    replace (g * S i)%nat with (g + g * i)%nat by lia. rewrite Tn_add. reflexivity.
Qed.

Lemma pauto_add N q g a b : peq N q (pauto N g (padd a b)) (padd (pauto N g a) (pauto N g b)).
Proof.
  apply peq_exact. intros k Hk. unfold pauto, padd. rewrite <- bigsum_add.
  apply bigsum_ext. intros. ring.
Qed.
Lemma pauto_opp N q g a : peq N q (pauto N g (popp a)) (popp (pauto N g a)).
Proof.
  apply peq_exact. intros k Hk. unfold pauto, popp. rewrite <- bigsum_opp.
  apply bigsum_ext. intros. ring.
Qed.
Lemma pauto_scale N q g c a : peq N q (pauto N g (pscale c a)) (pscale c (pauto N g a)).
Proof.
  apply peq_exact. intros k Hk. unfold pauto, pscale. rewrite <- bigsum_scale.
  apply bigsum_ext. intros. ring.
Qed.

Lemma Tn_pmul N q i a b : peq N q (Tn N i (pmul N a b)) (pmul N a (Tn N i b)).
Proof.
  apply peq_exact. intros k Hk.
  assert (E : peqx N (pmul N a b) (fun k => bigsum N (fun j => a j * Tn N j b k)))
    by (apply peqx_intro; intros; apply pmul_Tn; assumption).
  rewrite (peqx_elim N _ _ k (Tn_peq N 0 i _ _ E) Hk). rewrite Tn_lin.
  rewrite pmul_Tn by assumption. apply bigsum_ext. intros j Hj.
  rewrite <- !Tn_add. rewrite Nat.add_comm. reflexivity.
Qed.

Lemma pauto_mul N q g a b :
  (0 < N)%nat -> Nat.odd g = true ->
  peq N q (pauto N g (pmul N a b)) (pmul N (pauto N g a) (pauto N g b)).
Proof.
  intros HN Hg. apply peq_exact. intros k Hk.
  assert (L : pauto N g (pmul N a b) k =
     bigsum N (fun i => a i * pauto N g (Tn N i b) k)).
  { unfold pauto at 1.
    rewrite (bigsum_ext N _ (fun j => bigsum N (fun i => a i * (Tn N i b j * pmono N (g * j) k)))).
    - rewrite bigsum_swap. apply bigsum_ext. intros i Hi. rewrite bigsum_scale. reflexivity.
    - intros j Hj. rewrite pmul_Tn by assumption. rewrite <- bigsum_scale_r.
      apply bigsum_ext. intros. ring. }
  assert (R : pmul N (pauto N g a) (pauto N g b) k =
     bigsum N (fun i => a i * Tn N (g * i) (pauto N g b) k)).
  { rewrite (peqx_elim N _ _ k (pmul_comm N 0 _ _) Hk).
    assert (E : peqx N (pauto N g a) (fun k => bigsum N (fun i => a i * Tn N (g * i) pone k)))
      by (apply peqx_intro; intros; apply pauto_Tn; assumption).
    rewrite (peqx_elim N _ _ k (pmul_peq N 0 _ _ (reflexivity _) _ _ E) Hk).
    unfold pmul.
    rewrite (bigsum_ext N _ (fun j => bigsum N (fun i => a i * (pauto N g b j *
        (if Nat.leb j k then Tn N (g * i) pone (k - j)%nat
         else - Tn N (g * i) pone (N + k - j)%nat))))).
    - rewrite bigsum_swap. apply bigsum_ext. intros i Hi. rewrite bigsum_scale. f_equal.
      change (bigsum N _) with (pmul N (pauto N g b) (Tn N (g * i) pone) k).
      rewrite <- (peqx_elim N _ _ k (Tn_pmul N 0 (g * i) _ _) Hk).
      apply (peqx_elim N); [|assumption]. apply Tn_peq. apply pmul_1_r.
    - intros j Hj. cbv beta. destruct (Nat.leb j k).
      + rewrite <- bigsum_scale. apply bigsum_ext; intros; ring.
      + rewrite <- bigsum_opp, <- bigsum_scale. apply bigsum_ext; intros; ring. }
  rewrite L, R. apply bigsum_ext. intros i Hi. f_equal.
  apply (peqx_elim N); [|assumption]. apply pauto_Tn_comm; assumption.
Qed.

Lemma pauto_one N q g : (0 < N)%nat -> peq N q (pauto N g pone) pone.
Proof.
  intros HN. apply peq_exact. intros k Hk. rewrite pauto_Tn by assumption.
  rewrite (bigsum_single N 0); [|lia|].
  2:{ intros i Hi Hi0. unfold pone at 1. destruct (Nat.eqb_spec i 0); [contradiction|lia]. }
  rewrite Nat.mul_0_r. unfold pone at 1. cbn [Nat.eqb]. change (Tn N 0 pone) with pone. lia.
Qed.

Lemma pauto_mono N q g m :
  (0 < N)%nat -> Nat.odd g = true -> peq N q (pauto N g (Tn N m pone)) (Tn N (g * m) pone).
Proof. intros HN Hg. rewrite pauto_Tn_comm by assumption. rewrite pauto_one by assumption. reflexivity. Qed.

(** Composition of automorphisms. *)
Lemma pauto_comp N q g h a :
  (0 < N)%nat -> Nat.odd g = true -> peq N q (pauto N g (pauto N h a)) (pauto N (g * h) a).
Proof.
  intros HN Hg. apply peq_exact. intros k Hk.
  unfold pauto at 1.
  rewrite (bigsum_ext N _ (fun j => bigsum N (fun i => a i * (Tn N (h * i) pone j * pmono N (g * j) k)))).
  - rewrite bigsum_swap. rewrite pauto_Tn by assumption. apply bigsum_ext. intros i Hi.
    rewrite bigsum_scale. f_equal.
    change (pauto N g (Tn N (h * i) pone) k = Tn N (g * h * i) pone k).
    rewrite <- Nat.mul_assoc.
    apply (peqx_elim N); [|assumption]. apply pauto_mono; assumption.
  - intros j Hj. rewrite pauto_Tn by assumption. rewrite <- bigsum_scale_r.
    apply bigsum_ext. intros. ring.
Qed.

(** Only g mod 2N matters. *)
Lemma Tn_2N N c a k : (0 < N)%nat -> (k < N)%nat -> Tn N (2 * N * c) a k = a k.
Proof.
  intros HN. revert k. induction c as [|c IH]; intros k Hk.
  - rewrite Nat.mul_0_r. reflexivity.
  - replace (2 * N * S c)%nat with (N + (N + 2 * N * c))%nat by lia.
    rewrite Tn_add, Tn_N, Tn_add, Tn_N by assumption. rewrite IH by assumption. lia.
Qed.

Lemma pauto_mod N q g a : (0 < N)%nat -> peq N q (pauto N (g mod (2 * N)) a) (pauto N g a).
Proof.
  intros HN. apply peq_exact. intros k Hk. rewrite !pauto_Tn by assumption.
  apply bigsum_ext. intros i Hi. f_equal.
  pose proof (Nat.div_mod g (2 * N) ltac:(lia)) as E.
  set (c := (g / (2 * N))%nat) in *. set (r := (g mod (2 * N))%nat) in *.
  rewrite E. clearbody c r.
  replace ((2 * N * c + r) * i)%nat with (2 * N * (c * i) + r * i)%nat by lia.
  rewrite Tn_add, Tn_2N by assumption. reflexivity.
Qed.

(** Evaluating a(X^g) at r is evaluating a at r^g. *)
Lemma peval_pauto N q g a r :
  (0 < N)%nat -> eqm q (r ^ Z.of_nat N) (-1) ->
  eqm q (peval N (pauto N g a) r) (peval N a (r ^ Z.of_nat g)).
Proof.
  intros HN Hr.
  assert (E : peval N (pauto N g a) r = bigsum N (fun i => a i * peval N (Tn N (g * i) pone) r)).
  { unfold peval.
    rewrite (bigsum_ext N _ (fun k => bigsum N (fun i => a i * (Tn N (g * i) pone k * r ^ Z.of_nat k)))).
    - rewrite bigsum_swap. apply bigsum_ext. intros i Hi. rewrite bigsum_scale. reflexivity.
    - intros k Hk. rewrite pauto_Tn by assumption. rewrite <- bigsum_scale_r.
      apply bigsum_ext. intros. ring. }
  rewrite E. unfold peval at 2. apply bigsum_eqm. intros i Hi.
  rewrite peval_Tn by assumption.
  assert (E1 : peval N pone r = 1).
  { unfold peval. rewrite (bigsum_single N 0).
    - unfold pone. cbn. reflexivity.
    - lia.
    - intros j Hj Hj0. unfold pone. destruct (Nat.eqb_spec j 0); [contradiction|lia]. }
  rewrite E1, Z.mul_1_r, <- Z.pow_mul_r by lia. rewrite Nat2Z.inj_mul. reflexivity.
Qed.

Lemma pauto_bound N B g a : (0 < N)%nat -> 0 <= B -> pbound N B a -> pbound N (Z.of_nat N * B) (pauto N g a).
Proof.
  intros HN HB H k Hk. unfold pauto. apply bigsum_abs. intros i Hi.
  rewrite Z.abs_mul. pose proof (H i Hi). unfold pmono.
  destruct (Nat.eqb k _); [destruct (Nat.even _)|]; simpl Z.abs; lia.
Qed.
