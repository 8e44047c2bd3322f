(** Rings of different degrees: roots, embedding and projection. *)
From Verif Require Import Word ModRed Arith ModRedProofs PolySpec PolyProofs SmallPrimes Ring RingProofs NTT NTTProofs RingOps RNSSpec RowProofs OpsProofs OpsProps Repr
  AutoProps EncSpec EncNtt CISwap Degree DegreeSpec.
Local Open Scope Z_scope.

(** ** Polynomials *)
Lemma inflate_at gap s t : (0 < gap)%nat -> inflate gap s (t * gap)%nat = s t.
Proof. intros H. unfold inflate. rewrite Nat.mod_mul, Nat.div_mul by lia. reflexivity. Qed.
Lemma inflate_off gap s k : (k mod gap <> 0)%nat -> inflate gap s k = 0.
Proof. intros H. unfold inflate. destruct (Nat.eqb_spec (k mod gap) 0); [contradiction|reflexivity]. Qed.
Lemma deflate_inflate gap s k : (0 < gap)%nat -> deflate gap (inflate gap s) k = s k.
Proof. intros H. unfold deflate. apply inflate_at. exact H. Qed.

Lemma bigsum_inflate gap s F n : (0 < gap)%nat -> bigsum (n * gap) (fun i => inflate gap s i * F i) = bigsum n (fun t => s t * F (t * gap)%nat).
Proof.
  intros Hg. induction n as [|n IH]; [reflexivity|]. rewrite Nat.mul_succ_l, bigsum_split, IH. cbn [bigsum]. f_equal.
  destruct gap as [|g]; [lia|]. rewrite bigsum_S_l, bigsum_zero.
  - rewrite Nat.add_0_r, inflate_at by lia. lia.
  - intros i Hi. rewrite inflate_off; [lia|]. rewrite Nat.add_comm, Nat.mod_add, Nat.mod_small by lia. lia.
Qed.

Lemma deflate_mul gap n s c k : (0 < gap)%nat -> (k < n)%nat ->
  deflate gap (pmul (n * gap) (inflate gap s) c) k = pmul n s (deflate gap c) k.
Proof.
  intros Hg Hk. unfold deflate at 1, pmul. rewrite bigsum_inflate by exact Hg. apply bigsum_ext. intros t Ht. f_equal. unfold deflate.
  destruct (Nat.leb_spec (t * gap) (k * gap)) as [H|H]; destruct (Nat.leb_spec t k) as [H'|H']; try nia.
  - f_equal. rewrite Nat.mul_sub_distr_r. reflexivity.
  - do 2 f_equal. rewrite Nat.mul_sub_distr_r, Nat.mul_add_distr_r. reflexivity.
Qed.

Lemma inflate_mul gap n a b k : (0 < gap)%nat -> (k < n * gap)%nat ->
  pmul (n * gap) (inflate gap a) (inflate gap b) k = inflate gap (pmul n a b) k.
Proof.
  intros Hg Hk. assert (D := Nat.div_mod k gap ltac:(lia)). assert (M := Nat.mod_upper_bound k gap ltac:(lia)).
  unfold pmul at 1. rewrite bigsum_inflate by exact Hg. destruct (Nat.eq_dec (k mod gap) 0) as [E|E].
  - set (u := (k / gap)%nat) in *. assert (Ek : k = (u * gap)%nat) by lia. clearbody u. subst k. rewrite inflate_at by exact Hg.
    unfold pmul. apply bigsum_ext. intros t Ht. f_equal.
    destruct (Nat.leb_spec (t * gap) (u * gap)) as [H|H]; destruct (Nat.leb_spec t u) as [H'|H']; try nia.
    + rewrite <- Nat.mul_sub_distr_r. apply inflate_at. exact Hg.
    + rewrite <- Nat.mul_add_distr_r, <- Nat.mul_sub_distr_r. f_equal. apply inflate_at. exact Hg.
  - rewrite (inflate_off _ _ _ E). apply bigsum_zero. intros t Ht.
    assert (Z0 : forall x y, (y * gap <= x)%nat -> (x mod gap = k mod gap)%nat -> inflate gap b (x - y * gap)%nat = 0).
    { intros x y H1 H2. apply inflate_off. rewrite <- (Nat.mod_add (x - y * gap) y gap) by lia. rewrite Nat.sub_add by lia. rewrite H2. exact E. }
    destruct (Nat.leb_spec (t * gap) k) as [H|H].
    + rewrite Z0 by (try lia; reflexivity). lia.
    + rewrite Z0; [lia|nia|]. rewrite Nat.add_comm, Nat.mod_add by lia. reflexivity.
Qed.

Lemma inflate_peq gap n q a b : (0 < gap)%nat -> peq n q a b -> peq (n * gap) q (inflate gap a) (inflate gap b).
Proof.
  intros Hg H k Hk. unfold inflate. destruct (Nat.eqb (k mod gap) 0); [|reflexivity]. apply H. apply Nat.div_lt_upper_bound; lia.
Qed.
Lemma deflate_peq gap n q a b : (0 < gap)%nat -> peq (n * gap) q a b -> peq n q (deflate gap a) (deflate gap b).
Proof. intros Hg H k Hk. unfold deflate. apply H. nia. Qed.

(** ** The roots of two rings with the same modulus *)
Local Transparent gen_modp.
Lemma gen_psi fuel R q m : gen_modp fuel R q = Some m -> exists g, primitiveRoot fuel q = Some g /\
  mpsiMont m = MForm (ModExp g ((q - 1) / R) q) q (BRedParams q) /\ mqinv m = MRedParams q /\ mq m = q.
Proof.
  unfold gen_modp. cbv zeta. destruct (primitiveRoot fuel q) as [g|]; [|discriminate]. intros E. injection E as <-.
  exists g. split; [reflexivity|]. cbn [mpsiMont mqinv mq]. split; [reflexivity|]. split; reflexivity.
Qed.
Local Opaque gen_modp.

Lemma sequence_nth {A B} (f : A -> option B) l : forall ys, sequence (map f l) = Some ys -> forall i a b, (i < length l)%nat -> f (nth i l a) = Some (nth i ys b).
Proof.
  induction l as [|x l IH]; intros ys E i a b Hi; [cbn in Hi; lia|]. cbn [map sequence] in E.
  destruct (f x) as [y|] eqn:Ey; [|discriminate]. destruct (sequence (map f l)) as [t|]; [|discriminate]. injection E as <-.
  destruct i as [|i]; [exact Ey|]. cbn [nth]. apply IH; [reflexivity|cbn in Hi; lia].
Qed.
Lemma sequence_len {A B} (f : A -> option B) l : forall ys, sequence (map f l) = Some ys -> length ys = length l.
Proof.
  induction l as [|x l IH]; intros ys E; cbn [map sequence] in E; [injection E as <-; reflexivity|].
  destruct (f x); [|discriminate]. destruct (sequence (map f l)) as [t|]; [|discriminate]. injection E as <-. cbn. rewrite (IH t eq_refl). reflexivity.
Qed.

Lemma ring_psi r L i : built_ring 2 r -> rN r = (2 ^ L)%nat -> (i < length (rmods r))%nat ->
  exists fuel g, primitiveRoot fuel (mq (rmod r i)) = Some g /\ psi_of (rmod r i) = (g ^ ((mq (rmod r i) - 1) / 2 ^ Z.of_nat (S L))) mod mq (rmod r i).
Proof.
  intros Hr EL Hi. assert (Hwf := built_wf r L Hr EL i Hi). destruct Hr as (fuel & N & ms & E & HN & Hms).
  pose proof E as E0. unfold NewRing in E0. apply custom_inv in E0. destruct E0 as [(HN16 & _) (mps & Es & Er)].
  assert (EN : 2 * N = 2 ^ Z.of_nat (S L)).
  { assert (Z.to_nat N = (2 ^ L)%nat) by (rewrite <- EL, Er; reflexivity). rewrite pow2_S, <- two_pow_nat. lia. }
  rewrite Er in *. unfold rmod in *. cbn [rmods] in *. clear Er E.
  assert (Hi' : (i < length ms)%nat) by (rewrite (sequence_len _ _ _ Es) in Hi; exact Hi).
  pose proof (sequence_nth _ _ _ Es i 0 modp0 Hi') as G. set (m := nth i mps modp0) in *.
  destruct (gen_psi _ _ _ _ G) as (g & Hg & Hpsi & Hinv & Hq). rewrite <- Hq in *. rewrite EN in Hpsi.
  exists fuel, g. split; [exact Hg|].
  pose proof (wf_ge L m Hwf) as G5. pose proof (wf_W L m Hwf) as GW. pose proof (wf_odd L m Hwf) as Go.
  destruct (primitiveRoot_spec fuel (mq m) g (wf_prime L m Hwf) G5 GW Hg) as [Hg3 _].
  unfold psi_of. rewrite Hpsi, Hinv.
  assert (0 <= (mq m - 1) / 2 ^ Z.of_nat (S L)) by (apply Z.div_pos; [lia|apply Z.pow_pos_nonneg; lia]).
  rewrite MForm_ModExp by lia. apply InvMForm_of_mont; [exact Go|lia|exact GW|apply Z.mod_pos_bound; lia].
Qed.

Lemma nested_psi rS rL l L i : built_ring 2 rS -> built_ring 2 rL -> rN rS = (2 ^ l)%nat -> rN rL = (2 ^ L)%nat -> (l <= L)%nat ->
  (i < length (rmods rS))%nat -> (i < length (rmods rL))%nat -> mq (rmod rS i) = mq (rmod rL i) ->
  eqm (mq (rmod rL i)) (psi_of (rmod rS i)) (psi_of (rmod rL i) ^ 2 ^ Z.of_nat (L - l)).
Proof.
  intros HS HL ES EL Hle H1 H2 Eq.
  destruct (ring_psi rS l i HS ES H1) as (f1 & g1 & R1 & P1). destruct (ring_psi rL L i HL EL H2) as (f2 & g2 & R2 & P2).
  assert (Hwf := built_wf rL L HL EL i H2). set (m := rmod rL i) in *. rewrite Eq in *. rewrite P1, P2.
  assert (g1 = g2).
  { destruct (Nat.le_ge_cases f1 f2) as [Hf|Hf]; [rewrite (primitiveRoot_mono f1 f2 _ _ Hf R1) in R2|rewrite (primitiveRoot_mono f2 f1 _ _ Hf R2) in R1]; congruence. }
  subst g2. destruct (wf_cong L m Hwf) as [c Hc]. pose proof (wf_ge L m Hwf).
  assert (P : 0 < 2 ^ Z.of_nat (S L)) by (apply Z.pow_pos_nonneg; lia). assert (Ps : 0 < 2 ^ Z.of_nat (S l)) by (apply Z.pow_pos_nonneg; lia).
  assert (Hc0 : 0 <= c) by nia.
  assert (Split : 2 ^ Z.of_nat (S L) = 2 ^ Z.of_nat (L - l) * 2 ^ Z.of_nat (S l)) by (rewrite <- Z.pow_add_r by lia; f_equal; lia).
  replace ((mq m - 1) / 2 ^ Z.of_nat (S L)) with c by (rewrite Hc, Z.div_mul by lia; reflexivity).
  replace ((mq m - 1) / 2 ^ Z.of_nat (S l)) with (c * 2 ^ Z.of_nat (L - l)) by (rewrite Hc, Split, Z.mul_assoc, Z.div_mul by lia; reflexivity).
  rewrite !eqm_mod. rewrite (eqm_pow _ _ _ _ (eqm_mod _ (g1 ^ c))). rewrite <- Z.pow_mul_r by (try lia; apply Z.pow_nonneg; lia). reflexivity.
Qed.

(** ** The embedding, in the NTT domain *)
Lemma embed_values rS rL l L i X k : built_ring 2 rS -> built_ring 2 rL -> rN rS = (2 ^ l)%nat -> rN rL = (2 ^ L)%nat -> (l <= L)%nat ->
  (i < length (rmods rS))%nat -> (i < length (rmods rL))%nat -> mq (rmod rS i) = mq (rmod rL i) -> (k < 2 ^ L)%nat ->
  eqm (mq (rmod rL i)) (values (rmod rS i) l X (k / 2 ^ (L - l))%nat) (values (rmod rL i) L (inflate (2 ^ (L - l)) X) k).
Proof.
  intros HS HL ES EL Hle H1 H2 Eq Hk. destruct (built_L rS l HS ES) as [_ H4].
  assert (HwS := built_wf rS l HS ES i H1). assert (HwL := built_wf rL L HL EL i H2).
  unfold values. rewrite (inflate_eval L l (rmod rL i) ltac:(lia) X). unfold peval. apply bigsum_eqm. intros j Hj.
  apply eqm_mul; [reflexivity|]. apply eqm_pow.
  transitivity ((psi_of (rmod rL i) ^ 2 ^ Z.of_nat (L - l)) ^ (2 * rev_bits l (Z.of_nat (k / 2 ^ (L - l))) + 1)).
  - rewrite pt_rev. apply eqm_pow. apply nested_psi; assumption.
  - symmetry. apply (small_point L l (rmod rL i) ltac:(lia) HwL k Hk).
Qed.

Lemma map_large_nth n gap small large k : (k < length large)%nat ->
  nth k (map_large_row n gap small large) 0 = if Nat.ltb k (n * gap) then nth (k / gap) small 0 else nth k large 0.
Proof. intros Hk. unfold map_large_row. rewrite (nth_map_seq (fun k => if Nat.ltb k (n * gap) then nth (k / gap) small 0 else nth k large 0)) by exact Hk. reflexivity. Qed.
Lemma map_large_length n gap small large : length (map_large_row n gap small large) = length large.
Proof. unfold map_large_row. rewrite map_length, seq_length. reflexivity. Qed.

Lemma pow_gap l L : (l <= L)%nat -> (2 ^ L)%nat = (2 ^ l * 2 ^ (L - l))%nat /\ (2 ^ L / 2 ^ l = 2 ^ (L - l))%nat.
Proof.
  intros H. assert (E : (2 ^ L)%nat = (2 ^ l * 2 ^ (L - l))%nat) by (rewrite <- Nat.pow_add_r; f_equal; lia). split; [exact E|].
  rewrite E, Nat.mul_comm. apply Nat.div_mul. pose proof (pow2n_pos l). lia.
Qed.

Lemma embed_lemma rS rL l L level : nested 2 rS rL l L level -> forall B p out X,
  length p = S level -> rns_ntt rS l level B p X -> (level < length out)%nat -> (forall i, (i <= level)%nat -> length (nth i out []) = rN rL) ->
  exists u, MapSmallDimensionToLargerDimensionNTT p out = Some u /\ kept level out u /\ rns_ntt rL L level B u (inflate (2 ^ (L - l)) X).
Proof.
  intros (HS & HL & ES & EL & Hle & HlS & HlL & Hq) B p out X Hlen (_ & _ & HX) Hout Hn.
  destruct (pow_gap l L Hle) as [E1 E2].
  unfold MapSmallDimensionToLargerDimensionNTT. rewrite Hlen. destruct (Nat.ltb_spec (length out) (S level)); [lia|].
  eexists. split; [reflexivity|]. split; [apply lvl_kept|].
  split; [exact HlL|]. split; [rewrite lvl_length; lia|]. intros i Hi. rewrite lvl_nth_lt by lia. unfold prow.
  rewrite (Hn 0%nat ltac:(lia)), EL. rewrite (proj1 (HX 0%nat ltac:(lia))), E2.
  split; [rewrite map_large_length, (Hn i Hi); exact EL|]. intros k Hk.
  rewrite map_large_nth by (rewrite (Hn i Hi), EL; exact Hk). rewrite <- E1. destruct (Nat.ltb_spec k (2 ^ L)); [|lia].
  assert (Hk' : (k / 2 ^ (L - l) < 2 ^ l)%nat) by (apply Nat.div_lt_upper_bound; [pose proof (pow2n_pos (L - l)); lia|lia]).
  destruct (proj2 (HX i Hi) _ Hk') as [R E]. rewrite (Hq i Hi) in R, E. split; [exact R|]. rewrite E.
  apply (embed_values rS rL l L i X k); try assumption; try lia. apply Hq. exact Hi.
Qed.
