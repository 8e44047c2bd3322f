(** Primality certificates (Pocklington), so that the examples can use moduli of realistic size,
    for which trial division does not terminate in practice. *)
From Coq Require Import Zpow_facts.
From Verif Require Import Word ModRed Arith ModRedProofs Fermat PrimRoot Ring RingProofs RNSSpec.

Lemma prime_by_divisors q : 1 < q -> (forall r, prime r -> (r | q) -> q < r * r) -> prime q.
Proof.
  intros Hq H. destruct (prime_dec q) as [Hp|Hn]; [exact Hp|exfalso].
  destruct (not_prime_divide q Hq Hn) as (n & Hn1 & [m Hm]).
  assert (Hm1 : 1 < m) by nia.
  destruct (prime_divisor n ltac:(lia)) as (r & Hr & [n' Hn']).
  destruct (prime_divisor m Hm1) as (s & Hs & [m' Hm']).
  pose proof (prime_ge_2 r Hr). pose proof (prime_ge_2 s Hs).
  assert (Hrs : r * s <= q).
  { assert (0 < n') by nia. assert (0 < m') by nia. rewrite Hm, Hm', Hn'.
    assert (1 <= m' * n') by nia. replace (m' * s * (n' * r)) with (r * s * (m' * n')) by ring.
    rewrite <- (Z.mul_1_r (r * s)) at 1. apply Z.mul_le_mono_nonneg_l; nia. }
  assert (A1 : q < r * r) by (apply H; [exact Hr|exists (m * n'); rewrite Hm, Hn'; ring]).
  assert (A2 : q < s * s) by (apply H; [exact Hs|exists (m' * n); rewrite Hm, Hm'; ring]).
  nia.
Qed.

Definition cert := list (Z * nat * Z).
Definition cert_prod (c : cert) : Z := fold_right (fun x acc => fst (fst x) ^ Z.of_nat (snd (fst x)) * acc) 1 c.
Definition cert_ok (q : Z) (c : cert) : bool :=
  (2 <=? q) && (2 * q <=? W) && (q <? cert_prod c * cert_prod c) && AllDistinct (map (fun x => fst (fst x)) c) &&
  forallb (fun x => let '(f, e, a) := x in
     IsPrime f && Nat.ltb 0 e && (0 <=? a) && (a <? W) && ((q - 1) mod (f ^ Z.of_nat e) =? 0) && (ModExp a (q - 1) q =? 1) &&
     (Z.gcd (ModExp a ((q - 1) / f) q - 1) q =? 1)) c.

Lemma cert_part q f e a r : 2 <= q -> prime f -> prime r -> (r | q) -> (f ^ Z.of_nat (S e) | q - 1) ->
  eqm q (a ^ (q - 1)) 1 -> Z.gcd (a ^ ((q - 1) / f) - 1) q = 1 -> (f ^ Z.of_nat (S e) | r - 1).
Proof.
  intros Hq Hf Hr Hrq [c Hc] H1 H2. pose proof (prime_ge_2 f Hf) as Hf2. pose proof (prime_ge_2 r Hr) as Hr2.
  set (F := f ^ Z.of_nat (S e)) in *.
  assert (HF : 0 < F) by (apply Z.pow_pos_nonneg; lia).
  assert (EF : F = f * f ^ Z.of_nat e) by (unfold F; rewrite Nat2Z.inj_succ, Z.pow_succ_r by lia; reflexivity).
  assert (Hc0 : 0 < c) by nia.
  assert (Hfe : 0 < f ^ Z.of_nat e) by (apply Z.pow_pos_nonneg; lia).
  set (b := a ^ c).
  assert (Hb1 : eqm r (b ^ F) 1).
  { unfold b. rewrite <- Z.pow_mul_r by lia. rewrite <- Hc. apply (eqm_dvd q); [lia|exact Hrq|exact H1]. }
  assert (Hb2 : ~ eqm r (b ^ (f ^ Z.of_nat e)) 1).
  { intros E. unfold b in E. rewrite <- Z.pow_mul_r in E by lia.
    assert (Ex : (q - 1) / f = c * f ^ Z.of_nat e).
    { rewrite Hc, EF. replace (c * (f * f ^ Z.of_nat e)) with (c * f ^ Z.of_nat e * f) by ring. apply Z.div_mul. lia. }
    rewrite <- Ex in E. apply eqm_divide in E; [|lia].
    assert (D : (r | 1)) by (rewrite <- H2; apply Z.gcd_greatest; assumption).
    apply Z.divide_pos_le in D; lia. }
  assert (Hrb : ~ (r | b)).
  { intros [u Hu]. assert (E : eqm r (b ^ F) 0).
    { rewrite Hu. apply (eqm_intro _ _ _ (u * (u * r) ^ (F - 1))).
      replace F with (Z.succ (F - 1)) at 1 by lia. rewrite Z.pow_succ_r by lia. ring. }
    assert (E' : eqm r 1 0) by (rewrite <- Hb1; exact E).
    apply eqm_divide in E'; [|lia]. apply Z.divide_pos_le in E'; lia. }
  assert (Hb3 : eqm r (b ^ (r - 1)) 1) by (apply fermat; assumption).
  assert (G := order_gcd r b F (r - 1) ltac:(lia) ltac:(lia) Hr Hrb Hb1 Hb3).
  set (g := Z.gcd F (r - 1)) in *.
  assert (Hg : 0 < g).
  { assert (0 <= g) by apply Z.gcd_nonneg. assert (g <> 0); [|lia]. intros E. apply Z.gcd_eq_0_l in E. lia. }
  destruct (divisor_prime_power f g Hf Hg e (Z.gcd_divide_l F (r - 1))) as [D|E].
  - exfalso. apply Hb2. destruct D as [u Hu]. rewrite Hu. rewrite (Z.mul_comm u g).
    apply eqm_1_pow; [lia| |exact G]. clear - Hu Hg Hfe. nia.
  - fold F in E. rewrite <- E. apply Z.gcd_divide_r.
Qed.

Lemma cert_prime q c : cert_ok q c = true -> prime q.
Proof.
  unfold cert_ok. rewrite !andb_true_iff, !Z.leb_le, Z.ltb_lt, forallb_forall.
  intros ((((H2 & HW) & HF) & HD) & HC). apply AllDistinct_spec in HD.
  apply prime_by_divisors; [lia|]. intros r Hr Hrq. pose proof (prime_ge_2 r Hr).
  assert (G : forall l, NoDup (map (fun x => fst (fst x)) l) -> (forall x, In x l -> In x c) ->
            0 < cert_prod l /\ (cert_prod l | r - 1) /\
            forall f, prime f -> ~ In f (map (fun x => fst (fst x)) l) -> rel_prime f (cert_prod l)).
  { induction l as [|[[f e] a] l IH]; intros Hnd Hin; cbn [cert_prod fold_right].
    - split; [lia|]. split; [apply Z.divide_1_l|]. intros. apply rel_prime_sym, rel_prime_1.
    - cbn [map fst snd] in *. inversion Hnd as [|? ? Hni Hnd']; subst.
      destruct (IH Hnd' (fun x Hx => Hin x (or_intror Hx))) as (P1 & P2 & P3). fold (cert_prod l) in *.
      assert (HX := HC (f, e, a) (Hin _ (or_introl eq_refl))). cbn beta iota in HX.
      rewrite !andb_true_iff, !Z.eqb_eq, Z.leb_le, Z.ltb_lt, Nat.ltb_lt, IsPrime_spec in HX.
      destruct HX as ((((((Hf & He) & Ha) & Ha') & Hdv) & E1) & E2).
      pose proof (prime_ge_2 f Hf).
      assert (Hfe : 0 < f ^ Z.of_nat e) by (apply Z.pow_pos_nonneg; lia).
      assert (D : (f ^ Z.of_nat e | r - 1)).
      { destruct e as [|e]; [lia|]. apply (cert_part q f e a r); try assumption.
        - apply Z.mod_divide in Hdv; [exact Hdv|lia].
        - unfold eqm. rewrite ModExp_correct in E1 by lia. rewrite E1. rewrite Z.mod_small; lia.
        - rewrite ModExp_correct in E2; [|lia|lia|lia|apply Z.div_pos; lia].
          set (u := a ^ ((q - 1) / f)) in *. transitivity (Z.gcd (u mod q - 1) q); [|exact E2].
          rewrite (Z.gcd_comm (u - 1) q), (Z.gcd_comm (u mod q - 1) q).
          rewrite <- (Z.gcd_mod (u mod q - 1) q), <- (Z.gcd_mod (u - 1) q) by lia.
          f_equal. rewrite Zminus_mod_idemp_l. reflexivity. }
      split; [apply Z.mul_pos_pos; assumption|]. split.
      + destruct P2 as [u Hu]. rewrite Hu in D. rewrite Z.mul_comm in D.
        assert (R : rel_prime (f ^ Z.of_nat e) (cert_prod l)).
        { replace (cert_prod l) with (cert_prod l ^ 1) by ring. apply rel_prime_Zpower; [lia|lia|]. apply P3; assumption. }
        apply (Gauss _ _ _ D) in R. destruct R as [v Hv]. exists v. rewrite Hu, Hv. ring.
      + intros g Hg Hn. apply rel_prime_mult.
        * replace g with (g ^ 1) by ring. apply rel_prime_Zpower; [lia|lia|].
          apply prime_rel_prime; [exact Hg|]. intros Hd. apply Hn. left. symmetry. apply prime_div_prime; assumption.
        * apply P3; [exact Hg|]. intros Hi. apply Hn. right. exact Hi. }
  destruct (G c HD (fun x Hx => Hx)) as (P1 & P2 & _).
  apply Z.divide_pos_le in P2; [|lia]. clear - P1 P2 HF. nia.
Qed.

(** The ring, without running the primality test. *)
Definition certified_ring (fuel : nat) (N : Z) (ms : list Z) : Ring :=
  match sequence (map (gen_modp fuel (2 * N)) ms) with
  | Some mps => mkRing (Z.to_nat N) (2 * N) mps (fold_left Z.mul ms 1) (rescale_params ms)
  | None => mkRing 0 0 [] 0 []
  end.

Definition certified_ok (fuel : nat) (N : Z) (ms : list Z) (cs : list cert) (c : Z) : bool :=
  negb ((N <? 16) || negb (Z.land N (N - 1) =? 0)) && negb (Nat.eqb (length ms) 0) && AllDistinct ms &&
  forallb (fun qc => cert_ok (fst qc) (snd qc)) (combine ms cs) && Nat.eqb (length ms) (length cs) &&
  forallb (fun qi => Z.land qi (2 * N - 1) =? 1) ms && (N <=? 2 ^ 60) && forallb (fun q => c * q <=? W) ms &&
  match sequence (map (gen_modp fuel (2 * N)) ms) with Some _ => true | None => false end.

Lemma certified_built fuel N ms cs c : certified_ok fuel N ms cs c = true -> built_ring c (certified_ring fuel N ms).
Proof.
  unfold certified_ok. rewrite !andb_true_iff. intros ((((((((H1 & H2) & H3) & H4) & H5) & H6) & H7) & H8) & H9).
  exists fuel, N, ms. split; [|split].
  - unfold NewRing, NewRingWithCustomNTT. apply negb_true_iff in H1, H2. rewrite H1, H2, H3, H6.
    assert (HP : forallb IsPrime ms = true).
    { apply forallb_forall. intros q Hq. apply IsPrime_spec. apply Nat.eqb_eq in H5.
      revert cs H4 H5 Hq. clear. induction ms as [|m ms IH]; intros [|d cs] H4 H5 Hq; cbn in *; try lia; try contradiction.
      apply andb_true_iff in H4. destruct H4 as [H4 H4']. destruct Hq as [<-|Hq].
      - apply (cert_prime m d). exact H4.
      - apply (IH cs); [exact H4'|lia|exact Hq]. }
    rewrite HP. cbn [negb]. unfold certified_ring. destruct (sequence _); [reflexivity|discriminate].
  - apply Z.leb_le. exact H7.
  - intros q Hq. rewrite forallb_forall in H8. apply Z.leb_le. apply H8. exact Hq.
Qed.

(** The same for a ring given by its components, so that it is computed only once. *)
Definition certified_pre (N : Z) (ms : list Z) (cs : list cert) (c : Z) : bool :=
  negb ((N <? 16) || negb (Z.land N (N - 1) =? 0)) && negb (Nat.eqb (length ms) 0) && AllDistinct ms &&
  forallb (fun qc => cert_ok (fst qc) (snd qc)) (combine ms cs) && Nat.eqb (length ms) (length cs) &&
  forallb (fun qi => Z.land qi (2 * N - 1) =? 1) ms && (N <=? 2 ^ 60) && forallb (fun q => c * q <=? W) ms.

Lemma certified_literal fuel N ms cs c r : certified_pre N ms cs c = true -> certified_ring fuel N ms = r -> rN r <> O -> built_ring c r.
Proof.
  intros H <- Hn. apply (certified_built fuel N ms cs c). unfold certified_ok. fold (certified_pre N ms cs c). rewrite H.
  unfold certified_ring in Hn. destruct (sequence _); [reflexivity|exfalso; apply Hn; reflexivity].
Qed.
