(** The transforms of Fft.v over a commutative ring. *)
From Coq Require Import ZArith List Lia Bool Arith Ring Ring_theory.
Import ListNotations.
From Verif Require Import Word Ring RingProofs NTT NTTProofs Fft FftSpec FftProofs.
Local Open Scope nat_scope.

Section FftRing.
  Context {T : Type}.
  Variables (r0 r1 : T) (radd rmul rsub : T -> T -> T) (ropp : T -> T).
  Variable RT : ring_theory r0 r1 radd rmul rsub ropp eq.
  Add Ring TRing : RT.
  Notation pow := (rpow r1 rmul).
  Notation sum := (bsum r0 radd).
  Notation "x ++ y" := (radd x y).
  Notation "x ** y" := (rmul x y) (at level 40, left associativity).

  Lemma pow_add x a b : pow x (a + b) = pow x a ** pow x b.
  Proof. induction a as [|a IH]; cbn [rpow Nat.add]; [ring|]. rewrite IH. ring. Qed.
  Lemma pow_one n : pow r1 n = r1.
  Proof. induction n as [|n IH]; cbn [rpow]; [reflexivity|]. rewrite IH. ring. Qed.
  Lemma pow_mul x a b : pow x (a * b) = pow (pow x a) b.
  Proof. induction b as [|b IH]; [rewrite Nat.mul_0_r; reflexivity|]. rewrite Nat.mul_succ_r, Nat.add_comm, pow_add, IH. reflexivity. Qed.
  Lemma pow_opp1_even c : pow (ropp r1) (2 * c) = r1.
  Proof. rewrite pow_mul. replace (pow (ropp r1) 2) with r1 by (cbn [rpow]; ring). apply pow_one. Qed.
  Lemma pow_opp1_odd c : pow (ropp r1) (2 * c + 1) = ropp r1.
  Proof. rewrite pow_add, pow_opp1_even. cbn [rpow]. ring. Qed.
  Lemma sum_ext n f g : (forall i, i < n -> f i = g i) -> sum n f = sum n g.
  Proof. induction n as [|n IH]; intros H; [reflexivity|]. cbn [bsum]. rewrite IH, H by auto with arith. reflexivity. Qed.
  Lemma sum_split n f : sum (2 * n) f = sum n (fun t => f (2 * t)) ++ sum n (fun t => f (2 * t + 1)).
  Proof.
    induction n as [|n IH]; [cbn; ring|]. replace (2 * S n) with (S (S (2 * n))) by lia. cbn [bsum]. rewrite IH.
    replace (2 * n + 1) with (S (2 * n)) by lia. ring.
  Qed.
  Lemma sum_scale n c f : sum n f ** c = sum n (fun t => f t ** c).
  Proof. induction n as [|n IH]; cbn [bsum]; [ring|]. rewrite <- IH. ring. Qed.
  Lemma sum_opp n f : ropp (sum n f) = sum n (fun t => ropp (f t)).
  Proof. induction n as [|n IH]; cbn [bsum]; [ring|]. rewrite <- IH. ring. Qed.
  Lemma of_nat_add a b : of_nat r0 r1 radd (a + b) = of_nat r0 r1 radd a ++ of_nat r0 r1 radd b.
  Proof. induction a as [|a IH]; cbn [of_nat Nat.add]; [ring|]. rewrite IH. ring. Qed.

  (** 5^(2^l) = 1 + 2^(l+2) (2c+1) *)
  Lemma five_order l : exists c, 5 ^ (2 ^ l) = 1 + 2 ^ (l + 2) * (2 * c + 1).
  Proof.
    induction l as [|l [c IH]]; [exists 0; reflexivity|].
    exists (c + 2 ^ l * (2 * c + 1) * (2 * c + 1)). rewrite Nat.pow_succ_r', (Nat.mul_comm 2), Nat.pow_mul_r, IH. cbn [Nat.pow Nat.add].
    replace (2 ^ (l + 2)) with (4 * 2 ^ l) by (rewrite Nat.pow_add_r; cbn; lia). ring.
  Qed.
  Lemma odd_pow5 j : exists c, 5 ^ j = 2 * c + 1.
  Proof. induction j as [|j [c IH]]; [exists 0; reflexivity|]. exists (5 * c + 2). rewrite Nat.pow_succ_r', IH. lia. Qed.

    Lemma of_nat_pow l : of_nat r0 r1 radd (2 ^ l) = pow (r1 ++ r1) l.
    Proof.
      induction l as [|l IH]; [cbn; ring|]. rewrite Nat.pow_succ_r'. replace (2 * 2 ^ l) with (2 ^ l + 2 ^ l) by lia. rewrite of_nat_add, IH. cbn [rpow]. ring.
    Qed.

  Section Table.
    Variables (m : nat) (zeta : T) (rot : list Z) (roots : list T).
    Hypothesis TAB : root_table r0 r1 rmul ropp zeta (2 ^ (m + 2)) roots.
    Hypothesis ROT : forall j, j < 2 ^ m -> List.nth j rot 0%Z = (5 ^ Z.of_nat j mod 2 ^ Z.of_nat (m + 2))%Z.

    Definition om (l : nat) : T := pow zeta (2 ^ (m - l)).
    Lemma zeta_half : pow zeta (2 ^ (m + 1)) = ropp r1.
    Proof. destruct TAB as [_ H]. replace (m + 2) with (S (m + 1)) in H by lia. rewrite div2_pow in H. exact H. Qed.
    Lemma om_half l : l <= m -> pow (om l) (2 ^ (l + 1)) = ropp r1.
    Proof. intros H. unfold om. rewrite <- pow_mul, <- Nat.pow_add_r. replace (m - l + (l + 1)) with (m + 1) by lia. apply zeta_half. Qed.
    Lemma om_order l : l <= m -> pow (om l) (2 ^ (l + 2)) = r1.
    Proof. intros H. replace (l + 2) with ((l + 1) + 1) by lia. rewrite Nat.pow_add_r, pow_mul, om_half by exact H. cbn [rpow Nat.pow Nat.mul Nat.add]. ring. Qed.
    Lemma om_square l e : S l <= m -> pow (om l) e = pow (om (S l)) (2 * e).
    Proof.
      intros H. unfold om. rewrite <- !pow_mul. f_equal. replace (m - l) with (S (m - S l)) by lia. rewrite Nat.pow_succ_r'. ring.
    Qed.
    Lemma om_mod l e : l <= m -> pow (om l) (e mod 2 ^ (l + 2)) = pow (om l) e.
    Proof.
      intros H. assert (E := Nat.div_mod e (2 ^ (l + 2)) ltac:(apply Nat.pow_nonzero; lia)).
      set (r := e mod 2 ^ (l + 2)) in *. clearbody r. rewrite E.
      rewrite pow_add, pow_mul, om_order, pow_one by exact H. ring.
    Qed.
    Lemma om_shift_even l j t : l <= m -> pow (om l) (5 ^ (2 ^ l + j) * t) = pow (om l) (5 ^ j * t).
    Proof.
      intros H. destruct (five_order l) as [c E]. rewrite Nat.pow_add_r, E.
      replace ((1 + 2 ^ (l + 2) * (2 * c + 1)) * 5 ^ j * t) with (5 ^ j * t + 2 ^ (l + 2) * ((2 * c + 1) * 5 ^ j * t)) by ring.
      rewrite pow_add, (pow_mul _ (2 ^ (l + 2))), om_order, pow_one by exact H. ring.
    Qed.
    Lemma om_shift_odd l j t : S l <= m -> pow (om (S l)) (5 ^ (2 ^ l + j) * (2 * t + 1)) = ropp (pow (om (S l)) (5 ^ j * (2 * t + 1))).
    Proof.
      intros H. destruct (five_order l) as [c E]. destruct (odd_pow5 j) as [d D]. rewrite Nat.pow_add_r, E.
      replace ((1 + 2 ^ (l + 2) * (2 * c + 1)) * 5 ^ j * (2 * t + 1)) with (5 ^ j * (2 * t + 1) + 2 ^ (S l + 1) * ((2 * c + 1) * 5 ^ j * (2 * t + 1)))
        by (replace (S l + 1) with (l + 2) by lia; ring).
      rewrite pow_add, (pow_mul _ (2 ^ (S l + 1))), om_half by exact H. rewrite D.
      replace ((2 * c + 1) * (2 * d + 1) * (2 * t + 1)) with (2 * ((2 * c + 1) * (2 * d + 1) * t + (2 * c * d + c + d)) + 1) by ring.
      rewrite pow_opp1_odd. ring.
    Qed.

    Lemma rot_index l j : l <= m -> j < 2 ^ m -> Z.land (List.nth j rot 0%Z) (2 ^ Z.of_nat (l + 2) - 1) = Z.of_nat (5 ^ j mod 2 ^ (l + 2)).
    Proof.
      intros Hl Hj. rewrite ROT by exact Hj. rewrite Nat2Z.inj_mod. rewrite Nat2Z.inj_pow, two_pow_nat.
      replace (2 ^ Z.of_nat (l + 2) - 1)%Z with (Z.ones (Z.of_nat (l + 2))) by (rewrite Z.ones_equiv; lia). rewrite Z.land_ones by lia.
      rewrite <- Znumtheory.Zmod_div_mod; [reflexivity| | |]; try (apply Z.pow_pos_nonneg; lia).
      exists (2 ^ Z.of_nat (m - l))%Z. rewrite <- Z.pow_add_r by lia. f_equal. lia.
    Qed.
    Lemma root_fwd l j : l <= m -> j < 2 ^ m -> root_at r0 false (m + 2) l rot roots j = pow (om l) (5 ^ j).
    Proof.
      intros Hl Hj. unfold root_at. rewrite rot_index by assumption. rewrite Z.shiftl_mul_pow2 by lia.
      rewrite <- two_pow_nat, <- Nat2Z.inj_mul, Nat2Z.id. replace (m + 2 - 2 - l) with (m - l) by lia.
      assert (B := Nat.mod_upper_bound (5 ^ j) (2 ^ (l + 2)) ltac:(apply Nat.pow_nonzero; lia)).
      rewrite (proj1 TAB).
      - rewrite Nat.mul_comm, pow_mul. apply om_mod. exact Hl.
      - replace (m + 2) with ((l + 2) + (m - l)) by lia. rewrite (Nat.pow_add_r 2 (l + 2)). apply Nat.mul_le_mono_r; lia.
    Qed.
    Lemma root_inv l j : l <= m -> j < 2 ^ m -> root_at r0 true (m + 2) l rot roots j ** pow (om l) (5 ^ j) = r1.
    Proof.
      intros Hl Hj. unfold root_at. rewrite rot_index by assumption. rewrite Z.shiftl_mul_pow2 by lia.
      assert (B := Nat.mod_upper_bound (5 ^ j) (2 ^ (l + 2)) ltac:(apply Nat.pow_nonzero; lia)).
      rewrite <- !two_pow_nat, <- Nat2Z.inj_sub, <- Nat2Z.inj_mul, Nat2Z.id by lia. replace (m + 2 - 2 - l) with (m - l) by lia.
      rewrite (proj1 TAB).
      - rewrite Nat.mul_comm, pow_mul. fold (om l). rewrite <- (om_mod l (5 ^ j)) by exact Hl. rewrite <- pow_add. rewrite Nat.sub_add by lia. apply om_order. exact Hl.
      - replace (m + 2) with ((l + 2) + (m - l)) by lia. rewrite (Nat.pow_add_r 2 (l + 2)). apply Nat.mul_le_mono_r; lia.
    Qed.

    Notation nth k l := (List.nth k l r0).
    (** Rounds 1..l; the extent of each is at least 2^L and a multiple of the length of its blocks. *)
    Variables (L : nat) (ext : nat -> nat) (len : nat).
    Hypothesis HL : L <= m.
    Hypothesis EXT : forall l, 0 < l <= L -> exists cnt, ext l = cnt * 2 ^ l /\ 2 ^ L <= ext l <= len.

    Definition rounds (ls : list nat) (xs : list T) : list T :=
      fold_left (fun xs l => fft_round radd rsub rmul r0 (ext l) (m + 2) l rot roots xs) ls xs.
    Definition irounds (ls : list nat) (xs : list T) : list T :=
      fold_left (fun xs l => ifft_round radd rsub rmul r0 (ext l) (m + 2) l rot roots xs) ls xs.

    Lemma round_at l xs : 0 < l <= L -> length xs = len ->
      let out := fft_round radd rsub rmul r0 (ext l) (m + 2) l rot roots xs in
      length out = len /\ (forall k, ext l <= k -> nth k out = nth k xs) /\
      forall b j, b < 2 ^ (L - l) -> j < 2 ^ (l - 1) ->
        nth (b * 2 ^ l + j) out = nth (b * 2 ^ l + j) xs ++ nth (b * 2 ^ l + (2 ^ (l - 1) + j)) xs ** pow (om l) (5 ^ j) /\
        nth (b * 2 ^ l + (2 ^ (l - 1) + j)) out = rsub (nth (b * 2 ^ l + j) xs) (nth (b * 2 ^ l + (2 ^ (l - 1) + j)) xs ** pow (om l) (5 ^ j)).
    Proof.
      intros Hl Hx out. destruct (EXT l Hl) as [cnt [E1 E2]].
      destruct (fft_round_spec r0 radd rsub rmul (m + 2) rot roots cnt l xs ltac:(lia) ltac:(lia)) as [R1 [R2 R3]].
      unfold out. rewrite E1. split; [congruence|]. split; [exact R2|]. intros b j Hb Hj.
      assert (b < cnt). { assert (P := pow2n_pos l). assert (2 ^ L = 2 ^ (L - l) * 2 ^ l) by (rewrite <- Nat.pow_add_r; f_equal; lia). nia. }
      destruct (R3 b j H Hj) as [A B]. rewrite root_fwd in A, B; [split; assumption|lia| |lia|];
        (eapply Nat.lt_le_trans; [exact Hj|]; apply Nat.pow_le_mono_r; lia).
    Qed.

    Lemma rounds_spec (a : nat -> T) xs : length xs = len -> (forall k, k < 2 ^ L -> nth k xs = a (brvn L k)) ->
      forall l, l <= L -> length (rounds (seq 1 l) xs) = len /\
        forall b j, b < 2 ^ (L - l) -> j < 2 ^ l ->
          nth (b * 2 ^ l + j) (rounds (seq 1 l) xs) = sum (2 ^ l) (fun t => a (t * 2 ^ (L - l) + brvn (L - l) b) ** pow (om l) (5 ^ j * t)).
    Proof.
      intros Hx Ha. induction l as [|l IH]; intros Hl.
      - split; [exact Hx|]. intros b j Hb Hj. cbn [Nat.pow] in Hj. replace j with 0 by lia. rewrite Nat.sub_0_r in *. cbn [seq rounds fold_left].
        unfold rounds. cbn [fold_left]. rewrite Nat.pow_0_r, Nat.mul_1_r, Nat.add_0_r. rewrite Ha by exact Hb. cbn [bsum]. rewrite Nat.mul_0_l, Nat.mul_0_r. cbn [rpow Nat.add]. ring.
      - rewrite seq_S. unfold rounds. rewrite fold_left_app. cbn [fold_left]. fold (rounds (seq 1 l) xs).
        destruct (IH ltac:(lia)) as [I1 I2]. set (x := rounds (seq 1 l) xs) in *. clearbody x.
        destruct (round_at (S l) x ltac:(lia) I1) as [R1 [_ R3]]. cbn [Nat.add]. split; [exact R1|].
        intros b j Hb Hj. replace (S l - 1) with l in R3 by lia.
        assert (ES : L - l = S (L - S l)) by lia.
        assert (Hb2 : 2 * b + 1 < 2 ^ (L - l)) by (rewrite ES, Nat.pow_succ_r'; lia).
        (* the two halves *)
        assert (HALF : forall i, i < 2 ^ l ->
          nth (b * 2 ^ S l + i) x = sum (2 ^ l) (fun t => a (2 * t * 2 ^ (L - S l) + brvn (L - S l) b) ** pow (om (S l)) (5 ^ i * (2 * t))) /\
          nth (b * 2 ^ S l + (2 ^ l + i)) x ** pow (om (S l)) (5 ^ i) = sum (2 ^ l) (fun t => a ((2 * t + 1) * 2 ^ (L - S l) + brvn (L - S l) b) ** pow (om (S l)) (5 ^ i * (2 * t + 1)))).
        { intros i Hi. split.
          - replace (b * 2 ^ S l + i) with (2 * b * 2 ^ l + i) by (rewrite Nat.pow_succ_r'; ring). rewrite I2 by lia. apply sum_ext. intros t Ht.
            rewrite om_square by lia. rewrite ES, brvn_even. f_equal; f_equal; [rewrite Nat.pow_succ_r'; ring|ring].
          - replace (b * 2 ^ S l + (2 ^ l + i)) with ((2 * b + 1) * 2 ^ l + i) by (rewrite Nat.pow_succ_r'; ring). rewrite I2 by lia. rewrite sum_scale. apply sum_ext. intros t Ht.
            rewrite om_square by lia. rewrite ES, brvn_odd.
            replace (t * 2 ^ S (L - S l) + (2 ^ (L - S l) + brvn (L - S l) b)) with ((2 * t + 1) * 2 ^ (L - S l) + brvn (L - S l) b) by (rewrite Nat.pow_succ_r'; ring).
            replace (5 ^ i * (2 * t + 1)) with (2 * (5 ^ i * t) + 5 ^ i) by ring. rewrite pow_add. ring. }
        rewrite (Nat.pow_succ_r' 2 l). rewrite sum_split.
        destruct (Nat.lt_ge_cases j (2 ^ l)) as [Hj2|Hj2].
        + destruct (R3 b j Hb Hj2) as [A _]. destruct (HALF j Hj2) as [H1 H2]. rewrite <- Nat.pow_succ_r', A, H1, H2. reflexivity.
        + rewrite Nat.pow_succ_r' in Hj. set (i := j - 2 ^ l). assert (Hi : i < 2 ^ l) by (unfold i; lia). replace j with (2 ^ l + i) by (unfold i; lia).
          destruct (R3 b i Hb Hi) as [_ B]. destruct (HALF i Hi) as [H1 H2]. rewrite <- Nat.pow_succ_r', B, H1, H2.
          match goal with |- rsub ?u ?v = ?p ++ ?q => cut (p = u /\ q = ropp v); [intros [-> ->]; ring|] end. split.
          * apply sum_ext. intros t Ht. f_equal. rewrite !(Nat.mul_assoc _ 2 t), (Nat.mul_comm _ 2), <- Nat.mul_assoc.
            rewrite (Nat.mul_comm (5 ^ i) 2), <- (Nat.mul_assoc 2 (5 ^ i)). rewrite <- !om_square by lia. apply om_shift_even. lia.
          * rewrite sum_opp. apply sum_ext. intros t Ht. rewrite om_shift_odd by lia. ring.
    Qed.

    Lemma rounds_keep ls : (forall l, In l ls -> 0 < l <= L /\ ext l = 2 ^ L) -> forall xs, length xs = len ->
      length (rounds ls xs) = len /\ forall k, 2 ^ L <= k -> nth k (rounds ls xs) = nth k xs.
    Proof.
      induction ls as [|l ls IH]; intros H xs Hx; [split; [exact Hx|reflexivity]|].
      unfold rounds. cbn [fold_left]. destruct (H l ltac:(left; reflexivity)) as [H1 H2]. destruct (round_at l xs H1 Hx) as [R1 [R2 _]].
      destruct (IH ltac:(intros l' Hl'; apply H; right; exact Hl') _ R1) as [I1 I2]. split; [exact I1|].
      intros k Hk. etransitivity; [apply I2; exact Hk|]. apply R2. rewrite H2. exact Hk.
    Qed.

    Lemma iround_at l xs : 0 < l <= L -> length xs = len ->
      let out := ifft_round radd rsub rmul r0 (ext l) (m + 2) l rot roots xs in
      length out = len /\ (forall k, ext l <= k -> nth k out = nth k xs) /\
      forall b j, b < 2 ^ (L - l) -> j < 2 ^ (l - 1) -> exists w, w ** pow (om l) (5 ^ j) = r1 /\
        nth (b * 2 ^ l + j) out = nth (b * 2 ^ l + j) xs ++ nth (b * 2 ^ l + (2 ^ (l - 1) + j)) xs /\
        nth (b * 2 ^ l + (2 ^ (l - 1) + j)) out = rsub (nth (b * 2 ^ l + j) xs) (nth (b * 2 ^ l + (2 ^ (l - 1) + j)) xs) ** w.
    Proof.
      intros Hl Hx out. destruct (EXT l Hl) as [cnt [E1 E2]].
      destruct (ifft_round_spec r0 radd rsub rmul (m + 2) rot roots cnt l xs ltac:(lia) ltac:(lia)) as [R1 [R2 R3]].
      unfold out. rewrite E1. split; [congruence|]. split; [exact R2|]. intros b j Hb Hj.
      assert (b < cnt). { assert (P := pow2n_pos l). assert (2 ^ L = 2 ^ (L - l) * 2 ^ l) by (rewrite <- Nat.pow_add_r; f_equal; lia). nia. }
      destruct (R3 b j H Hj) as [A B]. eexists. split; [|split; [exact A|exact B]].
      apply root_inv; [lia|]. eapply Nat.lt_le_trans; [exact Hj|]; apply Nat.pow_le_mono_r; lia.
    Qed.

    Lemma irounds_keep ls : (forall l, In l ls -> 0 < l <= L /\ ext l = 2 ^ L) -> forall xs, length xs = len ->
      forall k, 2 ^ L <= k -> nth k (irounds ls xs) = nth k xs.
    Proof.
      induction ls as [|l ls IH]; intros H xs Hx k Hk; [reflexivity|].
      unfold irounds. cbn [fold_left]. destruct (H l ltac:(left; reflexivity)) as [H1 H2]. destruct (iround_at l xs H1 Hx) as [R1 [R2 _]].
      etransitivity; [exact (IH ltac:(intros l' Hl'; apply H; right; exact Hl') _ R1 k Hk)|]. apply R2. rewrite H2. exact Hk.
    Qed.
    Lemma irounds_length ls : (forall l, In l ls -> 0 < l <= L) -> forall xs, length xs = len -> length (irounds ls xs) = len.
    Proof.
      induction ls as [|l ls IH]; intros H xs Hx; [exact Hx|]. unfold irounds. cbn [fold_left]. apply IH; [intros l' Hl'; apply H; right; exact Hl'|].
      apply (iround_at l xs); [apply H; left; reflexivity|exact Hx].
    Qed.
    Lemma rounds_length ls : (forall l, In l ls -> 0 < l <= L) -> forall xs, length xs = len -> length (rounds ls xs) = len.
    Proof.
      induction ls as [|l ls IH]; intros H xs Hx; [exact Hx|]. unfold rounds. cbn [fold_left]. apply IH; [intros l' Hl'; apply H; right; exact Hl'|].
      apply (round_at l xs); [apply H; left; reflexivity|exact Hx].
    Qed.

    Lemma at_position l k : 0 < l <= L -> k < 2 ^ L -> exists b j, b < 2 ^ (L - l) /\ j < 2 ^ (l - 1) /\ (k = b * 2 ^ l + j \/ k = b * 2 ^ l + (2 ^ (l - 1) + j)).
    Proof. intros Hl Hk. apply position; [lia|]. rewrite <- Nat.pow_add_r. replace (L - l + l) with L by lia. exact Hk. Qed.
    Lemma at_bound l b j : 0 < l <= L -> b < 2 ^ (L - l) -> j < 2 ^ (l - 1) -> b * 2 ^ l + (2 ^ (l - 1) + j) < 2 ^ L.
    Proof.
      intros Hl Hb Hj. assert (E := pow_half l ltac:(lia)). assert (P := pow2n_pos l).
      assert (2 ^ L = 2 ^ (L - l) * 2 ^ l) by (rewrite <- Nat.pow_add_r; f_equal; lia). nia.
    Qed.

    (** One inverse round after one round, and the other way, doubles. *)
    Lemma iround_round l c z x : 0 < l <= L -> length z = len -> length x = len ->
      (forall k, k < 2 ^ L -> nth k x = c ** nth k (fft_round radd rsub rmul r0 (ext l) (m + 2) l rot roots z)) ->
      forall k, k < 2 ^ L -> nth k (ifft_round radd rsub rmul r0 (ext l) (m + 2) l rot roots x) = (r1 ++ r1) ** c ** nth k z.
    Proof.
      intros Hl Hz Hx H k Hk. destruct (round_at l z Hl Hz) as [_ [_ R]]. destruct (iround_at l x Hl Hx) as [_ [_ I]].
      destruct (at_position l k Hl Hk) as [b [j [Hb [Hj E]]]]. assert (B := at_bound l b j Hl Hb Hj).
      destruct (R b j Hb Hj) as [R1 R2]. destruct (I b j Hb Hj) as [w [W [I1 I2]]]. rewrite !H, R1, R2 in I1, I2 by lia.
      destruct E as [->| ->]; [rewrite I1; ring|]. rewrite I2.
      match goal with |- rsub (c ** (?u ++ ?v ** ?o)) _ ** w = _ => transitivity ((r1 ++ r1) ** c ** v ** (w ** o)); [ring|rewrite W; ring] end.
    Qed.
    Lemma round_iround l c z x : 0 < l <= L -> length z = len -> length x = len ->
      (forall k, k < 2 ^ L -> nth k x = c ** nth k (ifft_round radd rsub rmul r0 (ext l) (m + 2) l rot roots z)) ->
      forall k, k < 2 ^ L -> nth k (fft_round radd rsub rmul r0 (ext l) (m + 2) l rot roots x) = (r1 ++ r1) ** c ** nth k z.
    Proof.
      intros Hl Hz Hx H k Hk. destruct (round_at l x Hl Hx) as [_ [_ R]]. destruct (iround_at l z Hl Hz) as [_ [_ I]].
      destruct (at_position l k Hl Hk) as [b [j [Hb [Hj E]]]]. assert (B := at_bound l b j Hl Hb Hj).
      destruct (R b j Hb Hj) as [R1 R2]. destruct (I b j Hb Hj) as [w [W [I1 I2]]]. rewrite !H, I1, I2 in R1, R2 by lia.
      destruct E as [->| ->]; [rewrite R1|rewrite R2];
      match goal with |- ?op (c ** (?u ++ ?v)) (c ** (?d ** w) ** ?o) = _ => replace (c ** (d ** w) ** o) with (c ** d ** (w ** o)) by ring end; rewrite W; ring.
    Qed.

    Lemma irounds_rounds l : l <= L -> forall c x y, length x = len -> length y = len ->
      (forall k, k < 2 ^ L -> nth k x = c ** nth k (rounds (seq 1 l) y)) ->
      forall k, k < 2 ^ L -> nth k (irounds (rev (seq 1 l)) x) = pow (r1 ++ r1) l ** c ** nth k y.
    Proof.
      induction l as [|l IH]; intros Hl c x y Hx Hy H k Hk.
      - change (irounds (rev (seq 1 0)) x) with x. rewrite H by exact Hk. cbn [seq rpow]. unfold rounds. cbn [fold_left]. ring.
      - rewrite seq_S, rev_app_distr. cbn [rev List.app]. unfold irounds. cbn [fold_left].
        assert (LY : length (rounds (seq 1 l) y) = len) by (apply rounds_length; [intros i Hi; apply in_seq in Hi; lia|exact Hy]).
        etransitivity; [eapply (IH ltac:(lia) ((r1 ++ r1) ** c))|]; [|exact Hy| |exact Hk|cbn [rpow]; ring].
        + apply iround_at; [lia|exact Hx].
        + apply iround_round; [lia|exact LY|exact Hx|]. intros i Hi. rewrite H by exact Hi. rewrite seq_S. unfold rounds. rewrite fold_left_app. reflexivity.
    Qed.
    Lemma rounds_irounds l : l <= L -> forall c x y, length x = len -> length y = len ->
      (forall k, k < 2 ^ L -> nth k x = c ** nth k (irounds (rev (seq 1 l)) y)) ->
      forall k, k < 2 ^ L -> nth k (rounds (seq 1 l) x) = pow (r1 ++ r1) l ** c ** nth k y.
    Proof.
      induction l as [|l IH]; intros Hl c x y Hx Hy H k Hk.
      - change (rounds (seq 1 0) x) with x. rewrite H by exact Hk. cbn [seq rpow rev]. unfold irounds. cbn [fold_left]. ring.
      - rewrite seq_S. unfold rounds. rewrite fold_left_app. cbn [fold_left]. fold (rounds (seq 1 l) x).
        assert (LX : length (rounds (seq 1 l) x) = len) by (apply rounds_length; [intros i Hi; apply in_seq in Hi; lia|exact Hx]).
        etransitivity; [apply (round_iround (S l) (pow (r1 ++ r1) l ** c) y)|]; [lia|exact Hy|exact LX| |exact Hk|cbn [rpow]; ring].
        apply IH; [lia|exact Hx|apply iround_at; [lia|exact Hy]|]. intros i Hi. rewrite H by exact Hi. rewrite seq_S, rev_app_distr. reflexivity.
    Qed.
  End Table.
End FftRing.
