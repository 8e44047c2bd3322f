(** The special transforms: what they compute over a commutative ring, and the unrolled versions. *)
From Coq Require Import ZArith List Lia Bool Arith Ring Ring_theory.
Import ListNotations.
From Verif Require Import Word Ring RingProofs NTT NTTProofs Fft FftSpec FftProofs FftRing.
Local Open Scope nat_scope.

Section Top.
  Context {T : Type}.
  Variables (r0 r1 : T) (radd rmul rsub : T -> T -> T) (ropp : T -> T).
  Variable RT : ring_theory r0 r1 radd rmul rsub ropp eq.
  Add Ring TRing : RT.
  Notation pow := (rpow r1 rmul).
  Notation nth k l := (List.nth k l r0).
  Variables (m L : nat) (zeta : T) (roots : list T).
  Hypothesis TAB : root_table r0 r1 rmul ropp zeta (2 ^ (m + 2)) roots.
  Hypothesis HL : L <= m.
  Notation fft v := (SpecialFFTVec radd rsub rmul r0 v (2 ^ L) (2 ^ (m + 2)) (rotGroup (2 ^ (m + 2))) roots).
  Notation ifft dv v := (SpecialiFFTVec radd rsub rmul r0 dv v (2 ^ L) (2 ^ (m + 2)) (rotGroup (2 ^ (m + 2))) roots).

  Lemma rot_ok j : j < 2 ^ m -> List.nth j (rotGroup (2 ^ (m + 2))) 0%Z = (5 ^ Z.of_nat j mod 2 ^ Z.of_nat (m + 2))%Z.
  Proof. apply rotGroup_nth. Qed.
  Lemma ext_const len : 2 ^ L <= len -> forall l, 0 < l <= L -> exists cnt, 2 ^ L = cnt * 2 ^ l /\ 2 ^ L <= 2 ^ L <= len.
  Proof. intros H l Hl. exists (2 ^ (L - l)). split; [|lia]. rewrite <- Nat.pow_add_r. f_equal. lia. Qed.
  Lemma in_rounds l : In l (seq 1 L) -> 0 < l <= L.
  Proof. intros H. apply in_seq in H. lia. Qed.

  Definition rnds xs := rounds r0 radd rmul rsub m (rotGroup (2 ^ (m + 2))) roots (fun _ => 2 ^ L) (seq 1 L) xs.
  Definition irnds xs := irounds r0 radd rmul rsub m (rotGroup (2 ^ (m + 2))) roots (fun _ => 2 ^ L) (rev (seq 1 L)) xs.
  Lemma fft_eq v : fft v = rnds (SliceBitReverseInPlace r0 v (2 ^ L)).
  Proof. unfold SpecialFFTVec. rewrite !Nat.log2_pow2 by lia. reflexivity. Qed.
  Lemma ifft_eq dv v : ifft dv v = SliceBitReverseInPlace r0 (map dv (firstn (2 ^ L) (irnds v)) ++ skipn (2 ^ L) (irnds v)) (2 ^ L).
  Proof. unfold SpecialiFFTVec. rewrite !Nat.log2_pow2 by lia. reflexivity. Qed.

  Lemma special_fft v : 2 ^ L <= length v ->
    length (fft v) = length v /\
    (forall k, k < 2 ^ L -> nth k (fft v) = eval_poly r0 r1 radd rmul (2 ^ L) v (pow zeta (2 ^ (m - L) * 5 ^ k))) /\
    (forall k, 2 ^ L <= k -> nth k (fft v) = nth k v).
  Proof.
    intros Hv. rewrite fft_eq. destruct (bit_reverse r0 L v Hv) as [B1 B2]. unfold rnds. split; [|split].
    - eapply rounds_length; [exact RT|exact TAB|exact rot_ok|exact HL|exact (ext_const _ Hv)|exact in_rounds|exact B1].
    - intros k Hk.
      destruct (rounds_spec r0 r1 radd rmul rsub ropp RT m zeta _ roots TAB rot_ok L (fun _ => 2 ^ L) (length v) HL (ext_const _ Hv)
                 (fun t => nth t v) (SliceBitReverseInPlace r0 v (2 ^ L)) B1) with (l := L) as [_ R].
      { intros i Hi. rewrite B2. rewrite (proj2 (Nat.ltb_lt _ _) Hi). reflexivity. }
      { lia. }
      specialize (R 0 k). rewrite Nat.sub_diag in R. cbn [Nat.mul Nat.add Nat.pow] in R. rewrite R by lia.
      unfold eval_poly. apply sum_ext. intros t Ht. rewrite brvn_0, Nat.mul_1_r, Nat.add_0_r. f_equal. unfold om. rewrite <- !(pow_mul _ _ _ _ _ _ RT). f_equal. ring.
    - intros k Hk. etransitivity.
      + eapply rounds_keep; [exact RT|exact TAB|exact rot_ok|exact HL|exact (ext_const _ Hv)| |exact B1|exact Hk].
        intros l Hl. split; [apply in_rounds; exact Hl|reflexivity].
      + rewrite B2, (proj2 (Nat.ltb_ge _ _) Hk). reflexivity.
  Qed.

  Lemma irnds_props v : 2 ^ L <= length v -> length (irnds v) = length v /\ forall k, 2 ^ L <= k -> nth k (irnds v) = nth k v.
  Proof.
    intros Hv. assert (IN : forall l, In l (rev (seq 1 L)) -> 0 < l <= L) by (intros l Hl; apply in_rounds; apply in_rev; exact Hl). unfold irnds. split.
    - eapply irounds_length; [exact RT|exact TAB|exact rot_ok|exact HL|exact (ext_const _ Hv)|exact IN|reflexivity].
    - intros k Hk. eapply irounds_keep; [exact RT|exact TAB|exact rot_ok|exact HL|exact (ext_const _ Hv)| |reflexivity|exact Hk].
      intros l Hl. split; [apply IN; exact Hl|reflexivity].
  Qed.
  Lemma divided dv (x : list T) k : 2 ^ L <= length x ->
    nth k (map dv (firstn (2 ^ L) x) ++ skipn (2 ^ L) x) = if Nat.ltb k (2 ^ L) then dv (nth k x) else nth k x.
  Proof.
    intros Hx. destruct (Nat.ltb_spec k (2 ^ L)) as [Hk|Hk].
    - rewrite app_nth1 by (rewrite map_length, firstn_length; lia). rewrite (nth_indep _ r0 (dv r0)) by (rewrite map_length, firstn_length; lia).
      rewrite map_nth, nth_firstn by exact Hk. reflexivity.
    - rewrite app_nth2; rewrite map_length, firstn_length, Nat.min_l by lia; [|lia]. rewrite nth_skipn. f_equal. lia.
  Qed.
  Lemma ifft_nth dv v k : 2 ^ L <= length v -> length (ifft dv v) = length v /\
    nth k (ifft dv v) = if Nat.ltb k (2 ^ L) then dv (nth (brvn L k) (irnds v)) else nth k v.
  Proof.
    intros Hv. rewrite ifft_eq. destruct (irnds_props v Hv) as [I1 I2].
    set (d := (map dv (firstn (2 ^ L) (irnds v)) ++ skipn (2 ^ L) (irnds v))).
    assert (LD : length d = length v) by (unfold d; rewrite app_length, map_length, firstn_length, skipn_length; lia).
    destruct (bit_reverse r0 L d) as [B1 B2]; [lia|]. split; [congruence|]. rewrite B2. unfold d. rewrite !divided by lia.
    destruct (Nat.ltb_spec k (2 ^ L)) as [Hk|Hk]; [rewrite (proj2 (Nat.ltb_lt _ _) (brvn_lt L k)); reflexivity|apply I2; exact Hk].
  Qed.

  Variables (dv : T -> T) (c : T).
  Hypothesis DV : forall x, dv x = rmul c x.
  Hypothesis CN : rmul c (of_nat r0 r1 radd (2 ^ L)) = r1.
  Lemma two_c : rmul c (pow (radd r1 r1) L) = r1.
  Proof. rewrite <- (of_nat_pow r0 r1 radd rmul rsub ropp RT). exact CN. Qed.

  Lemma ifft_fft v : 2 ^ L <= length v -> ifft dv (fft v) = v.
  Proof.
    intros Hv. destruct (special_fft v Hv) as [F1 [_ F3]]. assert (Hf : 2 ^ L <= length (fft v)) by lia.
    apply (list_ext _ _ r0); [destruct (ifft_nth dv (fft v) 0 Hf); lia|]. intros k _. destruct (ifft_nth dv (fft v) k Hf) as [_ ->].
    destruct (Nat.ltb_spec k (2 ^ L)) as [Hk|Hk]; [|apply F3; exact Hk].
    destruct (bit_reverse r0 L v Hv) as [B1 B2]. rewrite DV. unfold irnds.
    rewrite (irounds_rounds r0 r1 radd rmul rsub ropp RT m zeta _ roots TAB rot_ok L (fun _ => 2 ^ L) (length v) HL (ext_const _ Hv)
               L ltac:(lia) r1 (fft v) (SliceBitReverseInPlace r0 v (2 ^ L)) F1 B1); [| |apply brvn_lt].
    - rewrite B2, (proj2 (Nat.ltb_lt _ _) (brvn_lt L k)), brvn_invol by exact Hk.
      transitivity (rmul (rmul c (pow (radd r1 r1) L)) (nth k v)); [ring|rewrite two_c; ring].
    - intros i Hi. rewrite fft_eq. unfold rnds. ring.
  Qed.
  Lemma fft_ifft v : 2 ^ L <= length v -> fft (ifft dv v) = v.
  Proof.
    intros Hv. assert (LI : length (ifft dv v) = length v) by (destruct (ifft_nth dv v 0 Hv); assumption).
    assert (Hf : 2 ^ L <= length (ifft dv v)) by lia. destruct (special_fft (ifft dv v) Hf) as [F1 [_ F3]].
    apply (list_ext _ _ r0); [lia|]. intros k _.
    destruct (Nat.lt_ge_cases k (2 ^ L)) as [Hk|Hk].
    - rewrite fft_eq. destruct (bit_reverse r0 L (ifft dv v) Hf) as [B1 B2]. unfold rnds.
      rewrite (rounds_irounds r0 r1 radd rmul rsub ropp RT m zeta _ roots TAB rot_ok L (fun _ => 2 ^ L) (length v) HL (ext_const _ Hv)
                 L ltac:(lia) c (SliceBitReverseInPlace r0 (ifft dv v) (2 ^ L)) v ltac:(lia) eq_refl); [| |exact Hk].
      + transitivity (rmul (rmul c (pow (radd r1 r1) L)) (nth k v)); [ring|rewrite two_c; ring].
      + intros i Hi. rewrite B2, (proj2 (Nat.ltb_lt _ _) Hi). destruct (ifft_nth dv v (brvn L i) Hv) as [_ ->].
        rewrite (proj2 (Nat.ltb_lt _ _) (brvn_lt L i)), brvn_invol by exact Hi. rewrite DV. reflexivity.
    - rewrite F3 by exact Hk. destruct (ifft_nth dv v k Hv) as [_ ->]. rewrite (proj2 (Nat.ltb_ge _ _) Hk). reflexivity.
  Qed.
End Top.

(** ** The unrolled versions, for any operations *)
Section Unrolled.
  Context {T : Type}.
  Variables (add sub mul : T -> T -> T) (zero : T) (logM : nat) (rot : list Z) (roots : list T).
  Notation nth k l := (List.nth k l zero).

  Lemma same_position l k L : 0 < l <= L -> k < 2 ^ L -> exists b j, b < 2 ^ (L - l) /\ j < 2 ^ (l - 1) /\ (k = b * 2 ^ l + j \/ k = b * 2 ^ l + (2 ^ (l - 1) + j)).
  Proof. intros Hl Hk. apply position; [lia|]. rewrite <- Nat.pow_add_r. replace (L - l + l) with L by lia. exact Hk. Qed.
  Lemma same_bound l b j L : 0 < l <= L -> b < 2 ^ (L - l) -> j < 2 ^ (l - 1) -> b * 2 ^ l + (2 ^ (l - 1) + j) < 2 ^ L.
  Proof.
    intros Hl Hb Hj. assert (E := pow_half l ltac:(lia)). assert (P := pow2n_pos l).
    assert (2 ^ L = 2 ^ (L - l) * 2 ^ l) by (rewrite <- Nat.pow_add_r; f_equal; lia). nia.
  Qed.
  Lemma count_le l L cnt : 0 < l <= L -> 2 ^ L <= cnt * 2 ^ l -> 2 ^ (L - l) <= cnt.
  Proof. intros Hl H. replace L with (L - l + l) in H by lia. rewrite Nat.pow_add_r in H. assert (P := pow2n_pos l). nia. Qed.

  Lemma fft_round_local l L c1 c2 xs ys : 0 < l <= L -> 2 ^ L <= c1 * 2 ^ l <= length xs -> 2 ^ L <= c2 * 2 ^ l <= length ys ->
    (forall k, k < 2 ^ L -> nth k xs = nth k ys) ->
    forall k, k < 2 ^ L -> nth k (fft_round add sub mul zero (c1 * 2 ^ l) logM l rot roots xs) = nth k (fft_round add sub mul zero (c2 * 2 ^ l) logM l rot roots ys).
  Proof.
    intros Hl H1 H2 S k Hk. destruct (same_position l k L Hl Hk) as [b [j [Hb [Hj E]]]]. assert (B := same_bound l b j L Hl Hb Hj).
    assert (C1 := count_le l L c1 Hl (proj1 H1)). assert (C2 := count_le l L c2 Hl (proj1 H2)).
    destruct (fft_round_spec zero add sub mul logM rot roots c1 l xs ltac:(lia) ltac:(lia)) as [_ [_ R1]].
    destruct (fft_round_spec zero add sub mul logM rot roots c2 l ys ltac:(lia) ltac:(lia)) as [_ [_ R2]].
    destruct (R1 b j ltac:(lia) Hj) as [A1 A2]. destruct (R2 b j ltac:(lia) Hj) as [B1 B2]. rewrite !S in A1, A2 by lia.
    destruct E as [->| ->]; congruence.
  Qed.
  Lemma ifft_round_local l L c1 c2 xs ys : 0 < l <= L -> 2 ^ L <= c1 * 2 ^ l <= length xs -> 2 ^ L <= c2 * 2 ^ l <= length ys ->
    (forall k, k < 2 ^ L -> nth k xs = nth k ys) ->
    forall k, k < 2 ^ L -> nth k (ifft_round add sub mul zero (c1 * 2 ^ l) logM l rot roots xs) = nth k (ifft_round add sub mul zero (c2 * 2 ^ l) logM l rot roots ys).
  Proof.
    intros Hl H1 H2 S k Hk. destruct (same_position l k L Hl Hk) as [b [j [Hb [Hj E]]]]. assert (B := same_bound l b j L Hl Hb Hj).
    assert (C1 := count_le l L c1 Hl (proj1 H1)). assert (C2 := count_le l L c2 Hl (proj1 H2)).
    destruct (ifft_round_spec zero add sub mul logM rot roots c1 l xs ltac:(lia) ltac:(lia)) as [_ [_ R1]].
    destruct (ifft_round_spec zero add sub mul logM rot roots c2 l ys ltac:(lia) ltac:(lia)) as [_ [_ R2]].
    destruct (R1 b j ltac:(lia) Hj) as [A1 A2]. destruct (R2 b j ltac:(lia) Hj) as [B1 B2]. rewrite !S in A1, A2 by lia.
    destruct E as [->| ->]; congruence.
  Qed.

  (** The extents. *)
  Lemma extent_spec L l len : 0 < l <= L -> (2 ^ L + 15) / 16 * 16 <= len -> exists c, ul8_extent (2 ^ L) l = c * 2 ^ l /\ 2 ^ L <= c * 2 ^ l <= len.
  Proof.
    intros Hl H. destruct (Nat.lt_ge_cases L 4) as [H4|H4].
    - assert (E : (2 ^ L + 15) / 16 * 16 = 16). { destruct L as [|[|[|[|L]]]]; try reflexivity; lia. }
      exists (2 ^ (4 - l)). unfold ul8_extent. rewrite (proj2 (Nat.leb_le l 4)) by lia. rewrite E in *.
      replace (2 ^ (4 - l) * 2 ^ l) with 16; [split; [reflexivity|]|rewrite <- Nat.pow_add_r; replace (4 - l + l) with 4 by lia; reflexivity].
      split; [|exact H]. change 16 with (2 ^ 4). apply Nat.pow_le_mono_r; lia.
    - assert (E : (2 ^ L + 15) / 16 * 16 = 2 ^ L).
      { replace (2 ^ L) with (2 ^ (L - 4) * 16) at 1 by (change 16 with (2 ^ 4); rewrite <- Nat.pow_add_r; f_equal; lia).
        rewrite Nat.div_add_l by lia. rewrite (Nat.div_small 15 16) by lia. rewrite Nat.add_0_r. change 16 with (2 ^ 4). rewrite <- Nat.pow_add_r. f_equal. lia. }
      exists (2 ^ (L - l)). unfold ul8_extent. rewrite E in *. replace (2 ^ (L - l) * 2 ^ l) with (2 ^ L) by (rewrite <- Nat.pow_add_r; f_equal; lia).
      destruct (Nat.leb l 4); split; try reflexivity; lia.
  Qed.

  Definition round_fun := nat -> nat -> list T -> list T.
  Lemma runs_same (R : round_fun) L : 
    (forall l c xs, 0 < l -> c * 2 ^ l <= length xs -> length (R (c * 2 ^ l) l xs) = length xs) ->
    (forall l c1 c2 xs ys, 0 < l <= L -> 2 ^ L <= c1 * 2 ^ l <= length xs -> 2 ^ L <= c2 * 2 ^ l <= length ys ->
       (forall k, k < 2 ^ L -> nth k xs = nth k ys) -> forall k, k < 2 ^ L -> nth k (R (c1 * 2 ^ l) l xs) = nth k (R (c2 * 2 ^ l) l ys)) ->
    forall ls, (forall l, In l ls -> 0 < l <= L) -> forall xs ys, length xs = length ys -> (2 ^ L + 15) / 16 * 16 <= length xs ->
    (forall k, k < 2 ^ L -> nth k xs = nth k ys) ->
    let ox := fold_left (fun xs l => R (ul8_extent (2 ^ L) l) l xs) ls xs in
    let oy := fold_left (fun xs l => R (2 ^ L) l xs) ls ys in
    length ox = length xs /\ length oy = length ys /\ forall k, k < 2 ^ L -> nth k ox = nth k oy.
  Proof.
    intros RL RS. induction ls as [|l ls IH]; intros IN xs ys Hxy Hx S ox oy; [split; [reflexivity|split; [reflexivity|exact S]]|].
    assert (Hl : 0 < l <= L) by (apply IN; left; reflexivity).
    destruct (extent_spec L l (length xs) Hl Hx) as [c [E1 E2]].
    assert (E3 : 2 ^ L = 2 ^ (L - l) * 2 ^ l) by (rewrite <- Nat.pow_add_r; f_equal; lia).
    assert (H1 : length (R (ul8_extent (2 ^ L) l) l xs) = length xs) by (rewrite E1; apply RL; lia).
    assert (H2 : length (R (2 ^ L) l ys) = length ys) by (rewrite E3; apply RL; lia).
    unfold ox, oy. cbn [fold_left].
    destruct (IH ltac:(intros l' H'; apply IN; right; exact H') (R (ul8_extent (2 ^ L) l) l xs) (R (2 ^ L) l ys)) as [I1 [I2 I3]].
    - congruence.
    - rewrite H1. exact Hx.
    - intros k Hk. rewrite E1. rewrite E3. apply RS; try assumption; lia.
    - split; [congruence|]. split; [congruence|exact I3].
  Qed.

  Lemma fft_unrolled values L M : 3 <= L -> Nat.log2 M = logM -> (2 ^ L + 15) / 16 * 16 <= length values ->
    exists out, SpecialFFTUL8Vec add sub mul zero values (2 ^ L) M rot roots = Some out /\ length out = length values /\
      forall k, k < 2 ^ L -> nth k out = nth k (SpecialFFTVec add sub mul zero values (2 ^ L) M rot roots).
  Proof.
    intros HL HM H. unfold SpecialFFTUL8Vec, SpecialFFTVec. rewrite (proj2 (Nat.ltb_ge _ _) H). eexists. split; [reflexivity|].
    assert (HN : 2 ^ L <= length values). { destruct (extent_spec L 1 (length values) ltac:(lia) H) as [c [_ E]]. lia. }
    destruct (bit_reverse zero L values HN) as [B1 B2]. rewrite Nat.log2_pow2 by lia. rewrite HM.
    destruct (runs_same (fun e l xs => fft_round add sub mul zero e logM l rot roots xs) L) with (ls := seq 1 L) (xs := SliceBitReverseInPlace zero values (2 ^ L)) (ys := SliceBitReverseInPlace zero values (2 ^ L)) as [R1 [R2 R3]].
    - intros l c xs Hl Hx. apply fft_round_spec; assumption.
    - intros l c1 c2 xs ys Hl. apply fft_round_local. exact Hl.
    - intros l Hl. apply in_seq in Hl. lia.
    - reflexivity.
    - rewrite B1. exact H.
    - reflexivity.
    - split; [congruence|exact R3].
  Qed.
  Lemma ifft_unrolled dv values L M : 3 <= L -> Nat.log2 M = logM -> (2 ^ L + 15) / 16 * 16 <= length values -> length values mod 8 = 0 ->
    exists out, SpecialiFFTUL8Vec add sub mul zero dv values (2 ^ L) M rot roots = Some out /\ length out = length values /\
      forall k, k < 2 ^ L -> nth k out = nth k (SpecialiFFTVec add sub mul zero dv values (2 ^ L) M rot roots).
  Proof.
    intros HL HM H H8. unfold SpecialiFFTUL8Vec, SpecialiFFTVec. rewrite (proj2 (Nat.ltb_ge _ _) H), (proj2 (Nat.eqb_eq _ _) H8). cbn [negb orb]. eexists. split; [reflexivity|].
    assert (HN : 2 ^ L <= length values). { destruct (extent_spec L 1 (length values) ltac:(lia) H) as [c [_ E]]. lia. }
    rewrite Nat.log2_pow2 by lia. rewrite HM.
    destruct (runs_same (fun e l xs => ifft_round add sub mul zero e logM l rot roots xs) L) with (ls := rev (seq 1 L)) (xs := values) (ys := values) as [R1 [R2 R3]].
    - intros l c xs Hl Hx. apply ifft_round_spec; assumption.
    - intros l c1 c2 xs ys Hl. apply ifft_round_local. exact Hl.
    - intros l Hl. apply in_rev, in_seq in Hl. lia.
    - reflexivity.
    - exact H.
    - reflexivity.
    - cbv zeta beta in R1, R2, R3. set (ox := fold_left _ _ _) in R1, R3 |- *. set (oy := fold_left (fun xs l => ifft_round _ _ _ _ (2 ^ L) _ _ _ _ xs) _ _) in R2, R3 |- *.
      clearbody ox oy.
      set (dx := map dv ox). set (dy := map dv (firstn (2 ^ L) oy) ++ skipn (2 ^ L) oy).
      assert (LX : length dx = length values) by (unfold dx; rewrite map_length; exact R1).
      assert (LY : length dy = length values) by (unfold dy; rewrite app_length, map_length, firstn_length, skipn_length; lia).
      destruct (bit_reverse zero L dx ltac:(lia)) as [X1 X2]. destruct (bit_reverse zero L dy ltac:(lia)) as [Y1 Y2].
      split; [congruence|]. intros k Hk. rewrite X2, Y2, (proj2 (Nat.ltb_lt _ _) Hk). assert (Hb := brvn_lt L k). set (i := brvn L k) in *. clearbody i.
      unfold dx, dy. rewrite app_nth1 by (rewrite map_length, firstn_length; lia).
      rewrite (nth_indep (map dv ox) zero (dv zero)) by (rewrite map_length; lia). rewrite (nth_indep (map dv (firstn (2 ^ L) oy)) zero (dv zero)) by (rewrite map_length, firstn_length; lia).
      rewrite !map_nth, nth_firstn by exact Hb. f_equal. apply R3. exact Hb.
  Qed.

  (** The inverse transform of the arbitrary-precision encoder. *)
  Lemma big_ifft dv values L M : Nat.log2 M = logM -> 2 ^ L <= length values ->
    length (InvFFT add sub mul zero dv values (2 ^ L) M rot roots) = length values /\
    forall k, k < 2 ^ L -> nth k (InvFFT add sub mul zero dv values (2 ^ L) M rot roots) = nth k (SpecialiFFTVec add sub mul zero dv values (2 ^ L) M rot roots).
  Proof.
    intros HM HN. unfold InvFFT, SpecialiFFTVec. rewrite Nat.log2_pow2 by lia. rewrite HM.
    set (f := fun (xs : list T) (l : nat) => ifft_round add sub mul zero (2 ^ L) logM l rot roots xs).
    assert (R : forall ls xs, (forall l, In l ls -> 0 < l <= L) -> length xs = length values -> length (fold_left f ls xs) = length values).
    { induction ls as [|l ls IH]; intros xs Hls Hx; [exact Hx|]. cbn [fold_left]. apply IH; [intros l' Hl; apply Hls; right; exact Hl|].
      unfold f. destruct (Hls l (or_introl eq_refl)) as [H1 H2].
      assert (E : 2 ^ L = 2 ^ (L - l) * 2 ^ l) by (rewrite <- Nat.pow_add_r; f_equal; lia). rewrite E.
      rewrite <- Hx. apply ifft_round_spec; [exact H1|lia]. }
    specialize (R (rev (seq 1 L)) values ltac:(intros l Hl; apply in_rev, in_seq in Hl; lia) eq_refl). set (oy := fold_left f _ _) in *. clearbody oy.
    set (dx := map dv oy). set (dy := map dv (firstn (2 ^ L) oy) ++ skipn (2 ^ L) oy).
    assert (LX : length dx = length values) by (unfold dx; rewrite map_length; exact R).
    assert (LY : length dy = length values) by (unfold dy; rewrite app_length, map_length, firstn_length, skipn_length; lia).
    destruct (bit_reverse zero L dx ltac:(lia)) as [X1 X2]. destruct (bit_reverse zero L dy ltac:(lia)) as [Y1 Y2].
    split; [congruence|]. intros k Hk. rewrite X2, Y2, (proj2 (Nat.ltb_lt _ _) Hk). assert (Hb := brvn_lt L k). set (i := brvn L k) in *. clearbody i.
    unfold dx, dy. rewrite app_nth1 by (rewrite map_length, firstn_length; lia).
    rewrite (nth_indep (map dv oy) zero (dv zero)) by (rewrite map_length; lia). rewrite (nth_indep (map dv (firstn (2 ^ L) oy)) zero (dv zero)) by (rewrite map_length, firstn_length; lia).
    rewrite !map_nth, nth_firstn by exact Hb. reflexivity.
  Qed.
End Unrolled.
