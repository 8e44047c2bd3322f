(** The ternary sampler with a given probability. *)
From Coq Require Import Permutation Znumtheory.
From Flocq Require Import IEEE754.BinarySingleNaN.
From Verif Require Import Word Arith ModRed ModRedProofs Ring RingProofs NTTProofs RingOps RNSSpec Float64 Codec CodecSpec CodecProofs CodecTop Sampler SamplerSpec SamplerProofs SamplerTop SparseProofs SparseTop.

(** ** The index of the value *)
Definition row_sign (row sign : Z) : Z := row * (1 - 2 * sign).
Lemma value_index_spec row sign : 0 <= row < 2 -> 0 <= sign < 2 -> (value_index row sign < 3)%nat /\ trit (value_index row sign) = row_sign row sign.
Proof.
  intros H1 H2. assert (E1 : row = 0 \/ row = 1) by lia. assert (E2 : sign = 0 \/ sign = 1) by lia. destruct E1 as [-> | ->], E2 as [-> | ->]; split; (reflexivity || (cbn; lia)).
Qed.

(** ** Probability one half *)
Lemma half_sound r : built_ring 2 r -> forall fuel s mont level pol g, (level < length (rmods r))%nat -> has_rows (rN r) level pol ->
  exists pol', sampleProba fuel s r mont half level pol g = Ret (pol', mkPrng (wadd (wadd (clock g) 1) 1) (pos g + rN r / 8 + rN r / 8)) /\
    signed_rows r level (factor mont) (fun i => bit_of (block s (pos g) (rN r / 8)) i * (1 - 2 * bit_of (block s (pos g + rN r / 8) (rN r / 8)) i)) pol pol'.
Proof.
  intros HB fuel s mont level pol g HL HP. unfold sampleProba. replace (Beqb half (f64_of_Z 0)) with false by (symmetry; vm_compute; reflexivity). replace (Beqb half (f64_div (f64_of_Z 1) (f64_of_Z 2))) with true by (symmetry; vm_compute; reflexivity).
  assert (HP0 := HP). destruct HP as (HP1 & HP2). assert (LM : length (firstn (level + 1) (rmods r)) = (level + 1)%nat) by (apply firstn_len; lia).
  rewrite (proj2 (Nat.ltb_lt _ _) HL). rewrite room_ok; [|lia|rewrite LM; apply has_rows_forall; [intros i Hi; apply HP2; lia|lia]]. cbn [andb]. unfold Clock. cbn [pos clock]. eexists. split; [reflexivity|].
  set (cb := block s (pos g) (rN r / 8)). set (sb := block s (pos g + rN r / 8) (rN r / 8)).
  set (ws := map (fun i => (i, value_index (bit_of cb i) (bit_of sb i))) (seq 0 (rN r))).
  assert (EW : forall l pol, fold_left (fun pol i => set_coeff mont (firstn (level + 1) (rmods r)) pol i (value_index (nth (i / 8) cb 0 / 2 ^ Z.of_nat (i mod 8) mod 2) (nth (i / 8) sb 0 / 2 ^ Z.of_nat (i mod 8) mod 2))) l pol = writes mont (firstn (level + 1) (rmods r)) (map (fun i => (i, value_index (bit_of cb i) (bit_of sb i))) l) pol).
  { induction l as [|i l IH]; intros pol0; [reflexivity|]. unfold writes in *. cbn [fold_left map fst snd]. apply IH. }
  cbv zeta. rewrite EW. fold ws. assert (EF : map fst ws = seq 0 (rN r)) by (unfold ws; rewrite map_map; cbn [fst]; apply map_id).
  assert (SW : signed_rows r level (factor mont) (written ws) pol (writes mont (firstn (level + 1) (rmods r)) ws pol)).
  { apply (writes_signed 2); [lia|exact HB|exact HL|exact HP0|rewrite EF; apply seq_NoDup|intros i; rewrite EF, in_seq; lia|]. intros [i v] I. unfold ws in I. apply in_map_iff in I. destruct I as (j & E & _). injection E as <- <-. cbn [snd]. apply value_index_spec; apply bit_of_range. }
  destruct SW as (A & B & C). split; [exact A|]. split; [exact B|]. intros k Hk. rewrite (C k Hk). apply map_ext_in. intros i Hi. f_equal. f_equal. rewrite (written_in ws i (value_index (bit_of cb i) (bit_of sb i))).
  - apply value_index_spec; apply bit_of_range.
  - rewrite EF. apply seq_NoDup.
  - unfold ws. apply (in_map (fun i => (i, value_index (bit_of cb i) (bit_of sb i)))). exact Hi.
Qed.

(** ** Any probability *)
Lemma ky_range fuel s m0 m1 N : forall d col buf i bp g, match ky fuel s m0 m1 N d col buf i bp g with Ret (row, sign, _, _, _, _) => 0 <= row < 2 /\ 0 <= sign < 2 | _ => True end.
Proof.
  assert (MB : forall x, 0 <= x mod 2 < 2) by (intros; apply Z.mod_pos_bound; lia).
  induction fuel as [|fuel IH]; intros d col buf i bp g; [exact I|]. cbn [ky]. unfold Clock.
  set (nx := if Nat.leb N (S bp) then _ else _). destruct nx as [[buf1 bp1] g1]. destruct (Nat.leb 8 i); [apply IH|].
  destruct (Codec.index buf bp) as [b| |]; cbn [bind]; [|exact I|exact I]. destruct (1 <? _); [apply IH|].
  destruct (Codec.index m1 col) as [x1| |]; cbn [bind]; [|exact I|exact I]. destruct (_ =? -1).
  - destruct (Nat.eqb i 7); [destruct (Codec.index buf1 bp1) as [b1| |]; cbn [bind]; [|exact I|exact I]|]; split; try apply MB; lia.
  - destruct (Codec.index m0 col) as [x0| |]; cbn [bind]; [|exact I|exact I]. destruct (_ =? -1); [|apply IH].
    destruct (Nat.eqb i 7); [destruct (Codec.index buf1 bp1) as [b1| |]; cbn [bind]; [|exact I|exact I]|]; split; try apply MB; lia.
Qed.
Lemma proba_loop_sound fuel s m0 m1 N mont ms is : forall buf ptr bp pol g, match proba_loop fuel s m0 m1 N mont ms is buf ptr bp pol g with
  | Ret (pol', g') => exists vs, length vs = length is /\ Forall (fun v => (v < 3)%nat) vs /\ pol' = writes mont ms (combine is vs) pol | _ => True end.
Proof.
  induction is as [|i is IH]; intros buf ptr bp pol g; cbn [proba_loop]; [exists []; split; [reflexivity|]; split; [constructor|reflexivity]|]. pose proof (ky_range fuel s m0 m1 N 0 0 buf ptr bp g) as K.
  destruct (ky _ _ _ _ _ _ _ _ _ _ _) as [[[[[[row sign] buf1] ptr1] bp1] g1]| |]; cbn [bind]; [|exact I|exact I]. destruct K as [K1 K2]. specialize (IH buf1 ptr1 bp1 (set_coeff mont ms pol i (value_index row sign)) g1).
  destruct (proba_loop _ _ _ _ _ _ _ _ _ _ _ _ _) as [[pol' g']| |]; [|exact I|exact I]. destruct IH as (vs & L & F & E). exists (value_index row sign :: vs). split; [cbn; congruence|]. split; [constructor; [apply value_index_spec; assumption|exact F]|exact E].
Qed.
Lemma combine_seq_written vs N e0 : length vs = N -> (forall i, (i < N)%nat -> e0 i = trit (nth i vs 0%nat)) -> forall i, (i < N)%nat -> written (combine (seq 0 N) vs) i = e0 i.
Proof.
  intros L E i Hi. rewrite (E i Hi). apply written_in; [rewrite combine_fst by (rewrite seq_length; lia); apply seq_NoDup|]. replace i with (nth i (seq 0 N) 0%nat) at 1 by (rewrite seq_nth by exact Hi; reflexivity).
  rewrite <- combine_nth by (rewrite seq_length; lia). apply nth_In. rewrite combine_length, seq_length. lia.
Qed.
Lemma proba_writes r mont level pol vs : built_ring 2 r -> (level < length (rmods r))%nat -> has_rows (rN r) level pol -> length vs = rN r -> Forall (fun v => (v < 3)%nat) vs ->
  signed_rows r level (factor mont) (fun i => trit (nth i vs 0%nat)) pol (writes mont (firstn (level + 1) (rmods r)) (combine (seq 0 (rN r)) vs) pol).
Proof.
  intros HB HL HP LV FV. assert (EF : map fst (combine (seq 0 (rN r)) vs) = seq 0 (rN r)) by (apply combine_fst; rewrite seq_length; lia).
  destruct (writes_signed 2 r mont level (combine (seq 0 (rN r)) vs) pol) as (A & B & C); [lia|exact HB|exact HL|exact HP|rewrite EF; apply seq_NoDup|intros i; rewrite EF, in_seq; lia| |].
  - intros [i v] I. apply in_combine_r in I. rewrite Forall_forall in FV. exact (FV v I).
  - split; [exact A|]. split; [exact B|]. intros k Hk. rewrite (C k Hk). apply map_ext_in. intros i Hi. apply in_seq in Hi. rewrite (combine_seq_written vs (rN r) (fun i => trit (nth i vs 0%nat)) LV) by (intros; reflexivity || lia). reflexivity.
Qed.
Lemma trit_range v : -1 <= trit v <= 1.
Proof. destruct v as [|[|[|v]]]; cbn; lia. Qed.
Lemma proba_unfold r : forall fuel s mont p level pol g, (level < length (rmods r))%nat -> has_rows (rN r) level pol -> Beqb p (f64_of_Z 0) = false -> Beqb p half = false ->
  sampleProba fuel s r mont p level pol g =
  proba_loop fuel s (fst (matrixProba p)) (snd (matrixProba p)) (rN r) mont (firstn (level + 1) (rmods r)) (seq 0 (rN r)) (block s (pos g) (rN r)) 0 0 pol (mkPrng (wadd (clock g) 1) (pos g + rN r)).
Proof.
  intros fuel s mont p level pol g HL (HP1 & HP2) E0 EH. unfold sampleProba. rewrite E0. assert (LM : length (firstn (level + 1) (rmods r)) = (level + 1)%nat) by (apply firstn_len; lia).
  rewrite (proj2 (Nat.ltb_lt _ _) HL). rewrite room_ok; [|lia|rewrite LM; apply has_rows_forall; [intros i Hi; apply HP2; lia|lia]]. cbn [andb]. fold half. rewrite EH. reflexivity.
Qed.
Lemma proba_ternary r : built_ring 2 r -> forall fuel s mont p level pol g pol' g', (level < length (rmods r))%nat -> has_rows (rN r) level pol -> sampleProba fuel s r mont p level pol g = Ret (pol', g') ->
  exists e, (forall i, -1 <= e i <= 1) /\ signed_rows r level (factor mont) e pol pol'.
Proof.
  intros HB fuel s mont p level pol g pol' g' HL HP E. destruct (Beqb p (f64_of_Z 0)) eqn:E0; [unfold sampleProba in E; rewrite E0 in E; discriminate|]. destruct (Beqb p half) eqn:EH.
  - destruct (half_sound r HB fuel s mont level pol g HL HP) as (pol2 & E2 & SR). assert (ES : sampleProba fuel s r mont p level pol g = sampleProba fuel s r mont half level pol g).
    { unfold sampleProba. fold half. rewrite E0, EH. replace (Beqb half (f64_of_Z 0)) with false by (symmetry; vm_compute; reflexivity). replace (Beqb half half) with true by (symmetry; vm_compute; reflexivity). reflexivity. }
    rewrite ES, E2 in E. injection E as <- _. eexists. split; [|exact SR]. intros i. cbv beta. pose proof (bit_of_range (block s (pos g) (rN r / 8)) i). pose proof (bit_of_range (block s (pos g + rN r / 8) (rN r / 8)) i). nia.
  - rewrite (proba_unfold r) in E by assumption. pose proof (proba_loop_sound fuel s (fst (matrixProba p)) (snd (matrixProba p)) (rN r) mont (firstn (level + 1) (rmods r)) (seq 0 (rN r)) (block s (pos g) (rN r)) 0 0 pol (mkPrng (wadd (clock g) 1) (pos g + rN r))) as R.
    rewrite E in R. destruct R as (vs & L & F & ->). rewrite seq_length in L. exists (fun i => trit (nth i vs 0%nat)). split; [intros i; apply trit_range|]. apply proba_writes; assumption.
Qed.

(** ** Probability one *)
Lemma ky_zero fuel s N c : forall d col buf i bp g, 0 <= d -> match ky fuel s (repeat 0 c) (repeat 0 c) N d col buf i bp g with Ret _ => False | _ => True end.
Proof.
  induction fuel as [|fuel IH]; intros d col buf i bp g Hd; [exact I|]. cbn [ky]. unfold Clock.
  set (nx := if Nat.leb N (S bp) then _ else _). destruct nx as [[buf1 bp1] g1]. destruct (Nat.leb 8 i); [apply IH; exact Hd|].
  destruct (Codec.index buf bp) as [b| |]; cbn [bind]; [|exact I|exact I]. destruct (1 <? _); [apply IH; lia|].
  assert (MB : 0 <= b / 2 ^ Z.of_nat i mod 2 < 2) by (apply Z.mod_pos_bound; lia). set (bit := b / 2 ^ Z.of_nat i mod 2) in *. clearbody bit.
  assert (EI : Codec.index (repeat 0 c) col = Ret 0 \/ Codec.index (repeat 0 c) col = Panic).
  { destruct (Nat.lt_ge_cases col c) as [H|H]; [left|right]; unfold Codec.index; [rewrite nth_error_repeat by exact H; reflexivity|]. rewrite (proj2 (nth_error_None _ _)) by (rewrite repeat_length; exact H). reflexivity. }
  destruct EI as [-> | ->]; cbn [bind]; [|exact I]. rewrite (proj2 (Z.eqb_neq _ _)) by lia. rewrite (proj2 (Z.eqb_neq _ _)) by lia. apply IH. lia.
Qed.
Lemma matrix_one : matrixProba (f64_of_Z 1) = (repeat 0 55, repeat 0 55).
Proof. vm_compute. reflexivity. Qed.
Lemma one_never r : built_ring 2 r -> forall fuel s mont level pol g x, (level < length (rmods r))%nat -> has_rows (rN r) level pol -> sampleProba fuel s r mont (f64_of_Z 1) level pol g <> Ret x.
Proof.
  intros HB fuel s mont level pol g x HL HP E. rewrite (proba_unfold r) in E; [|exact HL|exact HP|vm_compute; reflexivity|vm_compute; reflexivity]. rewrite matrix_one in E. cbn [fst snd] in E. destruct (built_degree 2 r ltac:(lia) HB) as (M & HM & EN). replace (rN r) with (S (rN r - 1)) in E at 2 by lia. cbn [seq proba_loop] in E.
  pose proof (ky_zero fuel s (rN r) 55 0 0 (block s (pos g) (rN r)) 0 0 (mkPrng (wadd (clock g) 1) (pos g + rN r)) ltac:(lia)) as K. destruct (ky _ _ _ _ _ _ _ _ _ _ _) as [y| |]; cbn [bind] in E; [contradiction|discriminate|discriminate].
Qed.

(** ** Probability one third *)
Definition third0 : list Z := [0; 1; 0; 1; 0; 1; 0; 1; 0; 1; 0; 1; 0; 1; 0; 1; 0; 1; 0; 1; 0; 1; 0; 1; 0; 1; 0; 1; 0; 1; 0; 1; 0; 1; 0; 1; 0; 1; 0; 1; 0; 1; 0; 1; 0; 1; 0; 1; 0; 1; 0; 1; 0; 1; 0].
Definition third1 : list Z := [1; 0; 1; 0; 1; 0; 1; 0; 1; 0; 1; 0; 1; 0; 1; 0; 1; 0; 1; 0; 1; 0; 1; 0; 1; 0; 1; 0; 1; 0; 1; 0; 1; 0; 1; 0; 1; 0; 1; 0; 1; 0; 1; 0; 1; 0; 1; 0; 1; 0; 1; 1; 0; 0; 0].
Lemma matrix_third : matrixProba third = (third0, third1).
Proof. vm_compute. reflexivity. Qed.
Definition column (c : nat) (x1 x0 : Z) : Prop := Codec.index third1 c = Ret x1 /\ Codec.index third0 c = Ret x0.
Lemma third_columns c : (c <= 51)%nat -> (c = 51%nat /\ column c 1 1) \/ ((c < 51)%nat /\ Nat.Even c /\ column c 1 0) \/ ((c < 51)%nat /\ column c 0 1).
Proof.
  intros H. assert (A : forallb (fun c => match Codec.index third1 c, Codec.index third0 c with Ret x1, Ret x0 => if Nat.eqb c 51 then (x1 =? 1) && (x0 =? 1) else if Nat.even c then (x1 =? 1) && (x0 =? 0) else (x1 =? 0) && (x0 =? 1) | _, _ => false end) (seq 0 52) = true) by (vm_compute; reflexivity).
  rewrite forallb_forall in A. specialize (A c ltac:(apply in_seq; lia)). unfold column. destruct (Codec.index third1 c) as [x1| |]; [|discriminate|discriminate]. destruct (Codec.index third0 c) as [x0| |]; [|discriminate|discriminate].
  destruct (Nat.eqb_spec c 51) as [E|E]; [left|right; destruct (Nat.even c) eqn:EV; [left|right]]; apply andb_true_iff in A; destruct A as [A1 A2]; apply Z.eqb_eq in A1, A2; subst; [split; [reflexivity|split; reflexivity]| |split; [lia|split; reflexivity]].
  split; [lia|]. split; [apply Nat.even_spec; exact EV|split; reflexivity].
Qed.
Lemma ky_third fuel s N : forall col buf i bp g, (col <= 51)%nat -> (i = col mod 8 \/ i = 8 /\ col mod 8 = 0)%nat ->
  match ky fuel s third0 third1 N 0 col buf i bp g with Ret (row, sign, buf', i', bp', g') => row = 1 -> exists b, Codec.index buf' bp' = Ret b /\ (i' <= 7)%nat /\ sign = b / 2 ^ Z.of_nat i' mod 2 | _ => True end.
Proof.
  induction fuel as [|fuel IH]; intros col buf i bp g Hc Hi; [exact I|]. cbn [ky]. unfold Clock.
  pose proof (Nat.mod_upper_bound col 8 ltac:(lia)) as UB. pose proof (Nat.div_mod col 8 ltac:(lia)) as DM.
  set (nx := if Nat.leb N (S bp) then _ else _). destruct nx as [[buf1 bp1] g1]. destruct (Nat.leb_spec 8 i) as [H8|H8]; [apply IH; [exact Hc|left; lia]|]. assert (Ei : i = (col mod 8)%nat) by lia.
  destruct (Codec.index buf bp) as [b| |] eqn:EB; cbn [bind]; [|exact I|exact I].
  assert (MB : 0 <= b / 2 ^ Z.of_nat i mod 2 < 2) by (apply Z.mod_pos_bound; lia). set (bit := b / 2 ^ Z.of_nat i mod 2) in *. clearbody bit. rewrite (proj2 (Z.ltb_ge _ _)) by lia.
  assert (F1 : i <> 7%nat -> forall row, row = 1 -> exists b0, Codec.index buf bp = Ret b0 /\ (i + 1 <= 7)%nat /\ b / 2 ^ Z.of_nat (i + 1) mod 2 = b0 / 2 ^ Z.of_nat (i + 1) mod 2).
  { intros Ne row _. exists b. split; [exact EB|]. split; [lia|reflexivity]. }
  destruct (third_columns col Hc) as [(E51 & C1 & C0)|[(L51 & [h EV] & C1 & C0)|(L51 & C1 & C0)]]; rewrite C1; cbn [bind].
  - assert (Ne : i <> 7%nat) by (subst col; cbn in Ei; lia). rewrite (proj2 (Nat.eqb_neq i 7) Ne). destruct (Z.eqb_spec (2 * 0 + 1 - bit - 1) (-1)) as [E|E]; [apply (F1 Ne 1)|]. rewrite C0. cbn [bind]. replace (2 * 0 + 1 - bit - 1 - 1 =? -1) with true by (symmetry; apply Z.eqb_eq; lia). intros Hr. discriminate Hr.
  - assert (Ne : i <> 7%nat) by lia. rewrite (proj2 (Nat.eqb_neq i 7) Ne). destruct (Z.eqb_spec (2 * 0 + 1 - bit - 1) (-1)) as [E|E]; [apply (F1 Ne 1)|]. rewrite C0. cbn [bind]. replace (2 * 0 + 1 - bit - 1 - 0 =? -1) with false by (symmetry; apply Z.eqb_neq; lia).
    replace (2 * 0 + 1 - bit - 1 - 0) with 0 by lia. apply IH; [lia|]. destruct (Nat.eq_dec i 7) as [E7|E7]; [lia|]. left. apply (Nat.mod_unique _ _ (col / 8)); lia.
  - replace (2 * 0 + 1 - bit - 0 =? -1) with false by (symmetry; apply Z.eqb_neq; lia). rewrite C0. cbn [bind]. destruct (Z.eqb_spec (2 * 0 + 1 - bit - 0 - 1) (-1)) as [E|E].
    + destruct (Nat.eqb i 7); [destruct (Codec.index buf1 bp1); cbn [bind]; try exact I|]; intros Hr; discriminate Hr.
    + replace (2 * 0 + 1 - bit - 0 - 1) with 0 by lia. apply IH; [lia|]. destruct (Nat.eq_dec i 7) as [E7|E7]; [right; split; [lia|]; symmetry; apply (Nat.mod_unique _ _ (S (col / 8))); lia|]. left. apply (Nat.mod_unique _ _ (col / 8)); lia.
Qed.
Lemma ky_third_next fuel s N buf i bp g b : Codec.index buf bp = Ret b -> (i <= 7)%nat -> b / 2 ^ Z.of_nat i mod 2 = 1 ->
  match ky fuel s third0 third1 N 0 0 buf i bp g with Ret (row, _, _, _, _, _) => row = 1 | _ => True end.
Proof.
  intros EB Hi E1. destruct fuel as [|fuel]; [exact I|]. cbn [ky]. unfold Clock. set (nx := if Nat.leb N (S bp) then _ else _). destruct nx as [[buf1 bp1] g1]. rewrite (proj2 (Nat.leb_gt _ _)) by lia. rewrite EB. cbn [bind]. rewrite E1.
  replace (1 <? 2 * 0 + 1 - 1) with false by reflexivity. change (Codec.index third1 0) with (@Ret Z 1). cbn [bind]. replace (2 * 0 + 1 - 1 - 1 =? -1) with true by reflexivity.
  destruct (Nat.eqb i 7); [destruct (Codec.index buf1 bp1); cbn [bind]; try exact I|]; reflexivity.
Qed.
Lemma third_correlated r : built_ring 2 r -> forall fuel s mont level pol g pol' g', (level < length (rmods r))%nat -> has_rows (rN r) level pol -> sampleProba fuel s r mont third level pol g = Ret (pol', g') ->
  exists e, (forall i, -1 <= e i <= 1) /\ signed_rows r level (factor mont) e pol pol' /\ (e 0%nat = -1 -> e 1%nat <> 0).
Proof.
  intros HB fuel s mont level pol g pol' g' HL HP E. rewrite (proba_unfold r) in E; [|exact HL|exact HP|vm_compute; reflexivity|vm_compute; reflexivity]. rewrite matrix_third in E. cbn [fst snd] in E. destruct (built_degree 2 r ltac:(lia) HB) as (M & HM & EN).
  assert (ES : seq 0 (rN r) = 0%nat :: 1%nat :: seq 2 (rN r - 2)) by (replace (rN r) with (S (S (rN r - 2))) at 1 by lia; reflexivity). rewrite ES in E. cbn [proba_loop] in E.
  pose proof (ky_third fuel s (rN r) 0 (block s (pos g) (rN r)) 0 0 (mkPrng (wadd (clock g) 1) (pos g + rN r)) ltac:(lia) (or_introl eq_refl)) as K1. pose proof (ky_range fuel s third0 third1 (rN r) 0 0 (block s (pos g) (rN r)) 0 0 (mkPrng (wadd (clock g) 1) (pos g + rN r))) as R1.
  destruct (ky _ _ _ _ _ _ _ _ _ _ _) as [[[[[[row sign] buf1] ptr1] bp1] g1]| |]; cbn [bind] in E; [|discriminate|discriminate]. destruct R1 as [R1 R1'].
  pose proof (ky_range fuel s third0 third1 (rN r) 0 0 buf1 ptr1 bp1 g1) as R2. pose proof (ky_third_next fuel s (rN r) buf1 ptr1 bp1 g1) as K2.
  destruct (ky fuel s third0 third1 (rN r) 0 0 buf1 ptr1 bp1 g1) as [[[[[[row2 sign2] buf2] ptr2] bp2] g2]| |]; cbn [bind] in E; [|discriminate|discriminate]. destruct R2 as [R2 R2'].
  match type of E with proba_loop _ _ _ _ _ _ _ ?is ?b ?p ?q ?po ?gg = _ => pose proof (proba_loop_sound fuel s third0 third1 (rN r) mont (firstn (level + 1) (rmods r)) is b p q po gg) as R end. rewrite E in R. destruct R as (vs & L & F & EP).
  set (v0 := value_index row sign) in *. set (v1 := value_index row2 sign2) in *. exists (fun i => trit (nth i (v0 :: v1 :: vs) 0%nat)). split; [intros i; apply trit_range|]. split.
  - assert (EW : pol' = writes mont (firstn (level + 1) (rmods r)) (combine (seq 0 (rN r)) (v0 :: v1 :: vs)) pol) by (rewrite EP, ES; reflexivity). rewrite EW. apply proba_writes; [exact HB|exact HL|exact HP| |].
    + rewrite seq_length in L. cbn [length]. lia.
    + constructor; [apply value_index_spec; assumption|]. constructor; [apply value_index_spec; assumption|exact F].
  - cbn [nth]. intros EM. destruct (value_index_spec row sign R1 R1') as [_ T1]. destruct (value_index_spec row2 sign2 R2 R2') as [_ T2]. fold v0 in T1. fold v1 in T2. rewrite T1 in EM. rewrite T2. unfold row_sign in *.
    assert (row = 1 /\ sign = 1) by nia. destruct H as [-> ->]. destruct (K1 eq_refl) as (b & EB & Hp & Eb). specialize (K2 b EB Hp (eq_sym Eb)). subst row2. nia.
Qed.
(** With probability one third every coefficient takes at most 52 bits. *)
Lemma ky_third_total s N : (0 < N)%nat -> forall fuel col buf i bp g, (col <= 51)%nat -> (i <= 8)%nat -> length buf = N -> (bp < N)%nat -> (2 * (52 - col) + (if Nat.eqb i 8 then 1 else 0) <= fuel)%nat ->
  exists row sign buf' i' bp' g', ky fuel s third0 third1 N 0 col buf i bp g = Ret (row, sign, buf', i', bp', g') /\ length buf' = N /\ (bp' < N)%nat /\ (i' <= 8)%nat.
Proof.
  intros HN. induction fuel as [|fuel IH]; intros col buf i bp g Hc Hi LB Hb Hf; [lia|]. cbn [ky]. unfold Clock.
  assert (NX : exists buf1 bp1 g1, (if Nat.leb N (S bp) then (block s (pos g) N, 0%nat, mkPrng (wadd (clock g) 1) (pos g + N)) else (buf, S bp, g)) = (buf1, bp1, g1) /\ length buf1 = N /\ (bp1 < N)%nat).
  { destruct (Nat.leb_spec N (S bp)); eexists _, _, _; (split; [reflexivity|]); [rewrite block_length|]; split; lia. }
  destruct NX as (buf1 & bp1 & g1 & -> & LB1 & Hb1). destruct (Nat.leb_spec 8 i) as [H8|H8].
  { assert (i = 8%nat) by lia. subst i. cbn [Nat.eqb] in Hf. apply IH; try lia. cbn [Nat.eqb]. lia. }
  rewrite (index_ok buf bp 0) by lia. cbn [bind]. set (b := nth bp buf 0). assert (MB : 0 <= b / 2 ^ Z.of_nat i mod 2 < 2) by (apply Z.mod_pos_bound; lia). set (bit := b / 2 ^ Z.of_nat i mod 2) in *. clearbody bit. rewrite (proj2 (Z.ltb_ge _ _)) by lia.
  assert (F1 : forall row : Z, exists row0 sign buf' i' bp' g', (if Nat.eqb i 7 then let* b0 := Codec.index buf1 bp1 in Ret (row, b0 mod 2, buf1, 1%nat, bp1, g1) else Ret (row, b / 2 ^ Z.of_nat (i + 1) mod 2, buf, (i + 1)%nat, bp, g)) = Ret (row0, sign, buf', i', bp', g') /\ length buf' = N /\ (bp' < N)%nat /\ (i' <= 8)%nat).
  { intros row. destruct (Nat.eqb i 7); [rewrite (index_ok buf1 bp1 0) by lia; cbn [bind]|]; eexists _, _, _, _, _, _; (split; [reflexivity|]); split; try split; lia. }
  replace (Nat.eqb i 8) with false in Hf by (symmetry; apply Nat.eqb_neq; lia).
  assert (NI : (2 * (52 - S col) + (if Nat.eqb (S i) 8 then 1 else 0) <= fuel)%nat) by (destruct (Nat.eqb (S i) 8); lia).
  destruct (third_columns col Hc) as [(E51 & C1 & C0)|[(L51 & _ & C1 & C0)|(L51 & C1 & C0)]]; rewrite C1; cbn [bind].
  - destruct (Z.eqb_spec (2 * 0 + 1 - bit - 1) (-1)) as [E|E]; [apply F1|]. rewrite C0. cbn [bind]. replace (2 * 0 + 1 - bit - 1 - 1 =? -1) with true by (symmetry; apply Z.eqb_eq; lia). apply F1.
  - destruct (Z.eqb_spec (2 * 0 + 1 - bit - 1) (-1)) as [E|E]; [apply F1|]. rewrite C0. cbn [bind]. replace (2 * 0 + 1 - bit - 1 - 0 =? -1) with false by (symmetry; apply Z.eqb_neq; lia). replace (2 * 0 + 1 - bit - 1 - 0) with 0 by lia. apply IH; lia.
  - replace (2 * 0 + 1 - bit - 0 =? -1) with false by (symmetry; apply Z.eqb_neq; lia). rewrite C0. cbn [bind]. destruct (Z.eqb_spec (2 * 0 + 1 - bit - 0 - 1) (-1)) as [E|E]; [apply F1|]. replace (2 * 0 + 1 - bit - 0 - 1) with 0 by lia. apply IH; lia.
Qed.
Lemma third_total r : built_ring 2 r -> forall s mont level pol g fuel, (105 <= fuel)%nat -> (level < length (rmods r))%nat -> has_rows (rN r) level pol -> exists x, sampleProba fuel s r mont third level pol g = Ret x.
Proof.
  intros HB s mont level pol g fuel Hf HL HP. rewrite (proba_unfold r); [|exact HL|exact HP|vm_compute; reflexivity|vm_compute; reflexivity]. rewrite matrix_third. cbn [fst snd]. destruct (built_degree 2 r ltac:(lia) HB) as (M & HM & EN).
  assert (G : forall is buf ptr bp pol g, length buf = rN r -> (ptr <= 8)%nat -> (bp < rN r)%nat -> exists x, proba_loop fuel s third0 third1 (rN r) mont (firstn (level + 1) (rmods r)) is buf ptr bp pol g = Ret x).
  { induction is as [|i is IH]; intros buf ptr bp pol0 g0 LB Hp Hb; cbn [proba_loop]; [eexists; reflexivity|].
    destruct (ky_third_total s (rN r) ltac:(lia) fuel 0 buf ptr bp g0 ltac:(lia) Hp LB Hb ltac:(destruct (Nat.eqb ptr 8); lia)) as (row & sign & buf' & i' & bp' & g' & -> & A & B & C). cbn [bind]. apply IH; assumption. }
  apply G; [apply block_length|lia|lia].
Qed.
