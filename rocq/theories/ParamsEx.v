(** The rings of accepted parameter sets; concrete parameter sets. *)
From Coq Require Import Znumtheory.
From Flocq Require Import IEEE754.BinarySingleNaN.
From Verif Require Import Word Arith Ring RingProofs NTT RingOps RNSSpec Pocklington Float64 Codec CodecSpec Params ParamsSpec ParamsProofs.
From Verif Require Examples.

(** The rings of accepted parameters of the standard type. *)
Lemma accepted_rings fuel logn q p hh sg P c : NewParameters fuel logn q p hh sg Standard = (P, None) -> Forall word q -> Forall word p ->
  (forall x, In x (q ++ p) -> c * x <= W) -> 
  (exists r, ringQ P = Some r /\ built_ring c r /\ moduli r = q /\ Z.of_nat (rN r) = 2 ^ logn) /\
  (p = [] /\ ringP P = None \/ exists r, ringP P = Some r /\ built_ring c r /\ moduli r = p /\ Z.of_nat (rN r) = 2 ^ logn).
Proof.
  intros H Wq Wp Hc. destruct (accepted_moduli _ _ _ _ _ _ _ _ H Wq Wp) as (HL & _ & _ & _ & [_ GQ] & [_ GP]). destruct (new_fields _ _ _ _ _ _ _ _ H) as (_ & _ & _ & _ & _ & _ & _ & _ & I).
  assert (PL : 2 ^ logn <= 2 ^ 60) by (apply Z.pow_le_mono_r; lia).
  assert (B : forall ms r, NewRingFromType fuel (2 ^ logn) ms Standard = inl r -> (forall x, In x ms -> c * x <= W) -> (forall x, In x ms -> 2 * x <= W) ->
    built_ring c r /\ moduli r = ms /\ Z.of_nat (rN r) = 2 ^ logn).
  { intros ms r E Hms H2. unfold NewRingFromType in E. cbn [Z.eqb Standard] in E. destruct (NewRingWithCustomNTT fuel (2 ^ logn) ms (2 * 2 ^ logn)) as [r'|] eqn:E'; [|discriminate E].
    injection E as ->. split; [exists fuel, (2 ^ logn), ms; split; [exact E'|]; split; [exact PL|exact Hms]|].
    destruct (NewRing_wf fuel (2 ^ logn) ms r PL H2 E') as (k & Ek & Hw & Em). split; [exact Em|]. destruct Hw as [Hn _ _ _ _ _ _]. rewrite Hn, two_pow_nat. symmetry. exact Ek. }
  assert (BW : forall M l, (forall x, In x l -> prime x /\ x mod M = 1 /\ 2 <= x < 2 ^ 63) -> forall x, In x l -> 2 * x <= W) by (clear; intros M l A x Hx; destruct (A x Hx) as (_ & _ & A2); change W with (2 * 2 ^ 63); lia).
  assert (GQ' : forall x, In x q -> 2 * x <= W) by (intros x Hx; destruct (GQ x Hx) as (_ & _ & A3); clear - A3; change W with (4 * 2 ^ 62); lia).
  pose proof (BW _ p GP) as GP'. unfold initRings in I. cbn [logN qi pi ringType sigma h ringP] in I.
  destruct (NewRingFromType fuel (2 ^ logn) q Standard) as [rq|] eqn:EQ; [|discriminate I]. pose proof (B q rq EQ ltac:(intros; apply Hc; apply in_or_app; left; assumption) GQ') as BQ.
  destruct p as [|y p']; cbn [length Nat.eqb] in I.
  - injection I as <-. cbn [ringQ ringP]. split; [exists rq; split; [reflexivity|exact BQ]|]. left. split; reflexivity.
  - destruct (NewRingFromType fuel (2 ^ logn) (y :: p') Standard) as [rp|] eqn:EP; [|discriminate I]. injection I as <-. cbn [ringQ ringP].
    split; [exists rq; split; [reflexivity|exact BQ]|]. right. exists rp. split; [reflexivity|]. apply (B _ rp EP); [|exact GP']. intros x Hx. apply Hc. apply in_or_app. right. exact Hx.
Qed.

(** A ring with large moduli, constructed. *)
Lemma certified_new fuel N ms cs c : certified_ok fuel N ms cs c = true -> NewRing fuel N ms = inl (certified_ring fuel N ms) /\ forallb IsPrime ms = true.
Proof.
  unfold certified_ok. rewrite !andb_true_iff. intros ((((((((H1 & H2) & H3) & H4) & H5) & H6) & H7) & H8) & H9).
  assert (HP : forallb IsPrime ms = true).
  { apply forallb_forall. intros q Hq. apply IsPrime_spec. apply Nat.eqb_eq in H5.
    revert cs H4 H5 Hq. clear. induction ms as [|m ms IH]; intros [|d cs] H4 H5 Hq; cbn in *; try lia; try contradiction.
    apply andb_true_iff in H4. destruct H4 as [H4 H4']. destruct Hq as [<-|Hq].
    - apply (cert_prime m d). exact H4.
    - apply (IH cs); [exact H4'|lia|exact Hq]. }
  split; [|exact HP]. unfold NewRing, NewRingWithCustomNTT. apply negb_true_iff in H1, H2. rewrite H1, H2, H3, H6, HP. cbn [negb]. unfold certified_ring. destruct (sequence _); [reflexivity|discriminate].
Qed.
Lemma certified_params fuel logn q p cq cp c hh sg : 
  checkSizeParams logn (Z.of_nat (length q)) (Z.of_nat (length p)) = true ->
  forallb (fun x => negb (MaxModuliSize + 1 <? (Len64 x - 1) mod W)) q = true -> forallb (fun x => negb (MaxModuliSize + 2 <? (Len64 x - 1) mod W)) p = true ->
  certified_ok fuel (2 ^ logn) q cq c = true -> p <> [] -> certified_ok fuel (2 ^ logn) p cp c = true ->
  exists P, NewParameters fuel logn q p hh sg Standard = (P, None) /\ ringQ P = Some (certified_ring fuel (2 ^ logn) q) /\ ringP P = Some (certified_ring fuel (2 ^ logn) p).
Proof.
  intros C B1 B2 Oq Np Op. destruct (certified_new _ _ _ _ _ Oq) as [Rq Iq]. destruct (certified_new _ _ _ _ _ Op) as [Rp Ip]. unfold NewParameters. rewrite C. cbn [negb].
  unfold CheckModuli. rewrite B1, B2, Iq, Ip. unfold checkSizeParams in C. rewrite !andb_true_iff in C. destruct C as ((_ & C1) & C2). rewrite C1, C2. cbn [andb negb].
  unfold initRings. cbn [logN qi pi ringType sigma h ringP]. unfold NewRingFromType. cbn [Z.eqb Standard]. unfold NewRing in Rq, Rp. rewrite Rq, Rp.
  destruct p; [contradiction|]. cbn [length Nat.eqb]. eexists. split; [reflexivity|]. split; reflexivity.
Qed.

Definition q62 : Z := 4186095853640876033.
Definition q63 : Z := 4854880398305394689.
Definition r62 : Ring := Eval vm_compute in certified_ring 1000 16 [q62].
Definition r63 : Ring := Eval vm_compute in certified_ring 1000 16 [q63].
Definition all_max (q : Z) : rows := [repeat (q - 1) 16].

Lemma r62_ok : certified_ring 1000 (2 ^ 4) [q62] = r62.
Proof. vm_compute. reflexivity. Qed.
Lemma r63_ok : certified_ring 1000 (2 ^ 4) [q63] = r63.
Proof. vm_compute. reflexivity. Qed.
Lemma ok_pre fuel N ms cs c r : certified_pre N ms cs c = true -> certified_ring fuel N ms = r -> rN r <> O -> certified_ok fuel N ms cs c = true.
Proof.
  intros H <- Hn. unfold certified_ok. fold (certified_pre N ms cs c). rewrite H. unfold certified_ring in Hn. destruct (sequence _); [reflexivity|exfalso; apply Hn; reflexivity].
Qed.
Lemma large_moduli : exists fuel q p hh sg P rQ rP a b, NewParameters fuel 4 q p hh sg Standard = (P, None) /\ Forall word q /\ Forall word p /\
  ringQ P = Some rQ /\ ringP P = Some rP /\ words rQ 0 canon a /\ words rP 0 canon b /\
  InvNTTLvl rQ 0 (NTTLvl rQ 0 a []) [] <> a /\ InvNTTLvl rP 0 (NTTLvl rP 0 b []) [] <> b.
Proof.
  destruct (certified_params 1000 4 [q62] [q63] [[(2, 51%nat, 3)]] [[(2, 53%nat, 3)]] 1 8 (f64_of_Z 3)) as (P & HP & HQ & HPP);
    [vm_compute; reflexivity|vm_compute; reflexivity|vm_compute; reflexivity|apply (ok_pre _ _ _ _ _ r62); [vm_compute; reflexivity|exact r62_ok|discriminate]|discriminate|apply (ok_pre _ _ _ _ _ r63); [vm_compute; reflexivity|exact r63_ok|discriminate]|].
  exists 1000%nat, [q62], [q63], 8, (f64_of_Z 3), P, r62, r63, (all_max q62), (all_max q63). split; [exact HP|].
  split; [constructor; [vm_compute; split; congruence|constructor]|]. split; [constructor; [vm_compute; split; congruence|constructor]|].
  split; [rewrite HQ, r62_ok; reflexivity|]. split; [rewrite HPP, r63_ok; reflexivity|].
  split; [apply Examples.wordsb_ok; vm_compute; reflexivity|]. split; [apply Examples.wordsb_ok; vm_compute; reflexivity|].
  split; [intros E; assert (E' : nth 0 (nth 0 (InvNTTLvl r62 0 (NTTLvl r62 0 (all_max q62) []) []) []) 0 = q62 - 1) by (rewrite E; reflexivity); revert E'; vm_compute; discriminate|].
  intros E; assert (E' : nth 0 (nth 0 (InvNTTLvl r63 0 (NTTLvl r63 0 (all_max q63) []) []) []) 0 = q63 - 1) by (rewrite E; reflexivity); revert E'; vm_compute; discriminate.
Qed.

(** Small parameter sets.  [accept] gives the parameters when they are accepted. *)
Definition made (logn : Z) (q p : list Z) (hh : Z) (sg : float64) (ty : Z) : Params := fst (NewParameters 1000 logn q p hh sg ty).
Lemma made_ok logn q p hh sg ty : snd (NewParameters 1000 logn q p hh sg ty) = None -> NewParameters 1000 logn q p hh sg ty = (made logn q p hh sg ty, None).
Proof. unfold made. intros <-. apply surjective_pairing. Qed.
Lemma words_small l : forallb (fun x => (0 <=? x) && (x <? 1000)) l = true -> Forall word l.
Proof. intros H. apply Forall_forall. intros x Hx. rewrite forallb_forall in H. specialize (H x Hx). apply andb_true_iff in H. rewrite Z.leb_le, Z.ltb_lt in H. split; [lia|]. destruct H. change (2 ^ 64) with 18446744073709551616. lia. Qed.

Lemma shared_prime : exists fuel q p hh sg P x, NewParameters fuel 4 q p hh sg Standard = (P, None) /\ Forall word q /\ Forall word p /\ In x q /\ In x p.
Proof.
  exists 1000%nat, [97; 193], [97], 8, (f64_of_Z 3), (made 4 [97; 193] [97] 8 (f64_of_Z 3) Standard), 97. split; [apply made_ok; vm_compute; reflexivity|].
  split; [apply words_small; reflexivity|]. split; [apply words_small; reflexivity|]. split; left; reflexivity.
Qed.

(** Differences after JSON. *)
Lemma json_type : exists fuel logn q p hh sg P d P', NewParameters fuel logn q p hh sg ConjugateInvariant = (P, None) /\
  Params_MarshalJSON P = Ret d /\ Params_UnmarshalJSON fuel d = Ret (P', None) /\ ringType P' = Standard /\ Equals P P' = Ret false.
Proof.
  exists 1000%nat, 4, [193; 257], [449], 8, (f64_of_Z 3), (made 4 [193; 257] [449] 8 (f64_of_Z 3) ConjugateInvariant),
    (mkLit 4 (Some [193; 257]) (Some [449]) None None (f64_of_Z 3) 8 Standard), (made 4 [193; 257] [449] 8 (f64_of_Z 3) Standard).
  assert (A : NewParameters 1000 4 [193; 257] [449] 8 (f64_of_Z 3) ConjugateInvariant = (made 4 [193; 257] [449] 8 (f64_of_Z 3) ConjugateInvariant, None)) by (apply made_ok; vm_compute; reflexivity).
  assert (B : NewParameters 1000 4 [193; 257] [449] 8 (f64_of_Z 3) Standard = (made 4 [193; 257] [449] 8 (f64_of_Z 3) Standard, None)) by (apply made_ok; vm_compute; reflexivity).
  destruct (new_fields _ _ _ _ _ _ _ _ A) as (A1 & A2 & A3 & A4 & A5 & A6 & _). destruct (new_fields _ _ _ _ _ _ _ _ B) as (B1 & B2 & B3 & B4 & B5 & B6 & _).
  split; [exact A|]. split; [unfold Params_MarshalJSON, finite; rewrite A1, A2, A3, A4, A5; reflexivity|].
  split; [unfold Params_UnmarshalJSON, NewParametersFromLiteral; cbn [lH lLogN lSigma lQ lLogQ lP lLogP lType Z.eqb andb]; replace (f64_same (f64_of_Z 3) (f64_of_Z 0)) with false by (vm_compute; reflexivity); rewrite B; reflexivity|].
  split; [exact B6|]. unfold Equals. rewrite A1, A2, A3, A4, A5, A6, B1, B2, B3, B4, B5, B6. vm_compute. reflexivity.
Qed.
Lemma json_defaults : exists fuel logn q p hh sg P d P', NewParameters fuel logn q p hh sg Standard = (P, None) /\
  Params_MarshalJSON P = Ret d /\ Params_UnmarshalJSON fuel d = Ret (P', None) /\ h P = 0 /\ h P' = 8 /\ f64_same (sigma P) (f64_of_Z 0) = true /\ sigma P' = DefaultSigma.
Proof.
  exists 1000%nat, 4, [97; 193], [257], 0, (f64_of_Z 0), (made 4 [97; 193] [257] 0 (f64_of_Z 0) Standard),
    (mkLit 4 (Some [97; 193]) (Some [257]) None None (f64_of_Z 0) 0 Standard), (made 4 [97; 193] [257] 8 DefaultSigma Standard).
  assert (A : NewParameters 1000 4 [97; 193] [257] 0 (f64_of_Z 0) Standard = (made 4 [97; 193] [257] 0 (f64_of_Z 0) Standard, None)) by (apply made_ok; vm_compute; reflexivity).
  assert (B : NewParameters 1000 4 [97; 193] [257] 8 DefaultSigma Standard = (made 4 [97; 193] [257] 8 DefaultSigma Standard, None)) by (apply made_ok; vm_compute; reflexivity).
  destruct (new_fields _ _ _ _ _ _ _ _ A) as (A1 & A2 & A3 & A4 & A5 & A6 & _). destruct (new_fields _ _ _ _ _ _ _ _ B) as (B1 & B2 & B3 & B4 & B5 & B6 & _).
  split; [exact A|]. split; [unfold Params_MarshalJSON, finite; rewrite A1, A2, A3, A4, A5; reflexivity|].
  split; [unfold Params_UnmarshalJSON, NewParametersFromLiteral; cbn [lH lLogN lSigma lQ lLogQ lP lLogP lType Z.eqb andb]; replace (4 - 1 <? 0) with false by reflexivity; replace (f64_same (f64_of_Z 0) (f64_of_Z 0)) with true by (vm_compute; reflexivity);
    replace (int_wrap (2 ^ (4 - 1))) with 8 by reflexivity; rewrite B; reflexivity|].
  split; [exact A5|]. split; [exact B5|]. split; [rewrite A4; vm_compute; reflexivity|exact B4].
Qed.
Lemma ckks_json_slots : exists fuel logn q p hh sg P sc C d C', NewParameters fuel logn q p hh sg Standard = (P, None) /\ Ckks_NewParameters P 0 sc = Ret (C, None) /\
  Ckks_MarshalJSON C = Ret d /\ Ckks_UnmarshalJSON fuel d = Ret (C', None) /\ cLogSlots C = 0 /\ cLogSlots C' = 3.
Proof.
  set (P := made 4 [97; 193] [257] 8 (f64_of_Z 3) Standard).
  assert (A : NewParameters 1000 4 [97; 193] [257] 8 (f64_of_Z 3) Standard = (P, None)) by (apply made_ok; vm_compute; reflexivity).
  destruct (new_fields _ _ _ _ _ _ _ _ A) as (A1 & A2 & A3 & A4 & A5 & A6 & _).
  assert (R : exists r, ringQ P = Some r /\ Len64 (rNthRoot r) = 6).
  { assert (E : match ringQ P with Some r => Len64 (rNthRoot r) =? 6 | None => false end = true) by (vm_compute; reflexivity). destruct (ringQ P) as [r|]; [|discriminate E]. exists r. split; [reflexivity|apply Z.eqb_eq; exact E]. }
  destruct R as (r & Er & E6).
  assert (N : forall ls, 0 <= ls <= 3 -> Ckks_NewParameters P ls (f64_of_Z 1024) = Ret (mkCkks P ls (f64_of_Z 1024), None)).
  { intros ls Hls. unfold Ckks_NewParameters. rewrite (not_zero _ _ _ _ _ _ _ _ A). cbn [bind]. rewrite Er, E6. rewrite (proj2 (Z.ltb_ge _ _)) by lia. rewrite (proj2 (Z.ltb_ge _ _)) by lia. reflexivity. }
  exists 1000%nat, 4, [97; 193], [257], 8, (f64_of_Z 3), P, (f64_of_Z 1024), (mkCkks P 0 (f64_of_Z 1024)),
    (mkCkksLit (mkLit 4 (Some [97; 193]) (Some [257]) None None (f64_of_Z 3) 8 Standard) 0 (f64_of_Z 1024)), (mkCkks P 3 (f64_of_Z 1024)).
  split; [exact A|]. split; [apply N; lia|]. split; [unfold Ckks_MarshalJSON, finite; cbn [cRlwe cLogSlots cScale]; rewrite A1, A2, A3, A4, A5, A6; reflexivity|].
  split; [|split; reflexivity]. unfold Ckks_UnmarshalJSON, Ckks_NewParametersFromLiteral, NewParametersFromLiteral. cbn [clRlwe clLogSlots clScale lH lLogN lSigma lQ lLogQ lP lLogP lType Z.eqb andb].
  replace (f64_same (f64_of_Z 3) (f64_of_Z 0)) with false by (vm_compute; reflexivity). rewrite A. cbn [bind]. apply (N 3). lia.
Qed.

(** Equality is one-sided. *)
Lemma equals_prefix : exists fuel logn q q' p hh sg P P', NewParameters fuel logn q p hh sg Standard = (P, None) /\ NewParameters fuel logn q' p hh sg Standard = (P', None) /\
  q <> q' /\ Equals P P' = Ret true /\ Equals P' P = Panic.
Proof.
  exists 1000%nat, 4, [97], [97; 193], [257], 8, (f64_of_Z 3), (made 4 [97] [257] 8 (f64_of_Z 3) Standard), (made 4 [97; 193] [257] 8 (f64_of_Z 3) Standard).
  split; [apply made_ok; vm_compute; reflexivity|]. split; [apply made_ok; vm_compute; reflexivity|]. split; [discriminate|]. split; vm_compute; reflexivity.
Qed.
(** An error together with parameters that are not empty; the receiver of UnmarshalBinary is overwritten. *)
Lemma error_params : exists fuel q p hh sg data e, Forall word q /\ 
  snd (NewParameters fuel 4 q p hh sg Standard) = Some e /\ qi (fst (NewParameters fuel 4 q p hh sg Standard)) = q /\ q <> [] /\
  Params_UnmarshalBinary fuel zeroParams data = Ret (fst (NewParameters fuel 4 q p hh sg Standard), Some e).
Proof.
  exists 1000%nat, [97; 97], [257], 8, (f64_of_Z 3), (params_bytes 4 [97; 97] [257] 8 (f64_of_Z 3) Standard), (RingError NotDistinct).
  split; [apply words_small; reflexivity|]. assert (S : snd (NewParameters 1000 4 [97; 97] [257] 8 (f64_of_Z 3) Standard) = Some (RingError NotDistinct)) by (vm_compute; reflexivity).
  split; [exact S|]. split; [vm_compute; reflexivity|]. split; [discriminate|].
  rewrite <- (app_nil_r (params_bytes _ _ _ _ _ _)). rewrite unmarshal_params; [|reflexivity|split; vm_compute; congruence|apply words_small; reflexivity|apply words_small; reflexivity].
  destruct (NewParameters 1000 4 [97; 97] [257] 8 (f64_of_Z 3) Standard) as [P o]. cbn [fst snd] in S |- *. rewrite S. reflexivity.
Qed.
(** ckks.UnmarshalBinary accepts the bytes of generic parameters alone: their last 9 bytes are read a second time. *)
Lemma ckks_missing : exists fuel q p hh sg P C, NewParameters fuel 4 q p hh sg Standard = (P, None) /\ Forall word q /\ Forall word p /\ 
  Ckks_UnmarshalBinary fuel zeroCkks (Params_MarshalBinary P) = Ret (C, None) /\ cRlwe C = P /\ cLogSlots C = 1.
Proof.
  set (P := made 4 [257; 97] [] 8 (f64_of_Z 3) Standard).
  assert (A : NewParameters 1000 4 [257; 97] [] 8 (f64_of_Z 3) Standard = (P, None)) by (apply made_ok; vm_compute; reflexivity).
  assert (R : exists r, ringQ P = Some r /\ Len64 (rNthRoot r) = 6).
  { assert (E : match ringQ P with Some r => Len64 (rNthRoot r) =? 6 | None => false end = true) by (vm_compute; reflexivity). destruct (ringQ P) as [r|]; [|discriminate E]. exists r. split; [reflexivity|apply Z.eqb_eq; exact E]. }
  destruct R as (r & Er & E6).
  assert (Wq : Forall word [257; 97]) by (apply words_small; reflexivity).
  destruct (params_round_trip _ _ _ _ _ _ _ _ A ltac:(split; vm_compute; congruence) Wq (Forall_nil _)) as (M & _ & U).
  exists 1000%nat, [257; 97], [], 8, (f64_of_Z 3), P, (mkCkks P 1 (Float64frombits 97)). split; [exact A|]. split; [exact Wq|]. split; [constructor|]. split; [|split; reflexivity].
  unfold Ckks_UnmarshalBinary. specialize (U zeroParams []). rewrite app_nil_r in U. rewrite U. cbn [bind]. rewrite M.
  assert (I : index (params_bytes 4 [257; 97] [] 8 (f64_of_Z 3) Standard) (length (params_bytes 4 [257; 97] [] 8 (f64_of_Z 3) Standard) - 9) = Ret 1) by (vm_compute; reflexivity).
  assert (T : (let* s := tail_from (params_bytes 4 [257; 97] [] 8 (f64_of_Z 3) Standard) (length (params_bytes 4 [257; 97] [] 8 (f64_of_Z 3) Standard) - 8) in Ret (be_value s)) = Ret 97) by (vm_compute; reflexivity).
  rewrite I. cbn [bind]. destruct (tail_from _ _) as [s| |]; cbn [bind] in T |- *; try discriminate T. assert (T' : be_value s = 97) by (injection T; tauto). rewrite T'.
  unfold Ckks_NewParameters. rewrite (not_zero _ _ _ _ _ _ _ _ A). cbn [bind]. rewrite Er, E6. reflexivity.
Qed.
Lemma zero_params : Params_MarshalBinary zeroParams = [] /\ forall fuel r, Params_UnmarshalBinary fuel r (Params_MarshalBinary zeroParams) = Ret (r, Some DataError).
Proof. split; reflexivity. Qed.

(** Short inputs. *)
Lemma short_params fuel r data : (length data < 11)%nat -> Params_UnmarshalBinary fuel r data = Ret (r, Some DataError).
Proof. intros H. unfold Params_UnmarshalBinary. rewrite (proj2 (Nat.ltb_lt _ _) H). reflexivity. Qed.

Lemma ckks_example : Ckks_NewParameters (made 4 [97; 193] [257] 8 (f64_of_Z 3) Standard) 2 (f64_of_Z 1024) = Ret (mkCkks (made 4 [97; 193] [257] 8 (f64_of_Z 3) Standard) 2 (f64_of_Z 1024), None).
Proof.
  unfold Ckks_NewParameters. assert (A : NewParameters 1000 4 [97; 193] [257] 8 (f64_of_Z 3) Standard = (made 4 [97; 193] [257] 8 (f64_of_Z 3) Standard, None)) by (apply made_ok; vm_compute; reflexivity).
  rewrite (not_zero _ _ _ _ _ _ _ _ A). cbn [bind]. clear A. set (P := made _ _ _ _ _ _).
  assert (E : match ringQ P with Some r => Len64 (rNthRoot r) =? 6 | None => false end = true) by (vm_compute; reflexivity). destruct (ringQ P) as [r|]; [|discriminate E].
  apply Z.eqb_eq in E. rewrite E. reflexivity.
Qed.
Lemma panic_example : exists data, Forall is_byte data /\ length data = 11%nat /\ forall fuel r, Params_UnmarshalBinary fuel r data = Panic.
Proof. exists (repeat 0 11). split; [apply Forall_forall; intros x Hx; apply repeat_spec in Hx; subst x; split; [lia|reflexivity]|]. split; [reflexivity|]. intros fuel r. reflexivity. Qed.
