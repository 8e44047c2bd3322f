(** Proofs about the parameter sets. *)
From Coq Require Import Znumtheory.
From Flocq Require Import IEEE754.Binary IEEE754.Bits IEEE754.BinarySingleNaN.
From Verif Require Import Word Arith Ring RingProofs Float64 Codec CodecSpec CodecProofs CodecTop CodecKeys Params ParamsSpec.

(** ** The buffer *)
Lemma write_slice s : forall buf, WriteUint64Slice buf s = buf ++ flat_map (be_bytes 8) s.
Proof. induction s as [|x s IH]; intros buf; [cbn; rewrite app_nil_r; reflexivity|]. unfold WriteUint64Slice in *. cbn [fold_left flat_map]. rewrite IH. unfold WriteUint64. rewrite <- app_assoc. reflexivity. Qed.
Lemma write_slice8 s : forall buf, WriteUint8Slice buf s = buf ++ s.
Proof. induction s as [|x s IH]; intros buf; [cbn; rewrite app_nil_r; reflexivity|]. unfold WriteUint8Slice in *. cbn [fold_left]. rewrite IH. unfold WriteUint8. rewrite <- app_assoc. reflexivity. Qed.
Lemma read8 b t : ReadUint8 (b :: t) = Ret (b, t).
Proof. reflexivity. Qed.
Lemma read64 v t : word v -> ReadUint64 (be_bytes 8 v ++ t) = Ret (v, t).
Proof.
  intros H. unfold ReadUint64, slice, tail_from. rewrite !(proj2 (Nat.leb_le _ _)) by (rewrite app_length, be_bytes_length; lia). cbn [bind].
  assert (F : firstn 8 (be_bytes 8 v ++ t) = be_bytes 8 v) by (rewrite <- (be_bytes_length 8 v) at 1; apply firstn_exact).
  assert (S : skipn 8 (be_bytes 8 v ++ t) = t) by (rewrite <- (be_bytes_length 8 v) at 1; apply skipn_exact).
  change (skipn 0 (be_bytes 8 v ++ t)) with (be_bytes 8 v ++ t). rewrite F, S, be_value_bytes. rewrite Z.mod_small by exact H. reflexivity.
Qed.
Lemma read_slice s : forall t, Forall word s -> ReadUint64Slice (length s) (flat_map (be_bytes 8) s ++ t) = Ret (s, t).
Proof.
  unfold ReadUint64Slice.
  assert (G : forall s t acc k, Forall word s -> loop (fun '(l, buf) (_ : nat) => let* '(v, buf) := ReadUint64 buf in Ret (l ++ [v], buf)) (seq k (length s)) (acc, flat_map (be_bytes 8) s ++ t) = Ret (acc ++ s, t)).
  { clear. induction s as [|x s IH]; intros t acc k H; [cbn; rewrite app_nil_r; reflexivity|]. inversion H as [|y z Hx Hs]; subst. cbn [length seq loop flat_map].
    rewrite <- app_assoc, read64 by exact Hx. cbn [bind]. rewrite IH by exact Hs. rewrite <- app_assoc. reflexivity. }
  intros t H. apply (G s t [] 0%nat H).
Qed.
(** Reading, inverted. *)
Lemma read8_inv buf v b : ReadUint8 buf = Ret (v, b) -> buf = v :: b.
Proof. destruct buf as [|x l]; [discriminate|]. unfold ReadUint8. cbn. intros H. injection H as -> ->. reflexivity. Qed.
Lemma read64_inv buf v b : Forall is_byte buf -> ReadUint64 buf = Ret (v, b) -> buf = be_bytes 8 v ++ b /\ word v.
Proof.
  intros HB. unfold ReadUint64, slice, tail_from. destruct (Nat.leb_spec (0 + 8) (length buf)) as [H|H]; [|discriminate]. rewrite (proj2 (Nat.leb_le _ _)) by lia. cbn [bind].
  intros E. assert (RI : forall (A B : Type) (a c : A) (b d : B), Ret (a, b) = Ret (c, d) -> c = a /\ d = b) by (clear; intros A B a c b d E; injection E as -> ->; split; reflexivity).
  apply RI in E. destruct E as [-> ->]. change (skipn 0 buf) with buf. assert (L : length (firstn 8 buf) = 8%nat) by (rewrite firstn_length; lia).
  assert (HF : Forall is_byte (firstn 8 buf)) by (apply Forall_forall; intros x Hx; apply (proj1 (Forall_forall _ _) HB); exact (in_firstn 8 buf x Hx)).
  assert (V : be_bytes 8 (be_value (firstn 8 buf)) = firstn 8 buf) by (rewrite <- L at 1; apply be_bytes_value; exact HF).
  split; [rewrite V; symmetry; apply firstn_skipn|]. pose proof (be_value_range _ HF) as R. rewrite L in R. exact R.
Qed.
Lemma bytes_app_r a b : Forall is_byte (a ++ b) -> Forall is_byte b.
Proof. intros H. apply Forall_app in H. apply H. Qed.
Lemma read_slice_inv n : forall buf s b, Forall is_byte buf -> ReadUint64Slice n buf = Ret (s, b) -> buf = flat_map (be_bytes 8) s ++ b /\ Forall word s /\ length s = n.
Proof.
  unfold ReadUint64Slice.
  assert (G : forall k n acc buf s b, Forall is_byte buf -> loop (fun '(l, buf) (_ : nat) => let* '(v, buf) := ReadUint64 buf in Ret (l ++ [v], buf)) (seq k n) (acc, buf) = Ret (s, b) ->
    exists s', s = acc ++ s' /\ buf = flat_map (be_bytes 8) s' ++ b /\ Forall word s' /\ length s' = n).
  { clear n. intros k n. revert k. induction n as [|n IH]; intros k acc buf s b HB H.
    - cbn in H. injection H as <- <-. exists []. rewrite app_nil_r. repeat split; constructor.
    - cbn [seq loop] in H. destruct (ReadUint64 buf) as [[v buf']| |] eqn:R; try discriminate H. cbn [bind] in H. destruct (read64_inv _ _ _ HB R) as [-> Hv].
      destruct (IH (S k) _ _ _ _ (bytes_app_r _ _ HB) H) as (s' & -> & -> & HW & HL). exists (v :: s'). rewrite <- !app_assoc. cbn [flat_map app]. rewrite <- app_assoc.
      repeat split; [constructor; assumption|cbn; lia]. }
  intros buf s b HB H. destruct (G 0%nat n [] buf s b HB H) as (s' & -> & A). exact A.
Qed.

(** ** Construction *)
Lemma init_fields fuel p p' : initRings fuel p = (p', None) ->
  logN p' = logN p /\ qi p' = qi p /\ pi p' = pi p /\ sigma p' = sigma p /\ h p' = h p /\ ringType p' = ringType p.
Proof.
  unfold initRings. destruct (NewRingFromType _ _ (qi p) _); [|discriminate]. destruct (Nat.eqb _ 0); [intros H; injection H as <-; repeat split|].
  destruct (NewRingFromType _ _ (pi p) _); [|discriminate]. intros H; injection H as <-; repeat split.
Qed.
Lemma new_fields fuel logn q p hh sg ty P : NewParameters fuel logn q p hh sg ty = (P, None) ->
  logN P = logn /\ qi P = q /\ pi P = p /\ sigma P = sg /\ h P = hh /\ ringType P = ty /\
  checkSizeParams logn (Z.of_nat (length q)) (Z.of_nat (length p)) = true /\ CheckModuli q p = true /\ initRings fuel (mkParams logn q p sg hh None None ty) = (P, None).
Proof.
  unfold NewParameters. destruct (checkSizeParams _ _ _) eqn:C; [|discriminate]. destruct (CheckModuli q p) eqn:M; [|discriminate]. cbn [negb]. intros H.
  destruct (init_fields _ _ _ H) as (A & B & D & E & F & G). cbn in *. repeat split; assumption.
Qed.
Lemma check_sizes logn a b : checkSizeParams logn a b = true -> 4 <= logn <= 17 /\ a <= 100 /\ b <= 100.
Proof. unfold checkSizeParams, MaxLogN, MinLogN, MaxModuliCount. rewrite !andb_true_iff, !Z.leb_le. lia. Qed.
Lemma new_type fuel logn q p hh sg ty P : NewParameters fuel logn q p hh sg ty = (P, None) -> ty = 0 \/ ty = 1.
Proof.
  intros H. destruct (new_fields _ _ _ _ _ _ _ _ H) as (_ & _ & _ & _ & _ & _ & _ & _ & I). unfold initRings in I. cbn [logN qi pi ringType sigma h ringP] in I.
  unfold NewRingFromType, Standard, ConjugateInvariant in I. destruct (Z.eqb_spec ty 0); [left; assumption|]. destruct (Z.eqb_spec ty 1); [right; assumption|discriminate I].
Qed.

(** ** Binary format *)
Lemma int_wrap_mod x : go_int x -> int_wrap (x mod 2 ^ 64) = x.
Proof.
  intros [H1 H2]. unfold int_wrap. change W with (2 ^ 64). rewrite Z.mod_mod by lia. destruct (Z.ltb_spec x 0) as [H|H].
  - replace (x mod 2 ^ 64) with (x + 2 ^ 64) by (apply (Z.mod_unique_pos x (2 ^ 64) (-1)); lia). rewrite (proj2 (Z.ltb_ge _ _)) by lia. lia.
  - rewrite Z.mod_small by lia. rewrite (proj2 (Z.ltb_lt _ _)) by lia. reflexivity.
Qed.
Lemma mod_int_wrap x : word x -> int_wrap x mod 2 ^ 64 = x.
Proof.
  intros [H1 H2]. unfold int_wrap. change W with (2 ^ 64). rewrite (Z.mod_small x) by lia. destruct (Z.ltb_spec x (2 ^ 63)); [apply Z.mod_small; lia|].
  symmetry. apply (Z.mod_unique_pos (x - 2 ^ 64) (2 ^ 64) (-1)); lia.
Qed.
Lemma marshal_params fuel logn q p hh sg ty P : NewParameters fuel logn q p hh sg ty = (P, None) ->
  Params_MarshalBinary P = params_bytes logn q p hh sg ty.
Proof.
  intros H. pose proof (new_type _ _ _ _ _ _ _ _ H) as HT. destruct (new_fields _ _ _ _ _ _ _ _ H) as (E1 & E2 & E3 & E4 & E5 & E6 & C & _).
  apply check_sizes in C. destruct C as (C1 & C2 & C3). unfold Params_MarshalBinary. rewrite E1, E2, E3, E4, E5, E6. rewrite (proj2 (Z.eqb_neq _ _)) by lia.
  rewrite !write_slice. unfold WriteUint64, WriteUint8, params_bytes. cbn [app]. unfold byte. rewrite !(Z.mod_small _ 256) by lia.
  rewrite <- !app_assoc. reflexivity.
Qed.
Lemma params_bytes_length logn q p hh sg ty : Z.of_nat (length (params_bytes logn q p hh sg ty)) = 20 + 8 * Z.of_nat (length q + length p).
Proof. unfold params_bytes. rewrite !app_length, !flat_length, !be_bytes_length. cbn [length]. lia. Qed.
Lemma unmarshal_params fuel r logn q p hh sg ty tail : checkSizeParams logn (Z.of_nat (length q)) (Z.of_nat (length p)) = true ->
  go_int hh -> Forall word q -> Forall word p ->
  Params_UnmarshalBinary fuel r (params_bytes logn q p hh sg ty ++ tail) = Ret (NewParameters fuel logn q p hh sg ty).
Proof.
  intros C Hh Hq Hp. unfold Params_UnmarshalBinary.
  rewrite (proj2 (Nat.ltb_ge _ _)) by (rewrite app_length; pose proof (params_bytes_length logn q p hh sg ty); lia).
  unfold params_bytes. rewrite <- !app_assoc. cbn [app]. rewrite !read8. cbn [bind]. rewrite read8. cbn [bind]. rewrite read8. cbn [bind].
  rewrite read64 by (split; [apply Z.mod_pos_bound; reflexivity|apply Z.mod_pos_bound; reflexivity]). cbn [bind].
  destruct (float_bits sg) as [FB FE]. rewrite read64 by exact FB. cbn [bind]. rewrite read8. cbn [bind]. rewrite C. cbn [negb]. rewrite !Nat2Z.id.
  rewrite read_slice by exact Hq. cbn [bind]. rewrite read_slice by exact Hp. cbn [bind]. rewrite int_wrap_mod by exact Hh. rewrite FE. reflexivity.
Qed.
Lemma params_round_trip fuel logn q p hh sg ty P : NewParameters fuel logn q p hh sg ty = (P, None) -> go_int hh -> Forall word q -> Forall word p ->
  Params_MarshalBinary P = params_bytes logn q p hh sg ty /\ Z.of_nat (length (Params_MarshalBinary P)) = MarshalBinarySize P /\
  forall r tail, Params_UnmarshalBinary fuel r (Params_MarshalBinary P ++ tail) = Ret (P, None).
Proof.
  intros H Hh Hq Hp. pose proof (marshal_params _ _ _ _ _ _ _ _ H) as M. rewrite M. destruct (new_fields _ _ _ _ _ _ _ _ H) as (E1 & E2 & E3 & E4 & E5 & E6 & C & _).
  split; [reflexivity|]. split; [rewrite params_bytes_length; unfold MarshalBinarySize; rewrite E2, E3; reflexivity|].
  intros r tail. rewrite unmarshal_params by assumption. rewrite H. reflexivity.
Qed.
Lemma frombits_bits b : word b -> is_nan (Float64frombits b) = false -> Float64bits (Float64frombits b) = b.
Proof.
  intros Hb HN. unfold Float64bits, Float64frombits, bits_of_b64, b64_of_bits in *.
  pose proof (bits_of_binary_float_of_bits 52 11 eq_refl eq_refl eq_refl b Hb) as E.
  destruct (binary_float_of_bits 52 11 eq_refl eq_refl eq_refl b) as [s|s|s pl Hpl|s m e He]; [exact E|exact E|discriminate HN|exact E].
Qed.
Lemma unmarshal_accepted fuel r data P : Forall is_byte data -> Params_UnmarshalBinary fuel r data = Ret (P, None) -> is_nan (sigma P) = false ->
  exists tail, data = Params_MarshalBinary P ++ tail.
Proof.
  intros HB H HN. unfold Params_UnmarshalBinary in H. destruct (Nat.ltb _ _); [discriminate H|].
  destruct (ReadUint8 data) as [[b0 d0]| |] eqn:R0; try discriminate H. cbn [bind] in H. apply read8_inv in R0. subst data. apply Forall_inv_tail in HB.
  destruct (ReadUint8 d0) as [[b1 d1]| |] eqn:R0; try discriminate H. cbn [bind] in H. apply read8_inv in R0. subst d0. pose proof (Forall_inv HB) as B1. apply Forall_inv_tail in HB.
  destruct (ReadUint8 d1) as [[b2 d2]| |] eqn:R0; try discriminate H. cbn [bind] in H. apply read8_inv in R0. subst d1. pose proof (Forall_inv HB) as B2. apply Forall_inv_tail in HB.
  destruct (ReadUint64 d2) as [[hh d3]| |] eqn:R0; try discriminate H. cbn [bind] in H. destruct (read64_inv _ _ _ HB R0) as [-> HH]. apply bytes_app_r in HB.
  destruct (ReadUint64 d3) as [[sg d4]| |] eqn:R1; try discriminate H. cbn [bind] in H. destruct (read64_inv _ _ _ HB R1) as [-> HS]. apply bytes_app_r in HB.
  destruct (ReadUint8 d4) as [[ty d5]| |] eqn:R2; try discriminate H. cbn [bind] in H. apply read8_inv in R2. subst d4. apply Forall_inv_tail in HB.
  destruct (negb _) in H; [discriminate H|].
  destruct (ReadUint64Slice _ d5) as [[q d6]| |] eqn:R3 in H; try discriminate H. cbn [bind] in H. destruct (read_slice_inv _ _ _ _ HB R3) as (-> & Hq & Lq). apply bytes_app_r in HB.
  destruct (ReadUint64Slice _ d6) as [[p d7]| |] eqn:R4 in H; try discriminate H. cbn [bind] in H. destruct (read_slice_inv _ _ _ _ HB R4) as (-> & Hp & Lp).
  assert (H' : NewParameters fuel b0 q p (int_wrap hh) (Float64frombits sg) ty = (P, None)) by (injection H as H; exact H).
  exists d7. rewrite (marshal_params _ _ _ _ _ _ _ _ H'). destruct (new_fields _ _ _ _ _ _ _ _ H') as (_ & _ & _ & ES & _). rewrite ES in HN.
  unfold params_bytes. rewrite (frombits_bits sg HS HN), (mod_int_wrap hh HH), Lq, Lp. unfold is_byte in B1, B2. rewrite !Z2Nat.id by lia. rewrite <- !app_assoc. reflexivity.
Qed.
Lemma read64_panics buf : (length buf < 8)%nat -> ReadUint64 buf = Panic.
Proof. intros H. unfold ReadUint64, slice. rewrite (proj2 (Nat.leb_gt _ _)) by lia. reflexivity. Qed.
Lemma read64_ok buf : (8 <= length buf)%nat -> exists v b, ReadUint64 buf = Ret (v, b) /\ length b = (length buf - 8)%nat.
Proof.
  intros H. unfold ReadUint64, slice, tail_from. rewrite !(proj2 (Nat.leb_le _ _)) by lia. cbn [bind]. do 2 eexists. split; [reflexivity|]. apply skipn_length.
Qed.
Lemma read_slice_total n : forall buf, (8 * n <= length buf)%nat -> exists s b, ReadUint64Slice n buf = Ret (s, b) /\ length b = (length buf - 8 * n)%nat /\ length s = n.
Proof.
  unfold ReadUint64Slice. assert (G : forall n k acc buf, (8 * n <= length buf)%nat ->
    exists s b, loop (fun '(l, buf) (_ : nat) => let* '(v, buf) := ReadUint64 buf in Ret (l ++ [v], buf)) (seq k n) (acc, buf) = Ret (acc ++ s, b) /\ length b = (length buf - 8 * n)%nat /\ length s = n).
  { clear. induction n as [|n IH]; intros k acc buf H.
    - exists [], buf. cbn [seq loop]. rewrite app_nil_r. repeat split. lia.
    - cbn [seq loop]. destruct (read64_ok buf ltac:(lia)) as (v & b & -> & L). cbn [bind]. destruct (IH (S k) (acc ++ [v]) b ltac:(lia)) as (s & b' & -> & L' & LS).
      exists (v :: s), b'. rewrite <- app_assoc. repeat split; [lia|cbn; lia]. }
  intros buf H. destruct (G n 0%nat [] buf H) as (s & b & E & L). exists s, b. split; assumption.
Qed.
Lemma read_slice_panics n : forall buf, (length buf < 8 * n)%nat -> ReadUint64Slice n buf = Panic.
Proof.
  unfold ReadUint64Slice. assert (G : forall n k acc buf, (length buf < 8 * n)%nat ->
    loop (fun '(l, buf) (_ : nat) => let* '(v, buf) := ReadUint64 buf in Ret (l ++ [v], buf)) (seq k n) (acc, buf) = Panic).
  { clear. induction n as [|n IH]; intros k acc buf H; [lia|]. cbn [seq loop]. destruct (Nat.le_gt_cases 8 (length buf)) as [H8|H8].
    - destruct (read64_ok buf H8) as (v & b & -> & L). cbn [bind]. apply IH. lia.
    - rewrite read64_panics by exact H8. reflexivity. }
  intros buf H. apply G. exact H.
Qed.
(** Exactly which inputs make UnmarshalBinary panic. *)
Lemma unmarshal_panics fuel r data : Forall is_byte data ->
  (Params_UnmarshalBinary fuel r data = Panic <->
   (11 <= length data <= 19)%nat \/
   ((20 <= length data)%nat /\ checkSizeParams (nth 0 data 0) (nth 1 data 0) (nth 2 data 0) = true /\ Z.of_nat (length data) < 20 + 8 * (nth 1 data 0 + nth 2 data 0))).
Proof.
  intros HB. unfold Params_UnmarshalBinary. destruct (Nat.ltb_spec (length data) 11) as [H|H].
  { split; [discriminate|]. intros [?|[? _]]; lia. }
  destruct data as [|b0 [|b1 [|b2 d]]]; try (cbn [length] in H; lia). cbn [nth length] in *. pose proof (Forall_inv (Forall_inv_tail HB)) as B1. pose proof (Forall_inv (Forall_inv_tail (Forall_inv_tail HB))) as B2.
  unfold is_byte in B1, B2. rewrite !read8. cbn [bind]. rewrite read8. cbn [bind]. rewrite read8. cbn [bind].
  destruct (read64_ok d ltac:(lia)) as (hh & d1 & -> & L1). cbn [bind].
  destruct (Nat.le_gt_cases 8 (length d1)) as [H8|H8]; [|rewrite read64_panics by exact H8; cbn [bind]; split; [intros _; left; lia|reflexivity]].
  destruct (read64_ok d1 H8) as (sg & d2 & -> & L2). cbn [bind]. destruct d2 as [|ty d3]; [cbn [length] in L2; cbn; split; [intros _; left; lia|reflexivity]|].
  cbn [length] in L2. rewrite read8. cbn [bind]. destruct (checkSizeParams b0 b1 b2); cbn [negb]; [|split; [discriminate|intros [?|[_ [? _]]]; [lia|discriminate]]].
  destruct (Nat.le_gt_cases (8 * Z.to_nat b1) (length d3)) as [H3|H3].
  - destruct (read_slice_total _ _ H3) as (q & d4 & -> & L4 & _). cbn [bind]. destruct (Nat.le_gt_cases (8 * Z.to_nat b2) (length d4)) as [H5|H5].
    + destruct (read_slice_total _ _ H5) as (p & d5 & -> & L5 & _). cbn [bind]. split; [discriminate|]. intros [?|[_ [_ ?]]]; lia.
    + rewrite read_slice_panics by exact H5. cbn [bind]. split; [|reflexivity]. intros _. right. split; [lia|]. split; [reflexivity|]. lia.
  - rewrite read_slice_panics by exact H3. cbn [bind]. split; [|reflexivity]. intros _. right. split; [lia|]. split; [reflexivity|]. lia.
Qed.

(** ** Equality *)
Lemma equal_loop a b : forall n k (v : bool), 
  loop (fun (v : bool) i => if v then let* x := index a i in let* y := index b i in Ret (x =? y) else Ret false) (seq k n) false = Ret false.
Proof. induction n as [|n IH]; intros k v; [reflexivity|]. cbn [seq loop bind]. apply IH. exact v. Qed.
Lemma skipn_cons {A} (l : list A) k x : nth_error l k = Some x -> skipn k l = x :: skipn (S k) l.
Proof. revert k. induction l as [|y l IH]; intros [|k] H; try discriminate H; [injection H as ->; reflexivity|]. cbn [nth_error] in H. cbn [skipn]. rewrite (IH k H). reflexivity. Qed.
Lemma equal_slice_true a b : EqualSliceUint64 a b = Ret true <-> prefix a b.
Proof.
  unfold EqualSliceUint64.
  assert (G : forall n k, (k + n = length a)%nat -> (loop (fun (v : bool) i => if v then let* x := index a i in let* y := index b i in Ret (x =? y) else Ret false) (seq k n) true = Ret true <->
    prefix (skipn k a) (skipn k b))).
  { induction n as [|n IH]; intros k Hk.
    - cbn [seq loop]. rewrite (skipn_all2 a) by lia. split; [intros _; exists (skipn k b); reflexivity|reflexivity].
    - cbn [seq loop]. assert (Ha : exists x, nth_error a k = Some x) by (destruct (nth_error a k) eqn:E; [eauto|apply nth_error_None in E; lia]).
      destruct Ha as [x Ha]. unfold index at 2. unfold index at 1. rewrite Ha. cbn [bind].
      destruct (nth_error b k) as [y|] eqn:Hb; cbn [bind].
      + rewrite (skipn_cons _ _ _ Ha), (skipn_cons _ _ _ Hb). destruct (Z.eqb_spec x y) as [->|NE].
        * rewrite (IH (S k) ltac:(lia)). split; intros [c E]; exists c; [cbn [app]; rewrite E; reflexivity|]. cbn [app] in E. injection E as E. exact E.
        * rewrite (equal_loop a b n (S k) true). split; [discriminate|]. intros [c E]. cbn [app] in E. injection E as E _. congruence.
      + split; [discriminate|]. intros [c E]. apply nth_error_None in Hb. rewrite (skipn_all2 b) in E by lia. rewrite (skipn_cons _ _ _ Ha) in E. discriminate E. }
  exact (G (length a) 0%nat eq_refl).
Qed.
Lemma same_refl x : is_nan x = false -> f64_same x x = true.
Proof. unfold f64_same, Beqb, SpecFloat.SFeqb. destruct x as [s|s| |s m e H]; cbn; intros; try discriminate; [reflexivity|destruct s; reflexivity|].
  rewrite Z.compare_refl, Pos.compare_refl. destruct s; reflexivity. Qed.
Lemma equals_true a b : Equals a b = Ret true <->
  logN a = logN b /\ prefix (qi a) (qi b) /\ prefix (pi a) (pi b) /\ h a = h b /\ f64_same (sigma a) (sigma b) = true /\ ringType a = ringType b.
Proof.
  unfold Equals. destruct (Z.eqb_spec (logN a) (logN b)) as [E|E]; cbn [bind]; [|split; [intros H; discriminate H|intros [? _]; contradiction]].
  pose proof (equal_slice_true (qi a) (qi b)) as Q. pose proof (equal_slice_true (pi a) (pi b)) as P.
  destruct (EqualSliceUint64 (qi a) (qi b)) as [[]| |]; cbn [bind].
  2-4: split; [intros H; discriminate H|intros (_ & H & _); apply Q in H; discriminate H].
  destruct (EqualSliceUint64 (pi a) (pi b)) as [[]| |]; cbn [bind].
  2-4: split; [intros H; discriminate H|intros (_ & _ & H & _); apply P in H; discriminate H].
  cbn [andb]. split.
  - intros H. injection H as H. apply andb_true_iff in H. destruct H as [H H3]. apply andb_true_iff in H. destruct H as [H1 H2].
    apply Z.eqb_eq in H1, H3. split; [exact E|]. split; [apply Q; reflexivity|]. split; [apply P; reflexivity|]. repeat split; assumption.
  - intros (_ & _ & _ & H1 & H2 & H3). rewrite H1, H2, H3, !Z.eqb_refl. reflexivity.
Qed.
Lemma prefix_refl {A} (l : list A) : prefix l l.
Proof. exists []. rewrite app_nil_r. reflexivity. Qed.
Lemma equals_refl a : is_nan (sigma a) = false -> Equals a a = Ret true.
Proof. intros H. apply equals_true. repeat split; try apply prefix_refl. apply same_refl. exact H. Qed.

(** ** JSON *)
Lemma json_round_trip fuel logn q p hh sg P : NewParameters fuel logn q p hh sg Standard = (P, None) ->
  hh <> 0 -> is_finite sg = true -> f64_same sg (f64_of_Z 0) = false ->
  exists d, Params_MarshalJSON P = Ret d /\ Params_UnmarshalJSON fuel d = Ret (P, None).
Proof.
  intros H Hh Hf Hs. destruct (new_fields _ _ _ _ _ _ _ _ H) as (E1 & E2 & E3 & E4 & E5 & E6 & _). unfold Params_MarshalJSON, finite. rewrite E1, E2, E3, E4, E5, Hf.
  eexists. split; [reflexivity|]. unfold Params_UnmarshalJSON, NewParametersFromLiteral. cbn [lH lLogN lSigma lQ lLogQ lP lLogP lType].
  rewrite (proj2 (Z.eqb_neq _ _) Hh). cbn [andb]. rewrite Hs, H. reflexivity.
Qed.

(** ** ckks *)
Lemma not_zero fuel logn q p hh sg ty P : NewParameters fuel logn q p hh sg ty = (P, None) -> Equals P zeroParams = Ret false.
Proof.
  intros H. destruct (new_fields _ _ _ _ _ _ _ _ H) as (E1 & _ & _ & _ & _ & _ & C & _). apply check_sizes in C. unfold Equals. rewrite E1. cbn [zeroParams logN].
  rewrite (proj2 (Z.eqb_neq _ _)) by lia. reflexivity.
Qed.
Lemma ckks_new_inv P ls sc C : Ckks_NewParameters P ls sc = Ret (C, None) -> C = mkCkks P ls sc /\ 0 <= ls.
Proof.
  unfold Ckks_NewParameters. destruct (Equals P zeroParams) as [[]| |]; cbn [bind]; try discriminate. destruct (ringQ P); [|discriminate].
  destruct (_ || _) eqn:E; [discriminate|]. intros H. injection H as <-. split; [reflexivity|]. apply orb_false_iff in E. destruct E as [_ E]. apply Z.ltb_ge in E. exact E.
Qed.
Lemma ckks_params_round_trip fuel logn q p hh sg ty P ls sc C : NewParameters fuel logn q p hh sg ty = (P, None) -> Ckks_NewParameters P ls sc = Ret (C, None) ->
  go_int hh -> Forall word q -> Forall word p -> ls < 256 ->
  Ckks_MarshalBinary C = params_bytes logn q p hh sg ty ++ [ls] ++ be_bytes 8 (Float64bits sc) /\ Z.of_nat (length (Ckks_MarshalBinary C)) = Ckks_MarshalBinarySize C /\
  forall r, Ckks_UnmarshalBinary fuel r (Ckks_MarshalBinary C) = Ret (C, None).
Proof.
  intros H HC Hh Hq Hp Hl. destruct (ckks_new_inv _ _ _ _ HC) as [E Hl0]. subst C. destruct (params_round_trip _ _ _ _ _ _ _ _ H Hh Hq Hp) as (M & LM & U).
  destruct (new_fields _ _ _ _ _ _ _ _ H) as (E1 & _ & _ & _ & _ & _ & CS & _). apply check_sizes in CS.
  assert (MB : Ckks_MarshalBinary (mkCkks P ls sc) = params_bytes logn q p hh sg ty ++ [ls] ++ be_bytes 8 (Float64bits sc)).
  { unfold Ckks_MarshalBinary. cbn [cRlwe cLogSlots cScale]. rewrite E1, (proj2 (Z.eqb_neq _ _)) by lia. rewrite write_slice8. cbn [app]. unfold WriteUint8, WriteUint64, byte.
    rewrite Z.mod_small by lia. rewrite M, <- app_assoc. reflexivity. }
  split; [exact MB|]. rewrite MB. split.
  { rewrite !app_length, be_bytes_length. rewrite <- M. unfold Ckks_MarshalBinarySize. cbn [cRlwe length]. lia. }
  intros r. unfold Ckks_UnmarshalBinary. rewrite <- M at 1. rewrite U. cbn [bind]. rewrite <- M. set (B := Params_MarshalBinary P) in *.
  assert (L : length (B ++ [ls] ++ be_bytes 8 (Float64bits sc)) = (length B + 9)%nat) by (rewrite !app_length, be_bytes_length; cbn [length]; lia).
  rewrite L. replace (length B + 9 - 9)%nat with (length B) by lia. replace (length B + 9 - 8)%nat with (length (B ++ [ls])) by (rewrite app_length; cbn [length]; lia).
  unfold index. rewrite nth_error_app2, Nat.sub_diag by lia. cbn [nth_error app bind]. change (ls :: be_bytes 8 (Float64bits sc)) with ([ls] ++ be_bytes 8 (Float64bits sc)). rewrite app_assoc. unfold tail_from.
  rewrite (proj2 (Nat.leb_le _ _)) by (rewrite (app_length (B ++ [ls])); lia). cbn [bind].
  destruct (float_bits sc) as [FB FE]. rewrite skipn_exact, be_value_bytes. rewrite Z.mod_small by exact FB. rewrite FE. exact HC.
Qed.
Lemma ckks_json_round_trip fuel logn q p hh sg ty P ls sc C : NewParameters fuel logn q p hh sg ty = (P, None) -> Ckks_NewParameters P ls sc = Ret (C, None) ->
  hh <> 0 -> is_finite sg = true -> f64_same sg (f64_of_Z 0) = false -> ls <> 0 -> is_finite sc = true ->
  exists d, Ckks_MarshalJSON C = Ret d /\ Ckks_UnmarshalJSON fuel d = Ret (C, None).
Proof.
  intros H HC Hh Hf Hs Hl Hc. destruct (ckks_new_inv _ _ _ _ HC) as [E _]. subst C. destruct (new_fields _ _ _ _ _ _ _ _ H) as (E1 & E2 & E3 & E4 & E5 & E6 & _).
  unfold Ckks_MarshalJSON, finite. cbn [cRlwe cLogSlots cScale]. rewrite E1, E2, E3, E4, E5, E6, Hf, Hc. cbn [andb]. eexists. split; [reflexivity|].
  unfold Ckks_UnmarshalJSON, Ckks_NewParametersFromLiteral, NewParametersFromLiteral. cbn [clRlwe clLogSlots clScale lH lLogN lSigma lQ lLogQ lP lLogP lType].
  rewrite (proj2 (Z.eqb_neq _ _) Hh). cbn [andb bind]. rewrite Hs, H. rewrite (proj2 (Z.eqb_neq _ _) Hl). exact HC.
Qed.

(** ** The accepted moduli *)
Lemma ring_moduli fuel N ms ex r k : NewRingWithCustomNTT fuel N ms (2 ^ Z.of_nat ex * N) = inl r -> N = 2 ^ Z.of_nat k ->
  NoDup ms /\ ms <> [] /\ forall x, In x ms -> prime x /\ x mod (2 ^ Z.of_nat ex * N) = 1.
Proof.
  intros H HN. unfold NewRingWithCustomNTT in H. destruct (_ || _); [discriminate H|]. destruct (Nat.eqb_spec (length ms) 0) as [|NE]; [discriminate H|].
  destruct (AllDistinct ms) eqn:D; [|discriminate H]. destruct (forallb IsPrime ms) eqn:P; [|discriminate H]. destruct (forallb _ ms) eqn:F in H; [|discriminate H]. clear H.
  split; [apply AllDistinct_spec; exact D|]. split; [intros ->; apply NE; reflexivity|]. intros x Hx. rewrite forallb_forall in P, F. specialize (P x Hx). specialize (F x Hx).
  apply IsPrime_spec in P. split; [exact P|]. apply Z.eqb_eq in F. rewrite HN, <- Z.pow_add_r, <- Nat2Z.inj_add in * by lia. rewrite land_mod_pow2 in F by (destruct P; lia). exact F.
Qed.
Lemma len_bound x m : 2 <= x -> word x -> 0 <= m <= 63 -> negb (m <? (Len64 x - 1) mod W) = true -> x < 2 ^ (m + 1).
Proof.
  intros H2 [_ HW] Hm H. apply negb_true_iff, Z.ltb_ge in H. unfold Len64 in H. rewrite (proj2 (Z.eqb_neq _ _)) in H by lia.
  assert (L : 0 <= Z.log2 x < 64) by (split; [apply Z.log2_nonneg|apply Z.log2_lt_pow2; lia]). replace (Z.log2 x + 1 - 1) with (Z.log2 x) in H by ring.
  rewrite Z.mod_small in H by (unfold W; lia). apply Z.log2_lt_pow2; lia.
Qed.
Lemma accepted_moduli fuel logn q p hh sg ty P : NewParameters fuel logn q p hh sg ty = (P, None) -> Forall word q -> Forall word p ->
  let M := 2 ^ (logn + (if ty =? Standard then 1 else 2)) in
  4 <= logn <= 17 /\ (ty = Standard \/ ty = ConjugateInvariant) /\ (1 <= length q <= 100)%nat /\ (length p <= 100)%nat /\
  good_moduli M (2 ^ 62) q /\ good_moduli M (2 ^ 63) p.
Proof.
  intros H Wq Wp M. pose proof (new_type _ _ _ _ _ _ _ _ H) as HT. destruct (new_fields _ _ _ _ _ _ _ _ H) as (_ & _ & _ & _ & _ & _ & C & CM & I).
  apply check_sizes in C. destruct C as (C1 & C2 & C3). unfold CheckModuli in CM. rewrite !andb_true_iff, !forallb_forall in CM. destruct CM as (((((_ & _) & Bq) & Bp) & _) & _).
  unfold initRings in I. cbn [logN qi pi ringType sigma h ringP] in I.
  assert (R : forall ms r, NewRingFromType fuel (2 ^ logn) ms ty = inl r -> NoDup ms /\ ms <> [] /\ forall x, In x ms -> prime x /\ x mod M = 1).
  { intros ms r E. assert (EN : 2 ^ logn = 2 ^ Z.of_nat (Z.to_nat logn)) by (rewrite Z2Nat.id by lia; reflexivity). unfold NewRingFromType in E. unfold M. destruct (ty =? Standard).
    - destruct (NewRingWithCustomNTT _ _ _ _) as [r'|] eqn:E' in E; [|discriminate E]. destruct (ring_moduli fuel _ ms 1 r' _ E' EN) as (A & B & D).
      split; [exact A|]. split; [exact B|]. intros x Hx. destruct (D x Hx) as [D1 D2]. split; [exact D1|]. rewrite Z.pow_add_r, Z.mul_comm by lia. exact D2.
    - destruct (ty =? ConjugateInvariant); [|discriminate E]. destruct (NewRingWithCustomNTT _ _ _ _) as [r'|] eqn:E' in E; [|discriminate E]. destruct (ring_moduli fuel _ ms 2 r' _ E' EN) as (A & B & D).
      split; [exact A|]. split; [exact B|]. intros x Hx. destruct (D x Hx) as [D1 D2]. split; [exact D1|]. rewrite Z.pow_add_r, Z.mul_comm by lia. exact D2. }
  destruct (NewRingFromType fuel (2 ^ logn) q ty) as [rq|] eqn:EQ; [|discriminate I]. destruct (R _ _ EQ) as (Q1 & Q2 & Q3).
  assert (GP : NoDup p /\ forall x, In x p -> prime x /\ x mod M = 1).
  { destruct p as [|y p']; [split; [constructor|intros x []]|]. cbn [length Nat.eqb] in I. destruct (NewRingFromType fuel (2 ^ logn) (y :: p') ty) as [rp|] eqn:EP; [|discriminate I].
    destruct (R _ _ EP) as (P1 & _ & P3). split; assumption. }
  split; [exact C1|]. split; [exact HT|]. split; [destruct q; [contradiction|cbn [length] in *; lia]|]. split; [lia|].
  assert (GB : forall l m, Forall word l -> 0 <= m <= 63 -> (forall x, In x l -> negb (m <? (Len64 x - 1) mod W) = true) -> (forall x, In x l -> prime x /\ x mod M = 1) ->
    forall x, In x l -> prime x /\ x mod M = 1 /\ 2 <= x < 2 ^ (m + 1)).
  { clear. intros l m HW Hm HB HP x Hx. destruct (HP x Hx) as [P1 P2]. pose proof (prime_ge_2 x P1) as G2. split; [exact P1|]. split; [exact P2|]. split; [exact G2|].
    apply (len_bound x m G2); [exact (proj1 (Forall_forall _ _) HW x Hx)|exact Hm|exact (HB x Hx)]. }
  split; (split; [first [exact Q1|exact (proj1 GP)]|]); intros x Hx.
  - exact (GB q 61 Wq ltac:(lia) Bq Q3 x Hx).
  - exact (GB p 62 Wp ltac:(lia) Bp (proj2 GP) x Hx).
Qed.
