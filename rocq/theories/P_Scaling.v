(** C15, C16 and C47: dividing by moduli and reconstructing integers. *)
From Verif Require Import Word Arith PolySpec Ring RingOps RNSSpec OpsProofs BasisExt BasisProps ScalingSpec Scaling ScalingProps ScalingMore Examples BasisEx.

(** C15.  Dropping the last modulus gives the residues of the floor of the quotient of the same
    integers in every remaining row; only the rows below are written. *)
Theorem C15_floor : forall r, built_ring 3 r -> forall level p0 p1 A, (0 < level)%nat ->
  rns_repr r level canon p0 A ->
  let out := DivFloorByLastModulusLvl r level p0 p1 in
  rns_repr r (level - 1) canon out (fun k => A k / mq (rmod r level)) /\ kept (level - 1) p1 out.
Proof. exact divfloor. Qed.
Print Assumptions C15_floor.

(** Dropping several moduli is one division by their product. *)
Theorem C15_floor_many : forall r, built_ring 3 r -> forall nb level p0 p1 A, (0 < nb <= level)%nat ->
  rns_repr r level canon p0 A ->
  let out := DivFloorByLastModulusManyLvl r level nb p0 p1 in
  rns_repr r (level - nb) canon out (fun k => A k / fold_right Z.mul 1 (last_moduli r level nb)) /\ kept (level - nb) p1 out.
Proof. exact divfloor_many. Qed.
Print Assumptions C15_floor_many.

(** In the NTT domain, through the coefficient domain. *)
Theorem C15_floor_many_ntt : forall r, built_ring 8 r -> forall L, rN r = (2 ^ L)%nat -> forall nb level p0 p1 A, (0 < nb <= level)%nat ->
  rns_ntt r L level (fun q => 2 * q) p0 A ->
  let out := DivFloorByLastModulusManyNTTLvl r level nb p0 p1 in
  rns_ntt r L (level - nb) canon out (fun k => A k / fold_right Z.mul 1 (last_moduli r level nb)) /\ kept (level - nb) p1 out.
Proof. exact divfloor_many_ntt. Qed.
Print Assumptions C15_floor_many_ntt.

(** The single-step floor in the NTT domain: the last row is only lazily reduced, so the result is
    the floor or one less, one less being possible only when the remainder is at
    most a third of the modulus, and certain when the division is exact. *)
Theorem C15_floor_ntt : forall r, built_ring 8 r -> forall L, rN r = (2 ^ L)%nat -> forall level p0 p1 A, (0 < level)%nat ->
  rns_ntt r L level (fun q => 2 * q) p0 A ->
  let out := DivFloorByLastModulusNTTLvl r level p0 p1 in
  let ql := mq (rmod r level) in
  exists D, rns_ntt r L (level - 1) canon out D /\ kept (level - 1) p1 out /\
    forall k, (k < rN r)%nat ->
      (D k = A k / ql \/ D k = A k / ql - 1 /\ 3 * (A k mod ql) <= ql) /\
      (A k mod ql = 0 -> D k = A k / ql - 1).
Proof. exact divfloor_ntt. Qed.
Print Assumptions C15_floor_ntt.

(** So the documented floor is not what it computes: 5 * 257 divided by 257 gives 4. *)
Theorem C15_floor_ntt_refuted : exists r L level p0 A, built_ring 8 r /\ rN r = (2 ^ L)%nat /\ (0 < level)%nat /\
  rns_repr r level canon p0 A /\
  let out := InvNTTLvl r (level - 1) (DivFloorByLastModulusNTTLvl r level (NTTLvl r level p0 []) []) [] in
  A 0%nat = 5 * mq (rmod r level) /\ forall i, (i < level)%nat -> coeff out i 0 = 4.
Proof.
  exists ring16, 4%nat, 2%nat, (res_rows ring16 2 (fun _ => 5 * 257)), (fun _ => 5 * 257).
  split; [exact ring16_built|]. split; [reflexivity|]. split; [lia|].
  split; [apply (res_rows_repr 8); [lia|exact ring16_built|vm_compute; lia]|].
  split; [vm_compute; reflexivity|]. intros i Hi. do 2 (destruct i as [|i]; [vm_compute; reflexivity|]). lia.
Qed.
Print Assumptions C15_floor_ntt_refuted.

(** The rounded versions give the nearest integer. *)
Theorem C15_round : forall r, built_ring 5 r -> forall level p0 p1 A, (0 < level)%nat ->
  rns_repr r level canon p0 A ->
  let out := snd (DivRoundByLastModulusLvl r level p0 p1) in
  rns_repr r (level - 1) canon out (fun k => nearest (mq (rmod r level)) (A k)) /\ kept (level - 1) p1 out.
Proof. exact divround. Qed.
Print Assumptions C15_round.

Theorem C15_round_inplace : forall r, built_ring 5 r -> forall level p A, (0 < level)%nat ->
  rns_repr r level canon p A ->
  rns_repr r (level - 1) canon (DivRoundByLastModulusLvl_inplace r level p) (fun k => nearest (mq (rmod r level)) (A k)).
Proof. exact divround_inplace. Qed.
Print Assumptions C15_round_inplace.

Theorem C15_round_ntt : forall r, built_ring 8 r -> forall L, rN r = (2 ^ L)%nat -> forall level p0 p1 A, (0 < level)%nat ->
  rns_ntt r L level (fun q => 2 * q) p0 A ->
  let out := DivRoundByLastModulusNTTLvl r level p0 p1 in
  rns_ntt r L (level - 1) canon out (fun k => nearest (mq (rmod r level)) (A k)) /\ kept (level - 1) p1 out.
Proof. exact divround_ntt. Qed.
Print Assumptions C15_round_ntt.

(** Several rounded divisions: each step rounds, and the result is within one unit of the quotient
    by the product. *)
Theorem C15_round_many : forall r, built_ring 5 r -> forall nb level p0 p1 A, (0 < nb <= level)%nat ->
  rns_repr r level canon p0 A ->
  let out := snd (DivRoundByLastModulusManyLvl r level nb p0 p1) in
  rns_repr r (level - nb) canon out (fun k => rounds (last_moduli r level nb) (A k)) /\ kept (level - nb) p1 out.
Proof. exact divround_many. Qed.
Print Assumptions C15_round_many.

Theorem C15_round_many_ntt : forall r, built_ring 8 r -> forall L, rN r = (2 ^ L)%nat -> forall nb level p0 p1 A, (0 < nb <= level)%nat ->
  rns_ntt r L level (fun q => 2 * q) p0 A ->
  let out := DivRoundByLastModulusManyNTTLvl r level nb p0 p1 in
  rns_ntt r L (level - nb) canon out (fun k => rounds (last_moduli r level nb) (A k)) /\ kept (level - nb) p1 out.
Proof. exact divround_many_ntt. Qed.
Print Assumptions C15_round_many_ntt.

(** [nearest] is the nearest integer (there are no ties for an odd modulus). *)
Theorem C15_nearest : forall q a, 0 < q -> Z.odd q = true -> 2 * Z.abs (a - q * nearest q a) < q.
Proof. exact nearest_spec. Qed.
Print Assumptions C15_nearest.
Theorem C15_rounds : forall qs a, (forall q, In q qs -> 0 < q /\ Z.odd q = true) -> qs <> [] ->
  Z.abs (a - fold_right Z.mul 1 qs * rounds qs a) < fold_right Z.mul 1 qs.
Proof. exact rounds_spec. Qed.
Print Assumptions C15_rounds.

(** The coefficient version of the rounded division overwrites its input. *)
Theorem C15_input_preserved_refuted : exists r level p0 A, built_ring 5 r /\ (0 < level)%nat /\ rns_repr r level canon p0 A /\
  coeff (fst (DivRoundByLastModulusLvl r level p0 [])) 0 0 <> coeff p0 0 0.
Proof.
  exists ring16, 2%nat, (res_rows ring16 2 X16), X16.
  split; [apply (built_weaken 8); [lia|exact ring16_built]|]. split; [lia|].
  split; [apply (res_rows_repr 8); [lia|exact ring16_built|vm_compute; lia]|]. vm_compute. discriminate.
Qed.
Print Assumptions C15_input_preserved_refuted.

(** The hypotheses are met, and the numbers are as stated: 123456*3+7 divided by 257 and by 193*257. *)
Example C15_applies : coeff (DivFloorByLastModulusLvl ring16 2 (res_rows ring16 2 X16) []) 1 3 = (370375 / 257) mod 193 /\
  coeff (snd (DivRoundByLastModulusManyLvl ring16 2 2 (res_rows ring16 2 X16) [])) 0 3 = 7 /\
  nearest 193 (nearest 257 370375) = 7 /\ rns_repr ring16 2 canon (res_rows ring16 2 X16) X16.
Proof.
  split; [vm_compute; reflexivity|]. split; [vm_compute; reflexivity|]. split; [vm_compute; reflexivity|].
  apply (res_rows_repr 8); [lia|exact ring16_built|vm_compute; lia].
Qed.

(** C16.  Reconstruction gives the residue modulo Q of the represented integers; entry i is the
    coefficient of X^(i*gap), and all of those below N are there. *)
Theorem C16_reconstruction : forall r, built_ring 2 r -> forall level B p X gap, (0 < gap)%nat -> rns_repr r level B p X ->
  let out := PolyToBigintLvl r level p gap in
  (rN r <= length out * gap)%nat /\
  forall i, (i < length out)%nat -> (i * gap < rN r)%nat /\ nth i out 0 = X (i * gap)%nat mod lprod r level.
Proof. exact poly_to_bigint. Qed.
Print Assumptions C16_reconstruction.

(** The centred one gives the congruent integer in [-(Q+1)/2, (Q-1)/2): the half-open interval is
    shifted by one from the usual one, and (Q-1)/2 is returned as -(Q+1)/2. *)
Theorem C16_centred : forall r, built_ring 2 r -> forall level B p X gap, (0 < gap)%nat -> rns_repr r level B p X ->
  let out := PolyToBigintCenteredLvl r level p gap in
  let Q := lprod r level in
  (rN r <= length out * gap)%nat /\
  forall i, (i < length out)%nat -> (i * gap < rN r)%nat /\
    eqm Q (nth i out 0) (X (i * gap)%nat) /\ - (Q + 1) <= 2 * nth i out 0 < Q - 1 /\
    (- Q < 2 * X (i * gap)%nat < Q - 1 -> nth i out 0 = X (i * gap)%nat).
Proof. exact poly_to_bigint_centered. Qed.
Print Assumptions C16_centred.

(** The integer (Q-1)/2 lies strictly between -Q/2 and Q/2 and does not come back. *)
Theorem C16_centred_boundary_refuted : exists r level p X, built_ring 2 r /\ rns_repr r level canon p X /\
  - lprod r level < 2 * X 0%nat < lprod r level /\ nth 0 (PolyToBigintCenteredLvl r level p 1) 0 <> X 0%nat.
Proof.
  exists ring16, 2%nat, (res_rows ring16 2 (fun _ => 2405648)), (fun _ => 2405648).
  split; [apply (built_weaken 8); [lia|exact ring16_built]|].
  split; [apply (res_rows_repr 8); [lia|exact ring16_built|vm_compute; lia]|].
  split; [vm_compute; split; reflexivity|]. vm_compute. discriminate.
Qed.
Print Assumptions C16_centred_boundary_refuted.

(** Integers to polynomial and back, and polynomial to integers and back.  The destination has rows
    of N words, or none yet. *)
Theorem C16_set_coefficients : forall r, built_ring 2 r -> forall level coeffs p1, (level < length (rmods r))%nat -> length coeffs = rN r ->
  (forall i, (i <= level)%nat -> nth i p1 [] = [] \/ length (nth i p1 []) = rN r) ->
  rns_repr r level canon (SetCoefficientsBigintLvl r level coeffs p1) (fun k => nth k coeffs 0) /\
  kept level p1 (SetCoefficientsBigintLvl r level coeffs p1).
Proof. exact set_bigint. Qed.
Print Assumptions C16_set_coefficients.
Theorem C16_set_uint64 : forall r, built_ring 2 r -> forall coeffs p1, length coeffs = rN r ->
  (forall i, (i < length (rmods r))%nat -> nth i p1 [] = [] \/ length (nth i p1 []) = rN r) ->
  rns_repr r (length (rmods r) - 1) canon (SetCoefficientsUint64 r coeffs p1) (fun k => nth k coeffs 0).
Proof. exact set_uint64. Qed.
Print Assumptions C16_set_uint64.
Theorem C16_set_int64 : forall r, built_ring 2 r -> forall coeffs p1, length coeffs = rN r ->
  (forall i, (i < length (rmods r))%nat -> nth i p1 [] = [] \/ length (nth i p1 []) = rN r) ->
  rns_repr r (length (rmods r) - 1) canon (SetCoefficientsInt64 r coeffs p1) (fun k => nth k coeffs 0).
Proof. exact set_int64. Qed.
Print Assumptions C16_set_int64.
Theorem C16_integers_round_trip : forall r, built_ring 2 r -> forall level coeffs p1, (level < length (rmods r))%nat -> length coeffs = rN r ->
  (forall i, (i <= level)%nat -> nth i p1 [] = [] \/ length (nth i p1 []) = rN r) ->
  PolyToBigintLvl r level (SetCoefficientsBigintLvl r level coeffs p1) 1 = map (fun c => c mod lprod r level) coeffs.
Proof. exact bigint_round_trip. Qed.
Print Assumptions C16_integers_round_trip.
Theorem C16_rows_round_trip : forall r, built_ring 2 r -> forall level p p1, (level < length (rmods r))%nat -> words r level canon p ->
  (forall i, (i <= level)%nat -> nth i p1 [] = [] \/ length (nth i p1 []) = rN r) ->
  forall i, (i <= level)%nat -> nth i (SetCoefficientsBigintLvl r level (PolyToBigintLvl r level p 1) p1) [] = nth i p [].
Proof. exact poly_round_trip. Qed.
Print Assumptions C16_rows_round_trip.
Example C16_applies : map (fun c => c mod 4811297) [5000000; -1] = firstn 2 (PolyToBigintLvl ring16 2
    (SetCoefficientsBigintLvl ring16 2 ([5000000; -1] ++ repeat 0 14) []) 1) /\ lprod ring16 2 = 4811297.
Proof. split; vm_compute; reflexivity. Qed.

(** C47.  The nearest integer, a tie going away from zero. *)
Theorem C47_div_round : forall a b, b <> 0 ->
  2 * Z.abs (a - b * DivRound a b) <= Z.abs b /\
  (2 * Z.abs (a - b * DivRound a b) = Z.abs b -> Z.abs a < Z.abs (b * DivRound a b)).
Proof. exact divround_int. Qed.
Print Assumptions C47_div_round.
Example C47_applies : map (fun p => DivRound (fst p) (snd p)) [(7, 2); (-7, 2); (7, -2); (-7, -2); (10, 4); (9, 4)] = [4; -4; -4; 4; 3; 2].
Proof. reflexivity. Qed.

(** C52.  Equality of polynomials of a ring is congruence of the represented integers modulo Q,
    whatever the representatives; the arguments are left reduced. *)
Theorem C52_equal : forall r, built_ring 2 r -> forall level p1 p2 X Y,
  rns_repr r level (fun _ => W) p1 X -> rns_repr r level (fun _ => W) p2 Y ->
  let '(b, p1', p2') := EqualLvl r level p1 p2 in
  (b = true <-> forall k, (k < rN r)%nat -> eqm (lprod r level) (X k) (Y k)) /\
  rns_repr r level canon p1' X /\ rns_repr r level canon p2' Y.
Proof. exact equal_lvl. Qed.
Print Assumptions C52_equal.
Example C52_applies : fst (fst (EqualLvl ring16 2 (res_rows ring16 2 X16) (map (map (fun x => x + 97 * 193 * 257)) (res_rows ring16 2 X16)))) = true /\
  fst (fst (EqualLvl ring16 2 (res_rows ring16 2 X16) (map (map (fun x => x + 97)) (res_rows ring16 2 X16)))) = false.
Proof. split; vm_compute; reflexivity. Qed.

(** C53.  Scaling by t/Q.  The RNS scaler: within one of the nearest integer to t x/Q modulo t, and
    equal to it unless t x + Q/2 is within 2^-42 Q of a multiple of Q. *)
Theorem C53_rns_scaler : forall rQ rT, built_ring 4 rQ -> built_ring 2 rT -> rN rQ = rN rT -> disjoint_moduli rQ rT ->
  length (rmods rT) = 1%nat -> (length (rmods rQ) <= 32)%nat ->
  forall c pool p1 p2 X, 0 <= c -> lsum rQ (length (rmods rQ) - 1) <= c * W -> (c + 4) * mq (rmod rT 0) <= W ->
  length p1 = length (rmods rQ) -> length pool = length (rmods rQ) ->
  rns_repr rQ (length (rmods rQ) - 1) (fun _ => W) p1 X ->
  let Q := lprod rQ (length (rmods rQ) - 1) in
  let t := mq (rmod rT 0) in
  let out := snd (RNSScale (NewRNSScaler rQ rT) pool p1 p2) in
  exists D, rns_repr rT 0 canon out D /\ kept 0 p2 out /\
    forall k, (k < rN rQ)%nat -> -1 <= D k - nearest Q (t * X k) <= 1 /\
      (Q <= 2 ^ 42 * ((t * X k + Q / 2) mod Q) -> Q <= 2 ^ 42 * (Q - (t * X k + Q / 2) mod Q) -> D k = nearest Q (t * X k)).
Proof. exact rns_scale. Qed.
Print Assumptions C53_rns_scaler.

(** The simple scaler: exact, but the result is in [0,t], t included. *)
Theorem C53_simple_scaler : forall r, built_ring 2 r -> forall t B p1 p2 X, 0 < t -> t < W ->
  length p1 = length (rmods r) -> rns_repr r (length (rmods r) - 1) B p1 X ->
  let Q := lprod r (length (rmods r) - 1) in
  let out := SimpleScale r t p1 p2 in
  length out = length p2 /\
  forall j k, (j < length p2)%nat -> (k < rN r)%nat ->
    coeff out j k = nearest Q (t * (X k mod Q)) /\ 0 <= coeff out j k <= t /\ eqm t (coeff out j k) (nearest Q (t * X k)).
Proof. exact simple_scale. Qed.
Print Assumptions C53_simple_scaler.

(** "mod t" in its documentation does not hold: Q-1 scales to t. *)
Theorem C53_simple_scaler_reduced_refuted : exists r t p1 X, built_ring 2 r /\ 0 < t /\ t < W /\ length p1 = length (rmods r) /\
  rns_repr r (length (rmods r) - 1) canon p1 X /\ coeff (SimpleScale r t p1 [[]]) 0 0 = t.
Proof.
  exists ring16, 353, (res_rows ring16 2 (fun _ => -1)), (fun _ => -1).
  split; [apply (built_weaken 8); [lia|exact ring16_built]|]. split; [lia|]. split; [reflexivity|]. split; [reflexivity|].
  split; [apply (res_rows_repr 8); [lia|exact ring16_built|vm_compute; lia]|]. vm_compute. reflexivity.
Qed.
Print Assumptions C53_simple_scaler_reduced_refuted.

(** A p1 of lower level: the remaining rows of the pool come from the previous call, so the result
    depends on the scaler's history. *)
Theorem C53_history_refuted : exists rQ rT pool pool' p1, built_ring 4 rQ /\ built_ring 2 rT /\
  length pool = length (rmods rQ) /\ length pool' = length (rmods rQ) /\ words rQ 2 canon pool /\ words rQ 2 canon pool' /\
  words rQ 1 canon p1 /\ length p1 = 2%nat /\
  snd (RNSScale (NewRNSScaler rQ rT) pool p1 []) <> snd (RNSScale (NewRNSScaler rQ rT) pool' p1 []).
Proof.
  exists ring16, (ring_of 16 [353]), (res_rows ring16 2 (fun _ => 0)), (res_rows ring16 2 (fun _ => 1000000)), (res_rows ring16 1 X16).
  split; [apply (built_weaken 8); [lia|exact ring16_built]|].
  split. { exists 1000%nat, 16, [353]. split; [vm_compute; reflexivity|]. split; [vm_compute; discriminate|].
    intros q [<- | []]. vm_compute. discriminate. }
  split; [reflexivity|]. split; [reflexivity|].
  split; [apply wordsb_ok; vm_compute; reflexivity|]. split; [apply wordsb_ok; vm_compute; reflexivity|].
  split; [apply wordsb_ok; vm_compute; reflexivity|]. split; [reflexivity|]. vm_compute. discriminate.
Qed.
Print Assumptions C53_history_refuted.

Example C53_applies : nth 3 (nth 0 (snd (RNSScale (NewRNSScaler ring16 (ring_of 16 [353])) (res_rows ring16 2 (fun _ => 0)) (res_rows ring16 2 X16) [])) []) 0
   = nearest 4811297 (353 * 370375) /\ nearest 4811297 (353 * 370375) = 27.
Proof. split; vm_compute; reflexivity. Qed.
