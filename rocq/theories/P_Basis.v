(** C10-C14 and C50: changing the RNS basis. *)
From Verif Require Import Word Arith PolySpec Ring RingOps RNSSpec OpsProofs BasisExt BasisProps Examples BasisEx.

(** C10/C11.  Extending X from the moduli q_0..q_levelQ to another basis gives the residues of
    (X mod Q) + e Q with e in {-1,0,1}, and e = 0 unless X mod Q is within 2^-42 Q of 0 or of Q.
    Only the level+1 requested rows are written. *)
Theorem C10_basis_extension : forall rQ rP, built_ring 2 rQ -> built_ring 2 rP -> rN rQ = rN rP ->
  forall levelQ levelP t polQ polP X,
  (levelP < length (rmods rP))%nat -> (levelQ < 32)%nat ->
  0 <= t -> lsum rQ levelQ <= t * W -> (forall j, (j <= levelP)%nat -> (t + 2) * mq (rmod rP j) <= W) ->
  rns_repr rQ levelQ (fun _ => W) polQ X ->
  let Q := lprod rQ levelQ in
  forall out, (out = ModUpQtoP (NewBasisExtender rQ rP) levelQ levelP polQ polP \/
               out = ModUpPtoQ (NewBasisExtender rP rQ) levelQ levelP polQ polP) ->
  exists e, (forall k, (k < rN rQ)%nat -> -1 <= e k <= 1 /\
               (Q <= 2 ^ 42 * (X k mod Q) -> Q <= 2 ^ 42 * (Q - X k mod Q) -> e k = 0)) /\
    rns_repr rP levelP (fun p => (t + 2) * p) out (fun k => X k mod Q + e k * Q) /\ kept levelP polP out.
Proof. exact modup_error. Qed.
Print Assumptions C10_basis_extension.

(** The hypotheses are met: three moduli extended to three others. *)
Example C10_applies : exists e, (forall k, (k < 16)%nat -> e k = 0) /\
  rns_repr ringP16 2 (fun p => 3 * p)
    (ModUpQtoP (NewBasisExtender ring16 ringP16) 2 2 (res_rows ring16 2 X16) []) (fun k => X16 k mod 4811297 + e k * 4811297).
Proof.
  assert (B1 := built_weaken 8 2 _ ltac:(lia) ring16_built).
  assert (B2 := built_weaken 8 2 _ ltac:(lia) ringP16_built).
  destruct (C10_basis_extension ring16 ringP16 B1 B2 eq_refl 2 2 1 (res_rows ring16 2 X16) [] X16) with
     (out := ModUpQtoP (NewBasisExtender ring16 ringP16) 2 2 (res_rows ring16 2 X16) []) as (e & He & HR & _).
  - vm_compute. lia.
  - lia.
  - lia.
  - vm_compute. discriminate.
  - intros j Hj. do 3 (destruct j as [|j]; [vm_compute; discriminate|]). lia.
  - apply (rns_repr_weaken _ _ canon); [|apply (res_rows_repr 2); [lia|exact B1|vm_compute; lia]].
    intros i Hi. do 3 (destruct i as [|i]; [vm_compute; discriminate|]). lia.
  - left. reflexivity.
  - assert (EQ : lprod ring16 2 = 4811297) by (vm_compute; reflexivity).
    assert (EN : rN ring16 = 16%nat) by (vm_compute; reflexivity). rewrite EQ, EN in He.
    exists e. split; [|exact HR]. intros k Hk. apply He; [exact Hk| |]; clear - Hk;
      do 16 (destruct k as [|k]; [vm_compute; discriminate|]); lia.
Qed.

(** The error does occur, in both directions: with two 61-bit moduli, -1 comes out as -1 (not as
    Q-1) and 2 comes out as 2+Q. *)
Theorem C10_exactness_refuted :
  exists rQ rP, built_ring 2 rQ /\ built_ring 2 rP /\ rN rQ = rN rP /\
  let Q := lprod rQ 1 in let p := mq (rmod rP 0) in
  let out x := coeff (ModUpQtoP (NewBasisExtender rQ rP) 1 0 (res_rows rQ 1 (fun _ => x)) []) 0 0 in
  ~ eqm p (out 2) 2 /\ eqm p (out 2) (2 + Q) /\ ~ eqm p (out (-1)) (Q - 1) /\ eqm p (out (-1)) (-1).
Proof.
  exists ringBigQ, ringBigP. split; [apply (built_weaken 8); [lia|exact ringBigQ_built]|].
  split; [apply (built_weaken 8); [lia|exact ringBigP_built]|].
  vm_compute. repeat split; discriminate.
Qed.
Print Assumptions C10_exactness_refuted.

(** C11.  Away from the boundary the extension is exact. *)
Theorem C11_exact_extension : forall rQ rP, built_ring 2 rQ -> built_ring 2 rP -> rN rQ = rN rP ->
  forall levelQ levelP t polQ polP X,
  (levelP < length (rmods rP))%nat -> (levelQ < 32)%nat ->
  0 <= t -> lsum rQ levelQ <= t * W -> (forall j, (j <= levelP)%nat -> (t + 2) * mq (rmod rP j) <= W) ->
  rns_repr rQ levelQ (fun _ => W) polQ X ->
  let Q := lprod rQ levelQ in
  (forall k, (k < rN rQ)%nat -> Q <= 2 ^ 42 * (X k mod Q) /\ Q <= 2 ^ 42 * (Q - X k mod Q)) ->
  rns_repr rP levelP (fun p => (t + 2) * p) (ModUpQtoP (NewBasisExtender rQ rP) levelQ levelP polQ polP) (fun k => X k mod Q) /\
  rns_repr rP levelP (fun p => (t + 2) * p) (ModUpPtoQ (NewBasisExtender rP rQ) levelQ levelP polQ polP) (fun k => X k mod Q).
Proof. exact modup_exact. Qed.
Print Assumptions C11_exact_extension.

(** C12.  Every output word is in [1, (t+2)p), for t the number of times the sum of the source
    moduli exceeds 2^64, rounded up. *)
Theorem C12_output_range : forall rQ rP, built_ring 2 rQ -> built_ring 2 rP -> rN rQ = rN rP ->
  forall levelQ levelP t polQ polP,
  (levelQ < length (rmods rQ))%nat -> (levelP < length (rmods rP))%nat -> (levelQ < 32)%nat ->
  0 <= t -> lsum rQ levelQ <= t * W -> (forall j, (j <= levelP)%nat -> (t + 2) * mq (rmod rP j) <= W) ->
  words rQ levelQ (fun _ => W) polQ ->
  words rP levelP (fun p => (t + 2) * p) (ModUpQtoP (NewBasisExtender rQ rP) levelQ levelP polQ polP) /\
  words rP levelP (fun p => (t + 2) * p) (ModUpPtoQ (NewBasisExtender rP rQ) levelQ levelP polQ polP).
Proof. exact modup_range. Qed.
Print Assumptions C12_output_range.

(** The range [0, 2p-1] documented in the code is exceeded. *)
Theorem C12_documented_range_refuted :
  exists rQ rP polQ, built_ring 8 rQ /\ built_ring 8 rP /\ rN rQ = rN rP /\ words rQ 3 canon polQ /\
  2 * mq (rmod rP 0) <= coeff (ModUpQtoP (NewBasisExtender rQ rP) 3 0 polQ []) 0 0.
Proof.
  exists ringBigQ, ringBigP, (res_rows ringBigQ 3 (fun _ => 1)).
  split; [exact ringBigQ_built|]. split; [exact ringBigP_built|]. split; [vm_compute; reflexivity|]. split.
  - apply wordsb_ok. vm_compute. reflexivity.
  - vm_compute. discriminate.
Qed.
Print Assumptions C12_documented_range_refuted.

(** C13.  ModDownQPtoQ divides by P: the result is the floor of A/P up to one unit, exactly the floor
    when A mod P is at least 2^-42 P away from 0 and from P. *)
Theorem C13_division_by_P : forall rQ rP, built_ring 2 rQ -> built_ring 2 rP -> rN rQ = rN rP -> disjoint_moduli rQ rP ->
  forall levelQ levelP t p1Q p1P p2Q A,
  (levelP < 32)%nat -> 0 <= t -> lsum rP levelP <= t * W ->
  (forall i, (i <= levelQ)%nat -> (t + 4) * mq (rmod rQ i) <= W) ->
  rns_repr rQ levelQ (fun q => 2 * q) p1Q A -> rns_repr rP levelP (fun _ => W) p1P A ->
  let out := ModDownQPtoQ (NewBasisExtender rQ rP) levelQ levelP p1Q p1P p2Q in
  exists D, rns_repr rQ levelQ canon out D /\ kept levelQ p2Q out /\
    forall k, (k < rN rQ)%nat -> quotient_of (lprod rP levelP) (A k) (D k).
Proof. exact moddown_floor. Qed.
Print Assumptions C13_division_by_P.

(** The same for the version whose operands are in the NTT domain. *)
Theorem C13_division_by_P_ntt : forall rQ rP, built_ring 6 rQ -> built_ring 6 rP -> rN rQ = rN rP -> disjoint_moduli rQ rP ->
  forall L, rN rQ = (2 ^ L)%nat -> forall levelQ levelP t p1Q p1P p2Q A,
  (levelP < 32)%nat -> 2 <= t -> lsum rP levelP <= t * W ->
  (forall i, (i <= levelQ)%nat -> (t + 6) * mq (rmod rQ i) <= W) ->
  rns_ntt rQ L levelQ (fun q => 2 * q) p1Q A -> rns_ntt rP L levelP (fun q => 2 * q) p1P A ->
  let out := ModDownQPtoQNTT (NewBasisExtender rQ rP) levelQ levelP p1Q p1P p2Q in
  exists D, rns_ntt rQ L levelQ canon out D /\ kept levelQ p2Q out /\
    forall k, (k < rN rQ)%nat -> quotient_of (lprod rP levelP) (A k) (D k).
Proof. exact moddown_ntt_floor. Qed.
Print Assumptions C13_division_by_P_ntt.

Example C13_applies : let A := fun k => 353 * 449 * (Z.of_nat k - 3) + 1000 * (Z.of_nat k + 1) in
  exists D, rns_repr ring16 2 canon
      (ModDownQPtoQ (NewBasisExtender ring16 ringP16) 2 1 (res_rows ring16 2 A) (res_rows ringP16 1 A) []) D /\
    forall k, (k < 16)%nat -> D k = Z.of_nat k - 3.
Proof.
  intros A.
  assert (B1 := built_weaken 8 2 _ ltac:(lia) ring16_built).
  assert (B2 := built_weaken 8 2 _ ltac:(lia) ringP16_built).
  destruct (C13_division_by_P ring16 ringP16 B1 B2 eq_refl) with (levelQ := 2%nat) (levelP := 1%nat) (t := 1)
    (p1Q := res_rows ring16 2 A) (p1P := res_rows ringP16 1 A) (p2Q := @nil (list Z)) (A := A) as (D & HR & _ & HD).
  - apply disjointb. vm_compute. reflexivity.
  - lia.
  - lia.
  - vm_compute. discriminate.
  - intros i Hi. do 3 (destruct i as [|i]; [vm_compute; discriminate|]). lia.
  - apply (rns_repr_weaken _ _ canon); [|apply (res_rows_repr 2); [lia|exact B1|vm_compute; lia]].
    intros i Hi. do 3 (destruct i as [|i]; [vm_compute; discriminate|]). lia.
  - apply (rns_repr_weaken _ _ canon); [|apply (res_rows_repr 2); [lia|exact B2|vm_compute; lia]].
    intros i Hi. do 3 (destruct i as [|i]; [vm_compute; discriminate|]). lia.
  - exists D. split; [exact HR|]. assert (EP : lprod ringP16 1 = 353 * 449) by (vm_compute; reflexivity).
    assert (EN : rN ring16 = 16%nat) by (vm_compute; reflexivity). rewrite EP, EN in HD.
    intros k Hk. destruct (HD k Hk) as [_ HE].
    rewrite HE; subst A; clear - Hk; cbv beta; do 16 (destruct k as [|k]; [vm_compute; (reflexivity || discriminate)|]); lia.
Qed.

(** The documentation promises a rounded division; 352/353 comes out as 0. *)
Theorem C13_rounding_refuted : exists rQ rP A, built_ring 8 rQ /\ built_ring 8 rP /\ rN rQ = rN rP /\ disjoint_moduli rQ rP /\
  let P := lprod rP 0 in
  let out := ModDownQPtoQ (NewBasisExtender rQ rP) 1 0 (res_rows rQ 1 (fun _ => A)) (res_rows rP 0 (fun _ => A)) [] in
  coeff out 0 0 = 0 /\ P < 2 * A < 2 * P.
Proof.
  exists ring16, ringP16, 352. split; [exact ring16_built|]. split; [exact ringP16_built|]. split; [reflexivity|].
  split; [apply disjointb; vm_compute; reflexivity|]. vm_compute. repeat split; discriminate.
Qed.
Print Assumptions C13_rounding_refuted.

(** C14.  ModDownQPtoP indexes its constants with levelP instead of levelQ.  With equal levels it
    divides by Q. *)
Theorem C14_equal_levels : forall rQ rP, built_ring 2 rQ -> built_ring 2 rP -> rN rQ = rN rP -> disjoint_moduli rQ rP ->
  forall level t p1Q p1P p2P A,
  (level < 32)%nat -> 0 <= t -> lsum rQ level <= t * W ->
  (forall i, (i <= level)%nat -> (t + 4) * mq (rmod rP i) <= W) ->
  rns_repr rQ level (fun _ => W) p1Q A -> rns_repr rP level (fun q => 2 * q) p1P A ->
  exists out D, ModDownQPtoP (NewBasisExtender rQ rP) level level p1Q p1P p2P = Some out /\
    rns_repr rP level canon out D /\ kept level p2P out /\
    forall k, (k < rN rQ)%nat -> quotient_of (lprod rQ level) (A k) (D k).
Proof. exact moddownP_equal_levels. Qed.
Print Assumptions C14_equal_levels.

(** With different levels the result is the numerator of the division by Q = q_0...q_levelQ,
    multiplied by the inverse of q_0...q_levelP instead of the inverse of Q. *)
Theorem C14_wrong_divisor : forall rQ rP, built_ring 2 rQ -> built_ring 2 rP -> rN rQ = rN rP -> disjoint_moduli rQ rP ->
  forall levelQ levelP t p1Q p1P p2P A,
  (levelQ < 32)%nat -> 0 <= t -> lsum rQ levelQ <= t * W ->
  (forall i, (i <= levelP)%nat -> (t + 4) * mq (rmod rP i) <= W) ->
  rns_repr rQ levelQ (fun _ => W) p1Q A -> rns_repr rP levelP (fun q => 2 * q) p1P A ->
  (levelP < length (rmods rQ))%nat ->
  exists out X', ModDownQPtoP (NewBasisExtender rQ rP) levelQ levelP p1Q p1P p2P = Some out /\
    (forall k, (k < rN rQ)%nat -> lift_of (lprod rQ levelQ) (A k) (X' k)) /\
    kept levelP p2P out /\
    forall i, (i <= levelP)%nat -> forall V,
      (forall k, (k < rN rQ)%nat -> eqm (mq (rmod rP i)) (A k - X' k) (lprod rQ levelP * V k)) ->
      row_repr (rN rQ) (mq (rmod rP i)) (mq (rmod rP i)) (nth i out []) V.
Proof. exact moddownP_general. Qed.
Print Assumptions C14_wrong_divisor.

(** With at least as many special moduli in use as there are moduli in Q it panics. *)
Theorem C14_panics : forall rQ rP levelQ levelP p1Q p1P p2P, (length (rmods rQ) <= levelP)%nat ->
  ModDownQPtoP (NewBasisExtender rQ rP) levelQ levelP p1Q p1P p2P = None.
Proof. exact moddownP_panics. Qed.
Print Assumptions C14_panics.

(** A concrete wrong quotient: A = 5 Q + 100 with Q = 97*193, divided at levelQ = 1, levelP = 0. *)
Theorem C14_division_refuted : exists rQ rP A, built_ring 8 rQ /\ built_ring 8 rP /\ rN rQ = rN rP /\ disjoint_moduli rQ rP /\
  match ModDownQPtoP (NewBasisExtender rQ rP) 1 0 (res_rows rQ 1 (fun _ => A)) (res_rows rP 0 (fun _ => A)) [] with
  | None => False
  | Some out => A / lprod rQ 1 = 5 /\ coeff out 0 0 <> 5 /\ coeff out 0 0 <> 4 /\ coeff out 0 0 <> 6
  end.
Proof.
  exists ring16, ringP16, (5 * (97 * 193) + 100). split; [exact ring16_built|]. split; [exact ringP16_built|]. split; [reflexivity|].
  split; [apply disjointb; vm_compute; reflexivity|]. vm_compute. repeat split; discriminate.
Qed.
Print Assumptions C14_division_refuted.

(** C50.  Digit [beta] of A: an integer polynomial congruent to A modulo the moduli lo..hi of its block,
    in [0, q_lo...q_hi) up to 2^-42 (and equal to the stored row, when the block is a single modulus),
    given by its residues modulo all the moduli of Q and of P. *)
Theorem C50_digit : forall rQ rP, built_ring 2 rQ -> built_ring 2 rP -> rN rQ = rN rP ->
  forall levelQ levelP alpha beta t B p0Q p1Q p1P A,
  (levelP < alpha)%nat -> (levelP < length (rmods rP))%nat -> (alpha <= length (rmods rP))%nat ->
  (alpha <= 32)%nat -> (beta * alpha <= levelQ)%nat ->
  let lo := (beta * alpha)%nat in
  let hi := Nat.min levelQ (alpha * (beta + 1) - 1) in
  0 <= t -> block_sum rQ lo hi <= t * W ->
  (forall i, (i <= levelQ)%nat -> (t + 2) * mq (rmod rQ i) <= W /\ B (mq (rmod rQ i)) <= W) ->
  (forall i, (i <= levelP)%nat -> (t + 2) * mq (rmod rP i) <= W) ->
  rns_repr rQ levelQ B p0Q A ->
  let '(outQ, outP) := DecomposeAndSplit (NewDecomposer rQ rP) levelQ levelP alpha beta p0Q p1Q p1P in
  kept levelQ p1Q outQ /\ kept levelP p1P outP /\
  exists d, (forall k, (k < rN rQ)%nat ->
       (forall i, (lo <= i <= hi)%nat -> eqm (mq (rmod rQ i)) (d k) (A k)) /\
       (if Nat.eqb lo hi then 0 <= d k < B (mq (rmod rQ lo))
        else - block_prod rQ lo hi < 2 ^ 42 * d k /\ 2 ^ 42 * (d k - block_prod rQ lo hi) < block_prod rQ lo hi)) /\
     let B' := fun q => if Nat.eqb lo hi then B (mq (rmod rQ lo)) else (t + 2) * q in
     rns_repr rQ levelQ B' outQ d /\ rns_repr rP levelP B' outP d.
Proof. exact decompose_digit. Qed.
Print Assumptions C50_digit.

(** The digits recombine to A modulo Q with any gadget that is 1 modulo its own block and 0 modulo
    the other blocks. *)
Theorem C50_recombination : forall rQ, built_ring 2 rQ -> forall levelQ alpha (A : nat -> Z) (d : nat -> nat -> Z) (g : nat -> Z) N,
  (levelQ < length (rmods rQ))%nat -> (0 < alpha)%nat ->
  (forall b i k, (b * alpha <= i)%nat -> (i < (b + 1) * alpha)%nat -> (i <= levelQ)%nat -> (k < N)%nat ->
     eqm (mq (rmod rQ i)) (d b k) (A k)) ->
  (forall b i, (i <= levelQ)%nat -> eqm (mq (rmod rQ i)) (g b) (if Nat.eqb (i / alpha) b then 1 else 0)) ->
  forall k, (k < N)%nat ->
  eqm (lprod rQ levelQ) (bigsum (levelQ / alpha + 1) (fun b => d b k * g b)) (A k).
Proof. exact gadget_sum. Qed.
Print Assumptions C50_recombination.

(** Three moduli in blocks of two: both digits of the example polynomial. *)
Example C50_applies : forall beta, (beta <= 1)%nat ->
  exists d, (forall k, (k < 16)%nat -> forall i, (beta * 2 <= i <= Nat.min 2 (2 * (beta + 1) - 1))%nat -> eqm (mq (rmod ring16 i)) (d k) (X16 k)) /\
  rns_repr ringP16 1 (fun p => 3 * p) (snd (DecomposeAndSplit (NewDecomposer ring16 ringP16) 2 1 2 beta (res_rows ring16 2 X16) [] [])) d.
Proof.
  intros beta Hb.
  assert (B1 := built_weaken 8 2 _ ltac:(lia) ring16_built).
  assert (B2 := built_weaken 8 2 _ ltac:(lia) ringP16_built).
  assert (G := C50_digit ring16 ringP16 B1 B2 eq_refl 2 1 2 beta 1 canon (res_rows ring16 2 X16) [] [] X16).
  cbv zeta in G. destruct (DecomposeAndSplit _ _ _ _ _ _ _ _) as [oQ oP].
  destruct G as (_ & _ & d & Hd & _ & HR).
  - lia.
  - vm_compute. lia.
  - vm_compute. lia.
  - lia.
  - lia.
  - lia.
  - destruct beta as [|[|beta]]; [vm_compute; discriminate|vm_compute; discriminate|lia].
  - intros i Hi. do 3 (destruct i as [|i]; [vm_compute; split; discriminate|]). lia.
  - intros i Hi. do 3 (destruct i as [|i]; [vm_compute; discriminate|]). lia.
  - apply (res_rows_repr 2); [lia|exact B1|vm_compute; lia].
  - exists d. split; [intros k Hk i Hi; apply (Hd k Hk); exact Hi|].
    cbn [snd]. revert HR. apply rns_repr_weaken. intros i Hi. destruct beta as [|[|beta]]; [| |lia];
      do 2 (destruct i as [|i]; [vm_compute; discriminate|]); lia.
Qed.
