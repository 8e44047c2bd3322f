(** Properties C86 and C87: changing the degree of the ring. *)
From Verif Require Import Word PolySpec Ring RingOps RNSSpec EncSpec BasisExt Frlwe Gadget GadgetSpec RlweSpec Rlwe CI CISpec Degree DegreeSpec DegreeProofs DegreeTop DegreeKeys BasisEx CIEx DegreeEx.
Local Open Scope Z_scope.

(** C86.  The rows of the transform of p(X), each word repeated N/n times, are the transform of p(X^(N/n)); rows of the receiver beyond
    those of p stay. *)
Theorem C86_embedding : forall rS rL l L level, nested 2 rS rL l L level -> forall B p out X,
  length p = S level -> rns_ntt rS l level B p X -> (level < length out)%nat -> (forall i, (i <= level)%nat -> length (nth i out []) = rN rL) ->
  exists u, MapSmallDimensionToLargerDimensionNTT p out = Some u /\ kept level out u /\ rns_ntt rL L level B u (inflate (2 ^ (L - l)) X).
Proof. exact embed_lemma. Qed.
Print Assumptions C86_embedding.

(** From degree n to degree N: the ciphertext under s(X^(N/n)) that decrypts to m(X^(N/n)); the source stays. *)
Theorem C86_up_ntt : forall rS rL l L level, nested 9 rS rL l L level -> forall (ct ctOut : list rows) C,
  ct_dom rS l level true ct C -> length ctOut = length ct -> (forall j, (j < length ct)%nat -> sized level (rN rL) (nth j ctOut [])) ->
  exists ct', SwitchCiphertextRingDegreeNTT ct rS rL ctOut = Some (ct, ct') /\ length ct' = length ct /\
    ct_dom rL L level true ct' (fun j => inflate (2 ^ (L - l)) (C j)).
Proof. exact up_ntt_lemma. Qed.
Print Assumptions C86_up_ntt.

Theorem C86_up_ntt_decrypts : forall rS rL l L level, nested 9 rS rL l L level -> forall (ct ctOut : list rows) C bp sk sk' s pt pt' pool pool' V,
  ct_dom rS l level true ct C -> length ctOut = length ct -> (forall j, (j < length ct)%nat -> sized level (rN rL) (nth j ctOut [])) ->
  rns_ntt rS l level canon sk (pscale W s) -> rns_ntt rL L level canon sk' (pscale W (inflate (2 ^ (L - l)) s)) ->
  length pt = S level -> length pt' = S level ->
  rns_dom rS l level bp (Decrypt rS sk ct true pt bp pool) V ->
  exists ct', SwitchCiphertextRingDegreeNTT ct rS rL ctOut = Some (ct, ct') /\
    rns_dom rL L level bp (Decrypt rL sk' ct' true pt' bp pool') (inflate (2 ^ (L - l)) V).
Proof. exact up_end_lemma. Qed.
Print Assumptions C86_up_ntt_decrypts.

(** On coefficients: only the words at the multiples of N/n are written, so the receiver has to be zero elsewhere. *)
Theorem C86_up_coefficients : forall rS rL l L level, nested 9 rS rL l L level -> forall (ct ctOut : list rows) C,
  ct_dom rS l level false ct C -> length ctOut = length ct -> (forall j, (j < length ct)%nat -> sized level (rN rL) (nth j ctOut [])) ->
  exists ct', SwitchCiphertextRingDegree ct ctOut = Some ct' /\ length ct' = length ct /\
    (forall j i k, (j < length ct)%nat -> (i <= level)%nat -> (k < rN rL)%nat -> (k mod 2 ^ (L - l) <> 0)%nat ->
       coeff (nth j ct' []) i k = coeff (nth j ctOut []) i k) /\
    ((forall j i k, (j < length ct)%nat -> (i <= level)%nat -> (k < rN rL)%nat -> coeff (nth j ctOut []) i k = 0) ->
     ct_dom rL L level false ct' (fun j => inflate (2 ^ (L - l)) (C j))).
Proof. exact up_coeffs_lemma. Qed.
Print Assumptions C86_up_coefficients.

Theorem C86_up_coefficients_decrypts : forall rS rL l L level, nested 9 rS rL l L level -> forall (ct ctOut : list rows) C bp sk sk' s pt pt' pool pool' V,
  ct_dom rS l level false ct C -> length ctOut = length ct -> (forall j, (j < length ct)%nat -> sized level (rN rL) (nth j ctOut [])) ->
  (forall j i k, (j < length ct)%nat -> (i <= level)%nat -> (k < rN rL)%nat -> coeff (nth j ctOut []) i k = 0) ->
  ((length ct - 1) mod 8 <> 7)%nat ->
  rns_ntt rS l level canon sk (pscale W s) -> rns_ntt rL L level canon sk' (pscale W (inflate (2 ^ (L - l)) s)) ->
  length pt = S level -> length pt' = S level ->
  rns_dom rS l level bp (Decrypt rS sk ct false pt bp pool) V ->
  exists ct', SwitchCiphertextRingDegree ct ctOut = Some ct' /\
    rns_dom rL L level bp (Decrypt rL sk' ct' false pt' bp pool') (inflate (2 ^ (L - l)) V).
Proof. exact up_coeffs_end_lemma. Qed.
Print Assumptions C86_up_coefficients_decrypts.

(** A used receiver of degree N keeps its other words, and the result is another polynomial. *)
Theorem C86_up_coefficients_refuted : exists rS rL (ct ctOut : list rows) C ct', nested 9 rS rL 4 5 0 /\ ct_dom rS 4 0 false ct C /\
  length ctOut = length ct /\ (forall j, (j < length ct)%nat -> sized 0 (rN rL) (nth j ctOut [])) /\
  SwitchCiphertextRingDegree ct ctOut = Some ct' /\ ~ ct_dom rL 5 0 false ct' (fun j => inflate 2 (C j)).
Proof.
  set (o := [[repeat 7 32]; [repeat 7 32]] : list rows).
  destruct (SwitchCiphertextRingDegree (d_ct d16 0 false) o) as [ct'|] eqn:E; [|vm_compute in E; discriminate].
  exists d16, std32, (d_ct d16 0 false), o, dX, ct'. split; [apply ex_nested; lia|]. split; [apply d_ct_dom; [exact d16_built|reflexivity|cbn; lia]|].
  split; [reflexivity|]. split.
  { intros j Hj. destruct j as [|[|j]]; [| |cbn in Hj; lia]; (split; [reflexivity|]; intros i Hi; destruct i; [reflexivity|lia]). }
  split; [exact E|]. intros [_ H]. assert (L2 : length ct' = 2%nat) by (vm_compute in E; injection E as <-; reflexivity).
  destruct (H O ltac:(lia)) as [_ (_ & _ & H')]. destruct (proj2 (H' O ltac:(lia)) 1%nat ltac:(cbn; lia)) as [_ H1].
  assert (E7 : coeff (nth 0 ct' []) 0 1 = 7) by (vm_compute in E; injection E as <-; reflexivity). unfold coeff in E7. rewrite E7 in H1. vm_compute in H1. discriminate.
Qed.
Print Assumptions C86_up_coefficients_refuted.

(** From degree N to degree n, on coefficients: of c = c_0 + c_1 s(X^(N/n)) the coefficients at the multiples of N/n are those of the
    ciphertext of degree n under s. *)
Theorem C86_down_coefficients : forall rS rL l L level, nested 9 rS rL l L level -> forall (ct ctOut : list rows) C,
  ct_dom rL L level false ct C -> length ctOut = length ct -> (forall j, (j < length ct)%nat -> sized level (rN rS) (nth j ctOut [])) ->
  exists ct', SwitchCiphertextRingDegree ct ctOut = Some ct' /\ length ct' = length ct /\
    ct_dom rS l level false ct' (fun j => deflate (2 ^ (L - l)) (C j)).
Proof. exact down_coeffs_lemma. Qed.
Print Assumptions C86_down_coefficients.

Theorem C86_down_coefficients_decrypts : forall rS rL l L level, nested 9 rS rL l L level -> forall (ct ctOut : list rows) C bp sk sk' s pt pt' pool pool' V,
  ct_dom rL L level false ct C -> length ctOut = length ct -> (forall j, (j < length ct)%nat -> sized level (rN rS) (nth j ctOut [])) ->
  ((length ct - 1) mod 8 <> 7)%nat ->
  rns_ntt rS l level canon sk (pscale W s) -> rns_ntt rL L level canon sk' (pscale W (inflate (2 ^ (L - l)) s)) ->
  length pt = S level -> length pt' = S level ->
  rns_dom rL L level bp (Decrypt rL sk' ct false pt bp pool) V ->
  exists ct', SwitchCiphertextRingDegree ct ctOut = Some ct' /\
    rns_dom rS l level bp (Decrypt rS sk ct' false pt' bp pool') (deflate (2 ^ (L - l)) V).
Proof. exact down_end_lemma. Qed.
Print Assumptions C86_down_coefficients_decrypts.

(** The algebra behind the two: c_0 + c_1 s + ... of the embedded parts, and of the parts kept. *)
Theorem C86_phase_up : forall gap n d C s, (0 < gap)%nat -> (0 < n)%nat ->
  peq (n * gap) 0 (phase (n * gap) d (fun j => inflate gap (C j)) (inflate gap s)) (inflate gap (phase n d C s)).
Proof. exact phase_inflate. Qed.
Print Assumptions C86_phase_up.
Theorem C86_phase_down : forall gap n d C s, (0 < gap)%nat -> (0 < n)%nat ->
  peq n 0 (phase n d (fun j => deflate gap (C j)) s) (deflate gap (phase (n * gap) d C (inflate gap s))).
Proof. exact phase_deflate. Qed.
Print Assumptions C86_phase_down.

(** From degree N to degree n in the NTT domain: the receiver is never written, whatever it holds; the ciphertext of degree n is
    left in the first n words of the rows of the source. *)
Theorem C86_down_ntt : forall rS rL l L level, nested 9 rS rL l L level -> (l < L)%nat -> forall (ct ctOut : list rows) C,
  ct_dom rL L level true ct C -> length ctOut = length ct -> (forall j, (j < length ct)%nat -> sized level (rN rS) (nth j ctOut [])) ->
  exists ct', SwitchCiphertextRingDegreeNTT ct rS rL ctOut = Some (ct', ctOut) /\ length ct' = length ct /\
    ct_dom rS l level true (map (map (firstn (rN rS))) ct') (fun j => deflate (2 ^ (L - l)) (C j)).
Proof. exact down_ntt_lemma. Qed.
Print Assumptions C86_down_ntt.

(** So the receiver does not hold the ciphertext the function promises, and the source is lost. *)
Theorem C86_down_ntt_refuted : exists rS rL (ct ctOut ct' ctOut' : list rows) C, nested 9 rS rL 4 5 0 /\ ct_dom rL 5 0 true ct C /\
  length ctOut = length ct /\ (forall j, (j < length ct)%nat -> sized 0 (rN rS) (nth j ctOut [])) /\
  SwitchCiphertextRingDegreeNTT ct rS rL ctOut = Some (ct', ctOut') /\
  ~ ct_dom rS 4 0 true ctOut' (fun j => deflate 2 (C j)) /\ ct' <> ct.
Proof.
  set (o := [zeros 0 16; zeros 0 16] : list rows).
  destruct (SwitchCiphertextRingDegreeNTT (d_ct std32 0 true) d16 std32 o) as [[ct' ctOut']|] eqn:E; [|vm_compute in E; discriminate].
  exists d16, std32, (d_ct std32 0 true), o, ct', ctOut', dX. split; [apply ex_nested; lia|]. split; [apply d_ct_dom; [exact std32_built|reflexivity|cbn; lia]|].
  split; [reflexivity|]. split.
  { intros j Hj. destruct j as [|[|j]]; [| |cbn in Hj; lia]; apply zeros_sized. }
  split; [exact E|]. vm_compute in E. injection E as <- <-. split; [|vm_compute; discriminate].
  intros [_ H]. destruct (H O ltac:(cbn; lia)) as [_ (_ & _ & H')]. destruct (proj2 (H' O ltac:(lia)) 0%nat ltac:(cbn; lia)) as [_ H1]. vm_compute in H1. discriminate.
Qed.
Print Assumptions C86_down_ntt_refuted.

Example C86_case : nested 9 d16 std32 4 5 2 /\ ct_dom d16 4 2 true (d_ct d16 2 true) dX /\ ct_dom d16 4 2 false (d_ct d16 2 false) dX /\
  ct_dom std32 5 2 true (d_ct std32 2 true) dX /\ ct_dom std32 5 2 false (d_ct std32 2 false) dX /\
  sized 2 (rN std32) (zeros 2 32) /\ sized 2 (rN d16) (zeros 2 16) /\
  match SwitchCiphertextRingDegreeNTT (d_ct d16 2 true) d16 std32 [zeros 2 32; zeros 2 32] with
  | Some (_, ct') => map (fun p => map (firstn 5) (InvNTTLvl std32 2 p [])) ct' =
      [[[153; 0; 170; 0; 28]; [217; 0; 234; 0; 28]; [409; 0; 426; 0; 28]]; [[158; 0; 175; 0; 33]; [222; 0; 239; 0; 33]; [414; 0; 431; 0; 33]]]
  | None => False
  end.
Proof.
  split; [apply ex_nested; lia|]. split; [apply d_ct_dom; [exact d16_built|reflexivity|cbn; lia]|]. split; [apply d_ct_dom; [exact d16_built|reflexivity|cbn; lia]|].
  split; [apply d_ct_dom; [exact std32_built|reflexivity|cbn; lia]|]. split; [apply d_ct_dom; [exact std32_built|reflexivity|cbn; lia]|].
  split; [apply zeros_sized|]. split; [apply zeros_sized|]. vm_compute. reflexivity.
Qed.

(** C87.  The switching key of GenSwitchingKey: from a secret of degree n <= N, at any level, to one of degree N it switches from
    s'(X^(N/n)) to s.  When the input has fewer rows than the output its first row determines it, so it has to be small. *)
Theorem C87_key_up : forall rS rQ rP l L lI, ring_pair rQ rP -> nested 9 rS rQ l L lI ->
  forall levelQ levelP (skIn : rows) (skOut : rows * rows) s s' e E aQ aP poolQP poolQ,
  (levelQ < length (rmods rQ))%nat -> (levelP < length (rmods rP))%nat ->
  length skIn = S lI -> rns_ntt rS l lI canon skIn (pscale W s') ->
  length (fst skOut) = S levelQ -> length (snd skOut) = S levelP -> qp_ntt rQ rP L levelQ levelP canon skOut (pscale W s) ->
  ((lI < levelQ)%nat -> forall k, (k < rN rS)%nat -> 2 * Z.abs (s' k) < mq (rmod rQ 0) /\ forall i, (i <= levelQ)%nat -> Z.abs (s' k) <= mq (rmod rQ i)) ->
  randomness_ok rQ rP levelQ levelP e E aQ aP -> sized (maxLevel rQ) (rN rQ) poolQ ->
  exists key0 key1, GenSwitchingKey rQ rP skIn skOut e aQ aP poolQP poolQ = Some (key0, key1) /\
    (forall i, (i < ceil_div (levelQ + 1) (levelP + 1))%nat -> nth i key1 ([], []) = (aQ i, aP i)) /\
    switching_key_ok rQ rP L levelQ levelP key0 key1 E s (inflate (2 ^ (L - l)) s').
Proof. exact key_up_lemma. Qed.
Print Assumptions C87_key_up.

(** From a secret of degree N to one of degree n < N, it switches from s' to s(X^(N/n)). *)
Theorem C87_key_down : forall rSQ rSP rQ rP l L levelQ levelP, ring_pair rQ rP -> nested 9 rSQ rQ l L levelQ -> nested 9 rSP rP l L levelP -> (l < L)%nat ->
  forall (skIn : rows) (skOut : rows * rows) s s' e E aQ aP poolQP poolQ,
  rns_ntt rQ L levelQ canon skIn (pscale W s') ->
  length (fst skOut) = S levelQ -> length (snd skOut) = S levelP -> qp_ntt rSQ rSP l levelQ levelP canon skOut (pscale W s) ->
  randomness_ok rQ rP levelQ levelP e E aQ aP ->
  sized (maxLevel rQ) (rN rQ) (fst poolQP) -> sized (maxLevel rP) (rN rQ) (snd poolQP) ->
  exists key0 key1, GenSwitchingKey rQ rP skIn skOut e aQ aP poolQP poolQ = Some (key0, key1) /\
    (forall i, (i < ceil_div (levelQ + 1) (levelP + 1))%nat -> nth i key1 ([], []) = (aQ i, aP i)) /\
    switching_key_ok rQ rP L levelQ levelP key0 key1 E (inflate (2 ^ (L - l)) s) s'.
Proof. exact key_down_lemma. Qed.
Print Assumptions C87_key_down.

(** The two keys between the conjugate-invariant ring and the standard ring of twice its degree, for secrets with all their rows: the
    first switches from the standard secret to the conjugate-invariant one seen in the standard ring, the second back. *)
Theorem C87_ring_swap : forall rcQ rcP rQ rP L levelQ levelP, ring_pair rQ rP -> paired 9 rcQ rQ -> paired 9 rcP rP -> rN rQ = (2 ^ L)%nat ->
  levelQ = maxLevel rQ -> levelP = maxLevel rP ->
  forall pQ pP t1 t2 t3 t4 sCI (skStd : rows * rows) sStd e E aQ aP e' E' aQ' aP' poolQP poolQ poolQ',
  rns_repr rcQ levelQ (fun q => q + 1) pQ sCI -> rns_repr rcP levelP (fun q => q + 1) pP sCI ->
  length (MFormLvl rcQ levelQ (CIForwardLvl rcQ levelQ pQ t1) t2) = S levelQ -> length (MFormLvl rcP levelP (CIForwardLvl rcP levelP pP t3) t4) = S levelP ->
  sized levelQ (rN rQ) (fst skStd) -> sized levelP (rN rQ) (snd skStd) -> qp_ntt rQ rP L levelQ levelP canon skStd (pscale W sStd) ->
  sized levelQ (rN rQ) (fst poolQP) -> sized levelP (rN rQ) (snd poolQP) -> sized levelQ (rN rQ) poolQ -> sized levelQ (rN rQ) poolQ' ->
  randomness_ok rQ rP levelQ levelP e E aQ aP -> randomness_ok rQ rP levelQ levelP e' E' aQ' aP' ->
  exists a0 a1 b0 b1,
    GenSwitchingKeysForRingSwap rQ rP skStd
      (MFormLvl rcQ levelQ (CIForwardLvl rcQ levelQ pQ t1) t2, MFormLvl rcP levelP (CIForwardLvl rcP levelP pP t3) t4)
      e aQ aP e' aQ' aP' poolQP poolQ poolQ' = Some ((a0, a1), (b0, b1)) /\
    switching_key_ok rQ rP L levelQ levelP a0 a1 E' (ci_poly (rN rcQ) sCI) sStd /\
    switching_key_ok rQ rP L levelQ levelP b0 b1 E sStd (ci_poly (rN rcQ) sCI).
Proof. exact ring_swap_lemma. Qed.
Print Assumptions C87_ring_swap.

Example C87_up_applies : exists key0 key1, GenSwitchingKey std32 d32P d_sk16_0 d_sk32 d_err d_aQ d_aP ([], []) (zeros 2 32) = Some (key0, key1) /\
  switching_key_ok std32 d32P 5 2 1 key0 key1 (fun i k => d_s (k + i)%nat) d_s (inflate 2 d_s').
Proof.
  destruct (C87_key_up d16 std32 d32P 4 5 0 ex_pair32 (ex_nested 0 ltac:(lia)) 2 1 d_sk16_0 d_sk32 d_s d_s' d_err (fun i k => d_s (k + i)%nat) d_aQ d_aP ([], []) (zeros 2 32))
    as (k0 & k1 & E & _ & K); [cbn; lia|cbn; lia|reflexivity|exact d_sk16_0_ok|apply d_sk32_sized|apply d_sk32_sized|exact d_sk32_ok| |exact d_random|apply zeros_sized|].
  - intros _ k _. pose proof (d_s'_small k) as H. split; [change (mq (rmod std32 0)) with 193; lia|].
    intros i Hi. destruct i as [|[|[|i]]]; [change (mq (rmod std32 0)) with 193; lia|change (mq (rmod std32 1)) with 257; lia|change (mq (rmod std32 2)) with 449; lia|lia].
  - exists k0, k1. split; [exact E|exact K].
Qed.
Example C87_down_applies : exists key0 key1, GenSwitchingKey std32 d32P (fst d_sk32) d_sk16 d_err d_aQ d_aP (zeros 2 32, zeros 1 32) [] = Some (key0, key1) /\
  switching_key_ok std32 d32P 5 2 1 key0 key1 (fun i k => d_s (k + i)%nat) (inflate 2 d_s') d_s.
Proof.
  destruct (C87_key_down d16 d16P std32 d32P 4 5 2 1 ex_pair32 (ex_nested 2 ltac:(lia)) (ex_nestedP 1 ltac:(lia)) ltac:(lia) (fst d_sk32) d_sk16 d_s' d_s d_err (fun i k => d_s (k + i)%nat) d_aQ d_aP (zeros 2 32, zeros 1 32) [])
    as (k0 & k1 & E & _ & K); [apply d_sk32_ok|reflexivity|reflexivity|exact d_sk16_ok|exact d_random|apply zeros_sized|apply zeros_sized|].
  exists k0, k1. split; [exact E|exact K].
Qed.
Example C87_swap_applies : exists a0 a1 b0 b1,
  GenSwitchingKeysForRingSwap std32 d32P d_sk32 (MFormLvl ci16 2 (CIForwardLvl ci16 2 d_pCI []) [], MFormLvl ci16P 1 (CIForwardLvl ci16P 1 d_pCIP []) [])
    d_err d_aQ d_aP d_err d_aQ d_aP (zeros 2 32, zeros 1 32) (zeros 2 32) (zeros 2 32) = Some ((a0, a1), (b0, b1)) /\
  switching_key_ok std32 d32P 5 2 1 a0 a1 (fun i k => d_s (k + i)%nat) (ci_poly 16 d_s') d_s /\
  switching_key_ok std32 d32P 5 2 1 b0 b1 (fun i k => d_s (k + i)%nat) d_s (ci_poly 16 d_s').
Proof.
  apply (C87_ring_swap ci16 ci16P std32 d32P 5 2 1 ex_pair32 ex_pairedQ ex_pairedP eq_refl eq_refl eq_refl d_pCI d_pCIP [] [] [] [] d_s' d_sk32 d_s
    d_err (fun i k => d_s (k + i)%nat) d_aQ d_aP d_err (fun i k => d_s (k + i)%nat) d_aQ d_aP (zeros 2 32, zeros 1 32) (zeros 2 32) (zeros 2 32));
  [apply (ci_rows ci16 2 16); [reflexivity|cbn; lia|intros i Hi; destruct i as [|[|[|i]]]; [reflexivity..|lia]]
  |apply (ci_rows ci16P 1 16); [reflexivity|cbn; lia|intros i Hi; destruct i as [|[|i]]; [reflexivity..|lia]]
  |reflexivity|reflexivity|apply d_sk32_sized|apply d_sk32_sized|exact d_sk32_ok|apply zeros_sized|apply zeros_sized|apply zeros_sized|apply zeros_sized|exact d_random|exact d_random].
Qed.
