(** Properties C33-C36: lazy accumulation, the fast external product, fast key switching. *)
From Verif Require Import Word Arith PolySpec Ring RingOps RNSSpec BasisExt Gadget AccumProofs Frlwe FrlweSetup GadgetSpec FrlweSwitch FrlweTop Examples BasisEx FrlweEx.

(** C33.  Accumulating any number of products of digits and key rows with the reduction schedule of the
    code (a reduction after every F = margin/2 terms) gives the reduced sum of the products: nothing wraps
    modulo 2^64.  The digit words may be as large as 2^64 - 2q - 2^14; the key is reduced, in Montgomery form. *)
Theorem C33_accumulation_does_not_wrap : forall r, built_ring 2 r -> forall L, rN r = (2 ^ L)%nat ->
  forall level B beta (a b : nat -> rows) (X Y : nat -> poly) pool,
  (level < length (rmods r))%nat -> (0 < beta)%nat ->
  (forall i, (i <= level)%nat -> 0 <= B (mq (rmod r i)) /\ B (mq (rmod r i)) + 2 * mq (rmod r i) + 16384 <= W) ->
  (forall j, (j < beta)%nat -> rns_ntt r L level B (a j) (X j) /\ rns_ntt r L level canon (b j) (pscale W (Y j))) ->
  let F := wshr (OverflowMargin (moduli r) level) 1 in
  1 <= F /\ rns_ntt r L level canon (accumulate r level F beta a b pool) (psum beta (fun j => pmul (rN r) (X j) (Y j))).
Proof. exact lazy_accumulation. Qed.
Print Assumptions C33_accumulation_does_not_wrap.

(** The hypotheses are met by 100 digits modulo 97, 193, 257. *)
Example C33_applies : rns_ntt (fpQ par16) 4 2 canon
  (accumulate (fpQ par16) 2 (wshr (OverflowMargin (moduli (fpQ par16)) 2) 1) 100 (fun j => key_rows (fpQ par16) (ex_b1 j)) (fun j => key_rows (fpQ par16) (ex_b1 (2 * j))) [])
  (psum 100 (fun j => pmul 16 (pscale W (ex_b1 j)) (ex_b1 (2 * j)))).
Proof.
  pose proof (NewFParams_ok _ _ _ _ _ _ _ sizes16 par16_built) as Hp.
  refine (proj2 (C33_accumulation_does_not_wrap (fpQ par16) _ 4 eq_refl 2 canon 100 (fun j => key_rows (fpQ par16) (ex_b1 j)) (fun j => key_rows (fpQ par16) (ex_b1 (2 * j)))
    (fun j => pscale W (ex_b1 j)) (fun j => ex_b1 (2 * j)) [] _ _ _ _)).
  - apply (built_le 9); [lia|apply (fk_Q _ _ _ _ _ _ Hp)].
  - cbn. lia.
  - lia.
  - intros i Hi. do 3 (destruct i as [|i]; [unfold Z.le; vm_compute; split; discriminate|]). lia.
  - intros j Hj. split; apply (ex_key_poly _).
Qed.

(** C34.  The fast external product: digits d_i and blocks beta_i,j of the key given modulo T, where
    beta_i,j agrees with b_i modulo the moduli of block j of P.Q.  If the inner products of each block fit in T,
    the result is the quotient by P of sum_i d_i*b_i, modulo Q. *)
Theorem C34_external_product : forall fuel N Qs Ps Ts gamma p ks, sizes_ok N Qs Ps Ts gamma ->
  NewFParams fuel N Qs Ps Ts gamma = Some p -> NewKeySwitcher fuel p = Some ks ->
  forall L, rN (fpQ p) = (2 ^ L)%nat ->
  forall levelQ aPolyTs bg poolT poolR poolQ poolP c B (d b : nat -> poly) (beta : nat -> nat -> poly),
  (levelQ < length Qs)%nat ->
  let n := rN (fpQ p) in let nb := ceil_div (levelQ + 1) (length Ps) in let levelT := (length Ts - 1)%nat in
  (forall i, (i <= levelT)%nat -> 0 <= B (nth i Ts 0) /\ B (nth i Ts 0) + 2 * nth i Ts 0 + 16384 <= W) ->
  (forall i, (i < nb)%nat -> rns_ntt (fpT p) L levelT B (nth i aPolyTs []) (d i)) ->
  (forall i j, (i < nb)%nat -> (j * gamma < length Ps + levelQ + 1)%nat ->
     rns_ntt (fpT p) L levelT canon (nth j (nth i bg []) []) (pscale W (beta i j))) ->
  (forall i idx, (i < nb)%nat -> (idx < length Ps + levelQ + 1)%nat -> peq n (nth idx (Ps ++ Qs) 0) (beta i (idx / gamma)%nat) (b i)) ->
  (forall j k, (j * gamma < length Ps + levelQ + 1)%nat -> (k < n)%nat ->
     4 * Z.abs (psum nb (fun i => pmul n (d i) (beta i j)) k) <= product Ts) ->
  exists c' D, externalProduct ks levelQ aPolyTs bg poolT poolR poolQ poolP c = Some c' /\
    rns_repr (fpQ p) levelQ canon c' D /\ kept levelQ c c' /\
    forall k, (k < n)%nat -> quotient_of (product Ps) (psum nb (fun i => pmul n (d i) (b i)) k) (D k).
Proof. exact fast_external_product. Qed.
Print Assumptions C34_external_product.

(** Two digits with coefficients +-1 and the key polynomials b_i = 1000 X + 2000 X^2 + ... (+ 31 i). *)
Example C34_applies : forall ks, NewKeySwitcher 1000 par16 = Some ks ->
  exists c' D, externalProduct ks 2 (map (fun i => NTTLvl (fpT par16) 3 (res_rows (fpT par16) 3 (ex_e i)) []) (seq 0 2))
      (map (fun i => map (fun j => key_rows (fpT par16) (ex_b1 i)) (seq 0 3)) (seq 0 2)) [] [] [] [] [] = Some c' /\
    rns_repr (fpQ par16) 2 canon c' D /\ kept 2 [] c' /\
    forall k, (k < 16)%nat -> quotient_of 158497 (psum 2 (fun i => pmul 16 (ex_e i) (ex_b1 i)) k) (D k).
Proof.
  intros ks HK. pose proof (NewFParams_ok _ _ _ _ _ _ _ sizes16 par16_built) as Hp.
  assert (B2 : built_ring 2 (fpT par16)) by (apply (built_le 9); [lia|apply (fk_T _ _ _ _ _ _ Hp)]).
  apply (C34_external_product 1000 16 exQ exP exT exGamma par16 ks sizes16 par16_built HK 4 eq_refl 2 _ _ [] [] [] [] [] canon ex_e ex_b1 (fun i _ => ex_b1 i)).
  - cbn. lia.
  - intros i Hi. change (length exT - 1)%nat with 3%nat in Hi. do 4 (destruct i as [|i]; [unfold Z.le; vm_compute; split; discriminate|]). lia.
  - intros i Hi. change (ceil_div (2 + 1) (length exP)) with 2%nat in Hi.
    assert (E : rns_ntt (fpT par16) 4 3 canon (NTTLvl (fpT par16) 3 (res_rows (fpT par16) 3 (ex_e i)) []) (ex_e i)).
    { apply (Repr.t_ntt (fpT par16) 4 B2 eq_refl 3 canon).
      - intros m Hm. do 4 (destruct m as [|m]; [unfold Z.le; vm_compute; split; discriminate|]). lia.
      - apply (res_rows_repr 2); [lia|exact B2|cbn; lia]. }
    destruct i as [|[|i]]; [exact E|exact E|lia].
  - intros i j Hi Hj. change (ceil_div (2 + 1) (length exP)) with 2%nat in Hi. change (length exP) with 2%nat in Hj. change exGamma with 2%nat in Hj.
    assert (E : rns_ntt (fpT par16) 4 3 canon (key_rows (fpT par16) (ex_b1 i)) (pscale W (ex_b1 i))).
    { apply (key_rows_ok (fpT par16) 4 (ex_b1 i) (fk_T _ _ _ _ _ _ Hp)); [reflexivity|cbn; lia]. }
    destruct i as [|[|i]]; [| |lia]; (destruct j as [|[|[|j]]]; [exact E|exact E|exact E|lia]).
  - intros i idx _ _ k _. reflexivity.
  - intros j k Hj Hk. change (ceil_div (2 + 1) (length exP)) with 2%nat. change (rN (fpQ par16)) with 16%nat in Hk |- *. clear - Hk.
    do 16 (destruct k as [|k]; [unfold Z.le; vm_compute; discriminate|]). lia.
Qed.

(** The constructors succeed on the parameters the theorems are about. *)
Theorem C34_constructors_succeed : forall fuel N Qs Ps Ts gamma p, sizes_ok N Qs Ps Ts gamma ->
  NewFParams fuel N Qs Ps Ts gamma = Some p ->
  (exists ks, NewKeySwitcher fuel p = Some ks) /\ (exists conv, NewConvRiT fuel p = Some conv).
Proof. exact fast_constructors. Qed.
Print Assumptions C34_constructors_succeed.

(** C35.  Fast key switching.  From a switching key of rlwe from s' to s (key0, key1: Montgomery form, NTT
    domain, modulo Q and P) converted to T, SwitchKey turns A into (C0, C1) with C0 + C1 s = A s' + E modulo
    Q, where P E = sum_i d_i e_i - rho0 - rho1 s; DQ and DR bound the moduli of the blocks and the size
    condition says that the products fit in T. *)
Theorem C35_fast_key_switching : forall fuel N Qs Ps Ts gamma p ks conv, sizes_ok N Qs Ps Ts gamma ->
  NewFParams fuel N Qs Ps Ts gamma = Some p -> NewKeySwitcher fuel p = Some ks -> NewConvRiT fuel p = Some conv ->
  forall L, rN (fpQ p) = (2 ^ L)%nat ->
  forall levelQ a A (key0 key1 : list (rows * rows)) pool0 pool1 poolT1 poolT2 poolT2' poolR poolR' poolQ poolQ' poolP poolP' c0 c1
    b0 b1 e s s' DQ DR Be Bs,
  let n := rN (fpQ p) in let alpha := length Ps in let nb := ceil_div (levelQ + 1) alpha in
  (levelQ < length Qs)%nat -> rns_repr (fpQ p) levelQ canon a A ->
  (forall i, (i < nb)%nat -> key_poly Qs Ps p L (nth i key0 ([], [])) (b0 i) /\ key_poly Qs Ps p L (nth i key1 ([], [])) (b1 i)) ->
  gadget_key n alpha nb Qs Ps b0 b1 e s s' ->
  (forall i, (i < nb)%nat -> product (block_of alpha i (firstn (levelQ + 1) Qs)) <= DQ) ->
  (forall j, (j * gamma < alpha + levelQ + 1)%nat -> product (block_of gamma j (Ps ++ Qs)) <= DR) ->
  5 * (Z.of_nat nb * (Z.of_nat n * (DQ * DR))) <= product Ts ->
  0 <= Be -> 0 <= Bs -> (forall i, (i < nb)%nat -> pbound n Be (e i)) -> pbound n Bs s ->
  exists c0' c1' C0 C1 d rho0 rho1 E,
    SwitchKey ks levelQ a false (convertKey conv p key0 pool0) (convertKey conv p key1 pool1)
      poolT1 poolT2 poolT2' poolR poolR' poolQ poolQ' poolP poolP' c0 c1 = Some (c0', c1') /\
    rns_repr (fpQ p) levelQ canon c0' C0 /\ rns_repr (fpQ p) levelQ canon c1' C1 /\
    kept levelQ c0 c0' /\ kept levelQ c1 c1' /\
    switched n nb levelQ Qs Ps C0 C1 A s s' d e rho0 rho1 E /\
    (forall i k, (i < nb)%nat -> (k < n)%nat -> lift_of (product (block_of alpha i (firstn (levelQ + 1) Qs))) (A k) (d i k)) /\
    (forall k, (k < n)%nat -> 2 ^ 42 * (product Ps * Z.abs (E k))
       <= (2 ^ 42 + 1) * (Z.of_nat nb * (Z.of_nat n * (DQ * Be)) + product Ps * (1 + Z.of_nat n * Bs))).
Proof. exact fast_switch_key. Qed.
Print Assumptions C35_fast_key_switching.

(** Three moduli in Q, two in P, four in T: a key from 1 + X^3 to X - X^5 with errors +-1 switches
    the example polynomial with an error of at most 20. *)
Example C35_applies : forall ks conv, NewKeySwitcher 1000 par16 = Some ks -> NewConvRiT 1000 par16 = Some conv ->
  exists c0' c1' C0 C1 E,
    SwitchKey ks 2 (res_rows (fpQ par16) 2 ex_A) false (convertKey conv par16 ex_key0 []) (convertKey conv par16 ex_key1 [])
      [] [] [] [] [] [] [] [] [] [] [] = Some (c0', c1') /\
    rns_repr (fpQ par16) 2 canon c0' C0 /\ rns_repr (fpQ par16) 2 canon c1' C1 /\
    (forall j, (j <= 2)%nat -> peq 16 (nth j exQ 0) (padd C0 (pmul 16 C1 ex_s)) (padd (pmul 16 ex_A ex_s') E)) /\
    forall k, (k < 16)%nat -> Z.abs (E k) <= 20.
Proof.
  intros ks conv HK HC.
  destruct (C35_fast_key_switching 1000 16 exQ exP exT exGamma par16 ks conv sizes16 par16_built HK HC 4 eq_refl 2
    (res_rows (fpQ par16) 2 ex_A) ex_A ex_key0 ex_key1 [] [] [] [] [] [] [] [] [] [] [] [] [] ex_b0 ex_b1 ex_e ex_s ex_s' 18721 158497 1 1)
    as (c0' & c1' & C0 & C1 & d & rho0 & rho1 & E & X1 & X2 & X3 & _ & _ & X4 & _ & X5).
  - cbn. lia.
  - exact ex_A_repr.
  - intros i Hi. change (ceil_div (2 + 1) (length exP)) with 2%nat in Hi.
    destruct i as [|[|i]]; [split; apply ex_key_poly|split; apply ex_key_poly|lia].
  - exact ex_gadget.
  - intros i Hi. change (ceil_div (2 + 1) (length exP)) with 2%nat in Hi. destruct i as [|[|i]]; [unfold Z.le; vm_compute; discriminate..|lia].
  - intros j Hj. change (length exP) with 2%nat in Hj. change exGamma with 2%nat in Hj. destruct j as [|[|[|j]]]; [unfold Z.le; vm_compute; discriminate..|lia].
  - unfold Z.le. vm_compute. discriminate.
  - lia.
  - lia.
  - intros i _ k _. unfold ex_e. destruct (Nat.even _); cbn; lia.
  - intros k Hk. change (rN (fpQ par16)) with 16%nat in Hk. unfold ex_s. do 16 (destruct k as [|k]; [vm_compute; discriminate|]). lia.
  - exists c0', c1', C0, C1, E. split; [exact X1|]. split; [exact X2|]. split; [exact X3|]. split; [exact (proj1 X4)|].
    intros k Hk. specialize (X5 k Hk). clear - X5. change (ceil_div (2 + 1) (length exP)) with 2%nat in X5. change (rN (fpQ par16)) with 16%nat in X5.
    change (product exP) with 158497 in X5. change (Z.of_nat 2) with 2 in X5. change (Z.of_nat 16) with 16 in X5. lia.
Qed.

(** The size condition holds for the parameter sets of the repository at the highest level, with the largest
    block products for DQ and DR (frlwe/fksw_test.go PN15QP880; fckks/fckks_test.go PN15QP870). *)
Definition fits (n : Z) (Qs Ps Ts : list Z) (gamma : nat) : bool :=
  let alpha := length Ps in let nb := ceil_div (length Qs) alpha in
  let DQ := fold_right Z.max 0 (map (fun i => product (block_of alpha i Qs)) (seq 0 nb)) in
  let DR := fold_right Z.max 0 (map (fun j => product (block_of gamma j (Ps ++ Qs))) (seq 0 (ceil_div (length (Ps ++ Qs)) gamma))) in
  5 * (Z.of_nat nb * (n * (DQ * DR))) <=? product Ts.
Example C35_sizes_PN15QP880 : fits (2 ^ 15)
  [0x1fffffcf0001; 0x1fffffc20001; 0x1fffffbf0001; 0x1fffffb10001; 0x1fffff980001; 0x1fffff950001; 0x1fffff7e0001; 0x1fffff750001; 0x1fffff690001;
   0x1fffff630001; 0x1fffff360001; 0x1fffff1b0001; 0x1fffff060001; 0x1ffffefd0001; 0x1ffffef30001; 0x1ffffede0001; 0x1ffffeca0001; 0x1ffffec30001]
  [0x3ffffffd20001; 0x3ffffffb80001] [0x7fffffffba0001; 0x7fffffffaa0001; 0x7fffffff7e0001; 0x7fffffff380001] 2 = true.
Proof. vm_compute. reflexivity. Qed.
Example C35_sizes_PN15QP870 : fits (2 ^ 15)
  [0xffff00001; 0xfff9c0001; 0xfff8e0001; 0xfff840001; 0xfff700001; 0xfff640001; 0xfff4c0001; 0xfff3c0001; 0xfff280001; 0xfff100001; 0xffefe0001; 0xffee80001;
   0x10004a0001; 0x1000500001; 0x1000960001; 0x1000a20001; 0x1000b40001; 0x1000f60001; 0x10011a0001; 0x1001220001; 0x10014c0001; 0x1001680001; 0x10017c0001]
  [0x1002700001] [0xffffffffffc0001; 0xfffffffff840001; 0xfffffffff6a0001] 3 = true.
Proof. vm_compute. reflexivity. Qed.

(** C36.  The form of a key polynomial modulo T: for each block j of gamma moduli of P.Q an integer
    polynomial congruent to the key modulo the moduli of the block, in [0, R) up to 2^-42 R. *)
Theorem C36_key_conversion : forall fuel N Qs Ps Ts gamma p conv, sizes_ok N Qs Ps Ts gamma ->
  NewFParams fuel N Qs Ps Ts gamma = Some p -> NewConvRiT fuel p = Some conv ->
  forall L, rN (fpQ p) = (2 ^ L)%nat ->
  forall kQ kP polyTs b,
  rns_ntt (fpQ p) L (length Qs - 1) canon kQ (pscale W b) -> rns_ntt (fpP p) L (length Ps - 1) canon kP (pscale W b) ->
  forall j, (j * gamma < length (Ps ++ Qs))%nat ->
  exists beta, rns_ntt (fpT p) L (length Ts - 1) canon (nth j (convertPoly conv p kQ kP polyTs) []) (pscale W beta) /\
    let R := product (block_of gamma j (Ps ++ Qs)) in
    forall k, (k < rN (fpQ p))%nat -> (forall q, In q (block_of gamma j (Ps ++ Qs)) -> eqm q (beta k) (b k)) /\
      - R < 2 ^ 42 * beta k /\ 2 ^ 42 * (beta k - R) < R.
Proof. exact fast_key_conversion. Qed.
Print Assumptions C36_key_conversion.

Example C36_applies : forall conv, NewConvRiT 1000 par16 = Some conv ->
  exists beta, rns_ntt (fpT par16) 4 3 canon (nth 1 (convertPoly conv par16 (key_rows (fpQ par16) (ex_b0 1)) (key_rows (fpP par16) (ex_b0 1)) []) []) (pscale W beta) /\
    forall k, (k < 16)%nat -> eqm 97 (beta k) (ex_b0 1 k) /\ eqm 193 (beta k) (ex_b0 1 k) /\ -1 <= beta k <= 97 * 193.
Proof.
  intros conv HC. destruct (C36_key_conversion 1000 16 exQ exP exT exGamma par16 conv sizes16 par16_built HC 4 eq_refl
    (key_rows (fpQ par16) (ex_b0 1)) (key_rows (fpP par16) (ex_b0 1)) [] (ex_b0 1) (proj1 (ex_key_poly _)) (proj2 (ex_key_poly _)) 1) as (beta & B1 & B2).
  - cbn. lia.
  - exists beta. split; [exact B1|]. intros k Hk. destruct (B2 k Hk) as (C1 & C2 & C3).
    split; [apply C1; cbn; tauto|]. split; [apply C1; cbn; tauto|]. change (product (block_of exGamma 1 (exP ++ exQ))) with 18721 in C2, C3. clear - C2 C3. lia.
Qed.
