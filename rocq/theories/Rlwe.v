(** Model of /repo/rlwe/ring_qp.go:315-338, /repo/rlwe/keygen.go, /repo/rlwe/keyswitch.go,
    /repo/rlwe/encryptor.go and /repo/rlwe/decryptor.go.

    A polynomial over QP is a pair of rows.  The samplers are not modelled here: the polynomials they
    return (Gaussian errors, ternary polynomials, uniform polynomials) are arguments.  As in RingOps.v
    the new content of the destinations is returned and scratch polynomials are arguments. *)
From Verif Require Import Word ModRed Ring NTT RingOps Scaling BasisExt Automorphism Gadget.

(** ** rlwe/ring_qp.go *)

(** The body of the loop at rlwe/ring_qp.go:325-336, for one coefficient and one modulus pi; Q is the first modulus. *)
Definition extend_word (Q pi x : Z) : Z :=
  let QHalf := wshr Q 1 in
  let coeff := if QHalf <? x then wsub Q x else x in
  let sign := if QHalf <? x then 0 else 1 in
  Z.lor (wmul coeff sign) (wmul (wsub pi coeff) (Z.lxor sign 1)).

(** rlwe/ring_qp.go:315-338 [ExtendBasisSmallNormAndCenter] with polyOutQ = nil. *)
Definition ExtendBasisSmallNormAndCenter (rQ rP : Ring) (polyInQ : rows) (levelP : nat) (polyOutP : rows) : rows :=
  lvl (S levelP) (fun i => map (extend_word (mq (rmod rQ 0)) (mq (rmod rP i))) (prow polyInQ 0)) polyOutP.

(** ** rlwe/keygen.go *)

(** rlwe/params.go:223-225 [MaxLevel]. *)
Definition maxLevel (r : Ring) : nat := (length (rmods r) - 1)%nat.

(** rlwe/keygen.go:116-136 [genSecretKeyFromSampler]; [s] is what the sampler wrote to sk.Value.Q.  When there
    is no P the code does the same without the P part. *)
Definition genSecretKey (rQ rP : Ring) (s : rows) : rows * rows :=
  let lQ := maxLevel rQ in let lP := maxLevel rP in
  let sP := ExtendBasisSmallNormAndCenter rQ rP s lP [] in
  let sQ := NTTLvl rQ lQ s s in
  let sP := NTTLvl rP lP sP sP in
  (MFormLvl rQ lQ sQ sQ, MFormLvl rP lP sP sP).

(** rlwe/keygen.go:139-174 [GenPublicKey]; [e] from the Gaussian sampler, [aQ], [aP] from the uniform ones.
    Result: (pk0, pk1).  When there is no P the code does the same without the P part. *)
Definition GenPublicKey (rQ rP : Ring) (sk : rows * rows) (e aQ aP : rows) : (rows * rows) * (rows * rows) :=
  let lQ := maxLevel rQ in let lP := maxLevel rP in
  let eP := ExtendBasisSmallNormAndCenter rQ rP e lP [] in
  let eQ := NTTLvl rQ lQ e e in
  let eP := NTTLvl rP lP eP eP in
  ((MulCoeffsMontgomeryAndSubLvl rQ lQ (fst sk) aQ eQ, MulCoeffsMontgomeryAndSubLvl rP lP (snd sk) aP eP), (aQ, aP)).

(** rlwe/keygen.go:354-364: the product of the special moduli of the key. *)
Definition special_product (rP : Ring) (levelP : nat) : Z :=
  if Nat.eqb levelP (maxLevel rP) then rbigQ rP
  else fold_left Z.mul (firstn levelP (skipn 1 (moduli rP))) (nth 0 (moduli rP) 0).

(** rlwe/keygen.go:390-406: adds the rows of block [i] of [pool] to the rows of [b]. *)
Definition add_block (rQ : Ring) (levelQ alpha i : nat) (pool b : rows) : rows :=
  lvl (S levelQ) (fun idx =>
    if Nat.leb (i * alpha) idx && Nat.ltb idx (i * alpha + alpha)
    then map2 (fun x y => CRed (wadd x y) (mq (rmod rQ idx))) (prow b idx) (prow pool idx)
    else prow b idx) b.

(** rlwe/keygen.go:371-410: one digit of the key; [e] is the error, (aQ, aP) the uniform polynomial.
    Result: the first polynomial of the digit (the second is (aQ, aP)). *)
Definition genSwitchingKeyDigit (rQ rP : Ring) (levelQ levelP i : nat) (poolQ : rows) (skOut : rows * rows) (e aQ aP : rows) : rows * rows :=
  let eP := ExtendBasisSmallNormAndCenter rQ rP e levelP [] in
  let bQ := NTTLazyLvl rQ levelQ e e in
  let bP := NTTLazyLvl rP levelP eP eP in
  let bQ := MFormLvl rQ levelQ bQ bQ in
  let bP := MFormLvl rP levelP bP bP in
  let bQ := add_block rQ levelQ (levelP + 1) i poolQ bQ in
  (MulCoeffsMontgomeryAndSubLvl rQ levelQ aQ (fst skOut) bQ, MulCoeffsMontgomeryAndSubLvl rP levelP aP (snd skOut) bP).

(** rlwe/keygen.go:345-411 [genSwitchingKey] for a key of [levelQ]+1 and [levelP]+1 rows.
    Result: the first and the second polynomials of the digits. *)
Definition genSwitchingKey (rQ rP : Ring) (levelQ levelP : nat) (skIn : rows) (skOut : rows * rows)
    (e aQ aP : nat -> rows) (poolQ : rows) : list (rows * rows) * list (rows * rows) :=
  let poolQ := MulScalarBigintLvl rQ (special_product rP levelP) levelQ skIn poolQ in
  let beta := ceil_div (levelQ + 1) (levelP + 1) in
  (map (fun i => genSwitchingKeyDigit rQ rP levelQ levelP i poolQ skOut (e i) (aQ i) (aP i)) (seq 0 beta),
   map (fun i => (aQ i, aP i)) (seq 0 beta)).

(** rlwe/keygen.go:183-206 [GenRelinearizationKey]: the loop, from degree index [i] on; [pool] is poolQP.Q. *)
Fixpoint genRelinLoop (rQ rP : Ring) (cnt i : nat) (sk : rows * rows) (pool : rows) (e aQ aP : nat -> nat -> rows) (poolQ : rows)
  : list (list (rows * rows) * list (rows * rows)) :=
  match cnt with
  | O => []
  | S c =>
      let pool := MulCoeffsMontgomeryLvl rQ (maxLevel rQ) pool (fst sk) pool in
      genSwitchingKey rQ rP (maxLevel rQ) (maxLevel rP) pool sk (e i) (aQ i) (aP i) poolQ
        :: genRelinLoop rQ rP c (S i) sk pool e aQ aP poolQ
  end.
Definition GenRelinearizationKey (rQ rP : Ring) (sk : rows * rows) (maxDegree : nat) (e aQ aP : nat -> nat -> rows) (poolQP poolQ : rows) :=
  genRelinLoop rQ rP maxDegree 0 sk (CopyValuesLvl (maxLevel rQ) (fst sk) poolQP) e aQ aP poolQ.

(** rlwe/keygen.go:256-267 [genrotKey]: the index computed by the ring Q also permutes the rows of P. *)
Definition genrotKey (rQ rP : Ring) (sk : rows * rows) (galEl : Z) (e aQ aP : nat -> rows) (poolQP : rows * rows) (poolQ : rows) :=
  let index := PermuteNTTIndex rQ galEl in
  let skOut := (PermuteNTTWithIndexLvl rQ (maxLevel rQ) (fst sk) index (fst poolQP),
                PermuteNTTWithIndexLvl rQ (maxLevel rP) (snd sk) index (snd poolQP)) in
  genSwitchingKey rQ rP (maxLevel rQ) (maxLevel rP) (fst sk) skOut e aQ aP poolQ.

(** rlwe/keygen.go:218-223 [GenSwitchingKeyForRotationBy], 239-243 [GenSwitchingKeyForRowRotation], 245-249
    [GenSwitchingKeyForGalois] (and each key of [GenRotationKeys], 212-218). *)
Definition GenSwitchingKeyForRotationBy (rQ rP : Ring) (k : Z) sk := genrotKey rQ rP sk (GaloisElementForColumnRotationBy rQ (- k)).
Definition GenSwitchingKeyForRowRotation (rQ rP : Ring) sk := genrotKey rQ rP sk (GaloisElementForRowRotation rQ).
Definition GenSwitchingKeyForGalois (rQ rP : Ring) (galEl : Z) sk := genrotKey rQ rP sk (InverseGaloisElement rQ galEl).

(** ** rlwe/keyswitch.go *)

(** rlwe/keyswitch.go:131-151 [DecomposeSingleNTT].  Result: (c2QiQ, c2QiP). *)
Definition DecomposeSingleNTT (rQ rP : Ring) (levelQ levelP alpha beta : nat) (c2NTT c2InvNTT c2QiQ c2QiP : rows) : rows * rows :=
  let '(oQ, oP) := DecomposeAndSplit (NewDecomposer rQ rP) levelQ levelP alpha beta c2InvNTT c2QiQ c2QiP in
  let p0idxst := (beta * (levelP + 1))%nat in
  (lvl (S levelQ) (fun x => if Nat.eqb x p0idxst then prow c2NTT x else nttlazy_row (rN rQ) (rmod rQ x) (prow oQ x)) oQ,
   NTTLazyLvl rP levelP oP oP).

(** The pair (NTT, coefficients) of rlwe/keyswitch.go:111-121 and 172-180. *)
Definition both_domains (rQ : Ring) (levelQ : nat) (cx : rows) (isNTT : bool) (pool : rows) : rows * rows :=
  if isNTT then (cx, InvNTTLvl rQ levelQ cx pool) else (NTTLvl rQ levelQ cx pool, cx).

(** rlwe/keyswitch.go:105-126 [DecomposeNTT]; [pools i] is the previous content of PoolDecomp[i]. *)
Definition DecomposeNTT (rQ rP : Ring) (levelQ levelP alpha : nat) (c2 : rows) (isNTT : bool) (poolInv : rows) (pools : nat -> rows * rows) : list (rows * rows) :=
  let '(cN, cI) := both_domains rQ levelQ c2 isNTT poolInv in
  map (fun i => DecomposeSingleNTT rQ rP levelQ levelP alpha i cN cI (fst (pools i)) (snd (pools i))) (seq 0 (ceil_div (levelQ + 1) (levelP + 1))).

(** rlwe/keyswitch.go:182-226 and 251-298: the products of the digits [dig i] with the rows of the key, in
    which the first operand is the key.  Result: (c0Q, c0P, c1Q, c1P); a zero margin makes the code
    divide by zero ([None]).  The accumulators do not interact, so each is accumulated on its own. *)
Definition keyswitch_accumulate (rQ rP : Ring) (levelQ levelP : nat) (dig : nat -> rows * rows) (key0 key1 : list (rows * rows))
    (c0Q c0P c1Q c1P : rows) : option (rows * rows * (rows * rows)) :=
  let beta := ceil_div (levelQ + 1) (levelP + 1) in
  let FQ := wshr (OverflowMargin (moduli rQ) levelQ) 1 in
  let FP := wshr (OverflowMargin (moduli rP) levelP) 1 in
  if (FQ =? 0) || (FP =? 0) then None
  else
    let accQ key c := accumulate rQ levelQ FQ beta (fun i => fst (nth i key ([], []))) (fun i => fst (dig i)) c in
    let accP key c := accumulate rP levelP FP beta (fun i => snd (nth i key ([], []))) (fun i => snd (dig i)) c in
    Some ((accQ key0 c0Q, accP key0 c0P), (accQ key1 c1Q, accP key1 c1P)).

(** rlwe/keyswitch.go:159-227 [SwitchKeysInPlaceNoModDown]; [levelP] is the number of P rows of the key minus
    one; [c2] is the scratch Pool[0], whose rows above the levels are never read. *)
Definition SwitchKeysInPlaceNoModDown (rQ rP : Ring) (levelQ levelP : nat) (cx : rows) (isNTT : bool) (key0 key1 : list (rows * rows))
    (poolInv : rows) (c2 : rows * rows) (c0Q c0P c1Q c1P : rows) : option (rows * rows * (rows * rows)) :=
  let '(cN, cI) := both_domains rQ levelQ cx isNTT poolInv in
  keyswitch_accumulate rQ rP levelQ levelP
    (fun i => DecomposeSingleNTT rQ rP levelQ levelP (levelP + 1) i cN cI (fst c2) (snd c2)) key0 key1 c0Q c0P c1Q c1P.

(** rlwe/keyswitch.go:81-99 [SwitchKeysInPlace]; Pool[1].P and Pool[2].P are [pool1P] and [pool2P]. *)
Definition SwitchKeysInPlace (rQ rP : Ring) (levelQ levelP : nat) (cx : rows) (isNTT : bool) (key0 key1 : list (rows * rows))
    (poolInv : rows) (c2 : rows * rows) (pool1P pool2P p0 p1 : rows) : option (rows * rows) :=
  match SwitchKeysInPlaceNoModDown rQ rP levelQ levelP cx isNTT key0 key1 poolInv c2 p0 pool1P p1 pool2P with
  | None => None
  | Some ((p0, P0), (p1, P1)) =>
      let be := NewBasisExtender rQ rP in
      if isNTT then Some (ModDownQPtoQNTT be levelQ levelP p0 P0 p0, ModDownQPtoQNTT be levelQ levelP p1 P1 p1)
      else
        let p0 := InvNTTLazyLvl rQ levelQ p0 p0 in
        let p1 := InvNTTLazyLvl rQ levelQ p1 p1 in
        let P0 := InvNTTLazyLvl rP levelP P0 P0 in
        let P1 := InvNTTLazyLvl rP levelP P1 P1 in
        Some (ModDownQPtoQ be levelQ levelP p0 P0 p0, ModDownQPtoQ be levelQ levelP p1 P1 p1)
  end.

(** rlwe/keyswitch.go:249-299 [KeyswitchHoistedNoModDown], 234-243 [KeyswitchHoisted]. *)
Definition KeyswitchHoistedNoModDown (rQ rP : Ring) (levelQ levelP : nat) (dig : list (rows * rows)) (key0 key1 : list (rows * rows))
    (c0Q c1Q c0P c1P : rows) : option (rows * rows * (rows * rows)) :=
  keyswitch_accumulate rQ rP levelQ levelP (fun i => nth i dig ([], [])) key0 key1 c0Q c0P c1Q c1P.
Definition KeyswitchHoisted (rQ rP : Ring) (levelQ levelP : nat) (dig : list (rows * rows)) (key0 key1 : list (rows * rows))
    (c0Q c1Q c0P c1P : rows) : option (rows * rows) :=
  match KeyswitchHoistedNoModDown rQ rP levelQ levelP dig key0 key1 c0Q c1Q c0P c1P with
  | None => None
  | Some ((c0Q, c0P), (c1Q, c1P)) =>
      let be := NewBasisExtender rQ rP in
      Some (ModDownQPtoQNTT be levelQ levelP c0Q c0P c0Q, ModDownQPtoQNTT be levelQ levelP c1Q c1P c1Q)
  end.

(** ** rlwe/encryptor.go *)

(** rlwe/encryptor.go:249-276: the message is added to the first polynomial, which
    is in the coefficient domain, and both are brought to the domain of the ciphertext.  The results are
    cut to levelQ+1 rows. *)
Definition add_message (rQ : Ring) (levelQ : nat) (pt : rows) (ptNTT ctNTT : bool) (ct0 ct1 pool : rows) : rows * rows :=
  let '(ct0, ct1) :=
    if ctNTT then
      let ct0 := if ptNTT then ct0 else AddLvl rQ levelQ ct0 pt ct0 in
      let ct0 := NTTLvl rQ levelQ ct0 ct0 in
      let ct1 := NTTLvl rQ levelQ ct1 ct1 in
      (if ptNTT then AddLvl rQ levelQ ct0 pt ct0 else ct0, ct1)
    else
      (AddLvl rQ levelQ ct0 (if ptNTT then InvNTTLvl rQ levelQ pt pool else pt) ct0, ct1) in
  (firstn (S levelQ) ct0, firstn (S levelQ) ct1).

(** rlwe/encryptor.go:221-247: one polynomial of the encryption of zero; [u] is the transformed ternary
    polynomial, [pk] a polynomial of the public key and [e] an error.  Only the first special modulus is
    used (levelP := 0). *)
Definition encrypt_half (rQ rP : Ring) (levelQ : nat) (uQ uP : rows) (pk : rows * rows) (e : rows) (ct poolP : rows) : rows :=
  let cQ := MulCoeffsMontgomeryLvl rQ levelQ uQ (fst pk) ct in
  let cP := MulCoeffsMontgomeryLvl rP 0 uP (snd pk) poolP in
  let cQ := InvNTTLvl rQ levelQ cQ cQ in
  let cP := InvNTTLvl rP 0 cP cP in
  let cQ := AddLvl rQ levelQ cQ e cQ in
  let cP := AddLvl rP 0 cP (ExtendBasisSmallNormAndCenter rQ rP e 0 []) cP in
  ModDownQPtoQ (NewBasisExtender rQ rP) levelQ 0 cQ cP cQ.

(** rlwe/encryptor.go:196-277 [pkEncryptor.encrypt]; levelQ is the smaller of the levels of the plaintext and
    of the ciphertext, [u] comes from the ternary sampler, [e0] and [e1] from the Gaussian one. *)
Definition pkEncrypt (rQ rP : Ring) (pk : (rows * rows) * (rows * rows)) (pt : rows) (ptNTT : bool) (ct0 ct1 : rows) (ctNTT : bool)
    (u e0 e1 pool poolP0 poolP1 : rows) : rows * rows :=
  let levelQ := Nat.min (length pt - 1) (length ct0 - 1) in
  let uP := ExtendBasisSmallNormAndCenter rQ rP u 0 [] in
  let uQ := NTTLvl rQ levelQ u u in
  let uP := NTTLvl rP 0 uP uP in
  let uQ := MFormLvl rQ levelQ uQ uQ in
  let uP := MFormLvl rP 0 uP uP in
  add_message rQ levelQ pt ptNTT ctNTT (encrypt_half rQ rP levelQ uQ uP (fst pk) e0 ct0 poolP0)
    (encrypt_half rQ rP levelQ uQ uP (snd pk) e1 ct1 poolP1) pool.

(** rlwe/encryptor.go:279-340 [pkEncryptor.encryptNoP].  [ReadAndAddLvl] adds the sampled error as [AddLvl]
    does; it runs over all the rows of the ciphertext, those above levelQ being cut off afterwards. *)
Definition pkEncryptNoP (rQ : Ring) (pk : rows * rows) (pt : rows) (ptNTT : bool) (ct0 ct1 : rows) (ctNTT : bool)
    (u e0 e1 pool : rows) : rows * rows :=
  let levelQ := Nat.min (length pt - 1) (length ct0 - 1) in
  let u := NTTLvl rQ levelQ u u in
  let u := MFormLvl rQ levelQ u u in
  let ct0 := MulCoeffsMontgomeryLvl rQ levelQ u (fst pk) ct0 in
  let ct1 := MulCoeffsMontgomeryLvl rQ levelQ u (snd pk) ct1 in
  let '(ct0, ct1) :=
    if ctNTT then
      let e1 := NTTLvl rQ levelQ e1 e1 in
      let ct1 := AddLvl rQ levelQ ct1 e1 ct1 in
      (if ptNTT then
         let e0 := NTTLvl rQ levelQ e0 e0 in
         let ct0 := AddLvl rQ levelQ ct0 e0 ct0 in
         AddLvl rQ levelQ ct0 pt ct0
       else
         let e0 := AddLvl rQ levelQ e0 pt e0 in
         let e0 := NTTLvl rQ levelQ e0 e0 in
         AddLvl rQ levelQ ct0 e0 ct0, ct1)
    else
      let ct0 := InvNTTLvl rQ levelQ ct0 ct0 in
      let ct1 := InvNTTLvl rQ levelQ ct1 ct1 in
      let ct0 := AddLvl rQ levelQ ct0 e0 ct0 in
      let ct1 := AddLvl rQ levelQ ct1 e1 ct1 in
      (AddLvl rQ levelQ ct0 (if ptNTT then InvNTTLvl rQ levelQ pt pool else pt) ct0, ct1) in
  (firstn (S levelQ) ct0, firstn (S levelQ) ct1).

(** rlwe/encryptor.go:342-394 [skEncryptor.encrypt]; [ct1] holds the uniform polynomial (from the sampler or
    from the caller of [EncryptFromCRP]). *)
Definition skEncrypt (rQ : Ring) (sk : rows) (pt : rows) (ptNTT : bool) (ct0 ct1 : rows) (ctNTT : bool) (e : rows) : rows * rows :=
  let levelQ := Nat.min (length pt - 1) (length ct0 - 1) in
  let ct0 := MulCoeffsMontgomeryLvl rQ levelQ ct1 sk ct0 in
  let ct0 := NegLvl rQ levelQ ct0 ct0 in
  let '(ct0, ct1) :=
    if ctNTT then
      (if ptNTT then
         let e := NTTLvl rQ levelQ e e in
         let ct0 := AddLvl rQ levelQ ct0 e ct0 in
         AddLvl rQ levelQ ct0 pt ct0
       else
         let e := AddLvl rQ levelQ e pt e in
         let e := NTTLvl rQ levelQ e e in
         AddLvl rQ levelQ ct0 e ct0, ct1)
    else
      let ct0 :=
        if ptNTT then
          let ct0 := AddLvl rQ levelQ ct0 pt ct0 in
          InvNTTLvl rQ levelQ ct0 ct0
        else
          let ct0 := InvNTTLvl rQ levelQ ct0 ct0 in
          AddLvl rQ levelQ ct0 pt ct0 in
      let ct0 := AddLvl rQ levelQ ct0 e ct0 in
      (ct0, InvNTTLvl rQ levelQ ct1 ct1) in
  (firstn (S levelQ) ct0, firstn (S levelQ) ct1).

(** ** rlwe/decryptor.go *)

(** rlwe/decryptor.go:69-83: one iteration of the loop; the state is (plaintext, pool). *)
Definition decrypt_step (rQ : Ring) (level : nat) (ct : list rows) (ctNTT : bool) (sk : rows) (st : rows * rows) (i : nat) : rows * rows :=
  let '(pt, pool) := st in
  let pt := MulCoeffsMontgomeryLvl rQ level pt sk pt in
  let '(pt, pool) :=
    if ctNTT then (AddLvl rQ level pt (nth (i - 1) ct []) pt, pool)
    else let pool := NTTLazyLvl rQ level (nth (i - 1) ct []) pool in (AddLvl rQ level pt pool pt, pool) in
  (if Z.land (Z.of_nat i) 7 =? 7 then ReduceLvl rQ level pt pt else pt, pool).

(** rlwe/decryptor.go:55-92 [Decrypt].  Result: the content of the plaintext. *)
Definition Decrypt (rQ : Ring) (sk : rows) (ct : list rows) (ctNTT : bool) (pt : rows) (ptNTT : bool) (pool : rows) : rows :=
  let level := Nat.min (length (nth 0 ct []) - 1) (length pt - 1) in
  let degree := (length ct - 1)%nat in
  let pt := firstn (S level) pt in
  let pt := if ctNTT then CopyValuesLvl level (nth degree ct []) pt else NTTLazyLvl rQ level (nth degree ct []) pt in
  let '(pt, _) := fold_left (decrypt_step rQ level ct ctNTT sk) (rev (seq 1 degree)) (pt, pool) in
  let pt := if Z.land (Z.of_nat degree) 7 =? 7 then pt else ReduceLvl rQ level pt pt in
  if ptNTT then pt else InvNTTLvl rQ level pt pt.
