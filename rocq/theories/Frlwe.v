(** Model of /repo/frlwe: params.go, keys.go, keyswitch.go and the conversion
    of keys in keygen.go.

    A polynomial is its rows (RingOps.v).  The scratch polynomials of the
    KeySwitcher are explicit arguments where the code reads or extends their
    previous content.  [copy] between rows of N words replaces the row. *)
From Verif Require Import Word ModRed Ring NTT RingOps Float64 BasisExt Gadget.

(** frlwe/params.go:21-29 [Parameters] (with the rings of the embedded rlwe.Parameters). *)
Record FParams := mkFP { fpQ : Ring; fpP : Ring; fpT : Ring; fpR : Ring; fpGamma : nat }.

(** rlwe/params.go:325-336 [Alpha], [Beta]; 223-225 [MaxLevel]. *)
Definition fAlpha (p : FParams) : nat := length (rmods (fpP p)).
Definition fMaxLevel (p : FParams) : nat := length (rmods (fpQ p)) - 1.
Definition fBeta (p : FParams) : nat := ceil_div (length (rmods (fpQ p))) (fAlpha p).

(** frlwe/params.go:69-71 [TiOverflowMargin]. *)
Definition TiOverflowMargin (p : FParams) (level : nat) : Z := OverflowMargin (moduli (fpT p)) level.

(** frlwe/params.go:31-59 [NewParametersFromLiteral], the part that builds the rings (the rlwe
    parameters, which bring the rings of Q and P, come from rlwe.NewParametersFromLiteral);
    [None] is the panic. *)
Definition NewFParams (fuel : nat) (N : Z) (Q P T : list Z) (gamma : nat) : option FParams :=
  match NewRing fuel N Q, NewRing fuel N P, NewRing fuel N T, NewRing fuel N (P ++ Q) with
  | inl rQ, inl rP, inl rT, inl rR => Some (mkFP rQ rP rT rR gamma)
  | _, _, _, _ => None
  end.

(** Block [i] of [size] consecutive moduli (frlwe/keyswitch.go:64-69, 84-89; frlwe/keygen.go:35-40). *)
Definition block_of (size i : nat) (ms : list Z) : list Z := firstn size (skipn (i * size) ms).

(** A ring over a block of moduli; the code ignores the error of NewRing and the nil ring makes
    NewBasisExtender panic. *)
Definition block_ring (fuel : nat) (N : nat) (ms : list Z) : option Ring :=
  match NewRing fuel (Z.of_nat N) ms with inl r => Some r | inr _ => None end.

(** ring/ring.go:387-396 [NewPoly]. *)
Definition zero_poly (r : Ring) : rows := repeat (repeat 0 (rN r)) (length (rmods r)).

(** frlwe/keyswitch.go:8-30 [KeySwitcher] (without the scratch polynomials). *)
Record KeySwitcher := mkKS {
  ksParams : FParams;
  ksHalfQ : rows; ksHalfP : rows; ksHalfT : rows;
  ksConvQP : BasisExtender; ksConvTRi : list BasisExtender; ksConvQjT : list BasisExtender;
  ksRingRi : list Ring; ksRingQj : list Ring }.

(** frlwe/keyswitch.go:32-110 [NewKeySwitcher].  AddScalarBigint is called with the same polynomial as
    source and destination, so its result is the first component. *)
Definition NewKeySwitcher (fuel : nat) (p : FParams) : option KeySwitcher :=
  let alpha := fAlpha p in let beta := fBeta p in let gamma := fpGamma p in let level := fMaxLevel p in
  let blockLen := ceil_div (level + alpha + 1) gamma in
  let N := rN (fpQ p) in
  match sequence (map (fun i => block_ring fuel N (block_of gamma i (firstn (level + alpha + 1) (moduli (fpR p))))) (seq 0 blockLen)),
        sequence (map (fun j => block_ring fuel N (block_of alpha j (firstn (level + 1) (moduli (fpQ p))))) (seq 0 beta)) with
  | Some ringRi, Some ringQj =>
      let halfT := rbigQ (fpT p) / 2 in
      let half r := fst (AddScalarBigintLvl r (length (rmods r) - 1) (zero_poly r) halfT (zero_poly r)) in
      Some (mkKS p (half (fpQ p)) (half (fpP p)) (half (fpT p))
              (NewBasisExtender (fpQ p) (fpP p))
              (map (fun ri => NewBasisExtender (fpT p) ri) ringRi)
              (map (fun qj => NewBasisExtender qj (fpT p)) ringQj) ringRi ringQj)
  | _, _ => None
  end.

(** Default value for list accesses (helper). *)
Definition be0 : BasisExtender := mkBE (mkRing 0 0 [] 0 []) (mkRing 0 0 [] 0 []) [] [] [] [].
Definition ring0 : Ring := mkRing 0 0 [] 0 [].

(** frlwe/keyswitch.go:163-177: from block [i] of T-polynomials to the residues modulo the moduli of R_i. *)
Definition to_block (ks : KeySwitcher) (levelT levelRi i : nat) (acc poolR : rows) : rows :=
  let rT := fpT (ksParams ks) in
  let x := InvNTTLazyLvl rT levelT acc acc in
  let x := AddLvl rT levelT x (ksHalfT ks) x in
  let y := ModUpQtoP (nth i (ksConvTRi ks) be0) levelT levelRi x poolR in
  ReduceLvl (nth i (ksRingRi ks) ring0) levelRi y y.

(** frlwe/keyswitch.go:113-186 [externalProduct].  [bg] is SwitchingKey.Value; the pools are
    polyTPools2, polyRPool and polyQPPool.  The overflow margin being 0 makes the code panic
    (division by zero): [None].  The model computes the P and Q rows of polyQPPool by index instead of
    copying block after block; polyRPool is passed on from block to block in the code, but ModUpQtoP
    overwrites the rows that are read. *)
Definition externalProduct (ks : KeySwitcher) (levelQ : nat) (aPolyTs : list rows) (bg : list (list rows))
    (poolT : list rows) (poolR poolQ poolP c : rows) : option rows :=
  let p := ksParams ks in
  let alpha := fAlpha p in
  let beta := ceil_div (levelQ + 1) alpha in
  let gamma := fpGamma p in
  let levelT := (length (rmods (fpT p)) - 1)%nat in
  let levelP := (alpha - 1)%nat in
  let blockLen := ceil_div (levelQ + alpha + 1) gamma in
  let F := wshr (TiOverflowMargin p levelT) 1 in
  if F =? 0 then None
  else
    let blocks := map (fun j =>
        let acc := accumulate (fpT p) levelT F beta (fun i => nth i aPolyTs []) (fun i => nth j (nth i bg []) []) (nth j poolT []) in
        let levelRi := (Nat.min gamma (levelQ + alpha + 1 - j * gamma) - 1)%nat in
        to_block ks levelT levelRi j acc poolR)
      (seq 0 blockLen) in
    let row idx := prow (nth (idx / gamma) blocks []) (idx mod gamma) in
    let P := lvl (S levelP) (fun i => row i) poolP in
    let Q := lvl (S levelQ) (fun i => row (alpha + i)%nat) poolQ in
    let Q := SubLvl (fpQ p) levelQ Q (ksHalfQ ks) Q in
    let P := SubLvl (fpP p) levelP P (ksHalfP ks) P in
    Some (ModDownQPtoQ (ksConvQP ks) levelQ levelP Q P c).

(** frlwe/keyswitch.go:199-217: digit [j] of [a], extended to T and transformed.  The rows of polyQPool
    beyond levelQj are not read. *)
Definition digitT (ks : KeySwitcher) (levelQ j : nat) (a poolT : rows) : rows :=
  let p := ksParams ks in
  let alpha := fAlpha p in
  let levelT := (length (rmods (fpT p)) - 1)%nat in
  let levelQj := (Nat.min alpha (levelQ + 1 - j * alpha) - 1)%nat in
  let x := if Nat.eqb alpha 1 then lvl (S levelT) (fun _ => prow a j) poolT
           else ModUpQtoP (nth j (ksConvQjT ks) be0) levelQj levelT (map (fun i => prow a (j * alpha + i)) (seq 0 (S levelQj))) poolT in
  NTTLazyLvl (fpT p) levelT x x.

(** frlwe/keyswitch.go:188-224 [SwitchKey]; [isNTT] is a.IsNTT ([None] is the panic).  The same
    scratch polynomials serve both products; [poolT1], [poolT2], ... stand for their contents. *)
Definition SwitchKey (ks : KeySwitcher) (levelQ : nat) (a : rows) (isNTT : bool) (bg0 bg1 : list (list rows))
    (poolT1 poolT2 poolT2' : list rows) (poolR poolR' poolQ poolQ' poolP poolP' c0 c1 : rows) : option (rows * rows) :=
  if isNTT then None
  else
    let beta := ceil_div (levelQ + 1) (fAlpha (ksParams ks)) in
    let aPolyTs := map (fun j => digitT ks levelQ j a (nth j poolT1 [])) (seq 0 beta) in
    match externalProduct ks levelQ aPolyTs bg0 poolT2 poolR poolQ poolP c0,
          externalProduct ks levelQ aPolyTs bg1 poolT2' poolR' poolQ' poolP' c1 with
    | Some r0, Some r1 => Some (r0, r1)
    | _, _ => None
    end.

(** frlwe/keygen.go:11-49 [KeyGenerator], [NewKeyGenerator]: the converters from the blocks of R to T. *)
Definition NewConvRiT (fuel : nat) (p : FParams) : option (list BasisExtender) :=
  let alpha := fAlpha p in let gamma := fpGamma p in let level := fMaxLevel p in
  let blockLen := ceil_div (level + alpha + 1) gamma in
  match sequence (map (fun i => block_ring fuel (rN (fpQ p)) (block_of gamma i (firstn (level + alpha + 1) (moduli (fpR p))))) (seq 0 blockLen)) with
  | Some ringRi => Some (map (fun ri => NewBasisExtender ri (fpT p)) ringRi)
  | None => None
  end.

(** frlwe/keygen.go:59-91 [polyQPToPolyTs]: [coeffsQ], [coeffsP] are the rows of the key polynomial
    (coefficient domain); the result is the T-polynomials of the blocks. *)
Definition polyQPToPolyTs (conv : list BasisExtender) (p : FParams) (coeffsQ coeffsP : rows) (polyTs : list rows) : list rows :=
  let alpha := fAlpha p in let gamma := fpGamma p in let level := fMaxLevel p in
  let blockLen := ceil_div (level + alpha + 1) gamma in
  let rT := fpT p in
  let levelT := (length (rmods rT) - 1)%nat in
  map (fun i =>
    let levelRi := (Nat.min gamma (level + alpha + 1 - i * gamma) - 1)%nat in
    let src := map (fun j => let idx := (i * gamma + j)%nat in
                     if Nat.ltb idx alpha then prow coeffsP idx else prow coeffsQ (idx - alpha)) (seq 0 (S levelRi)) in
    let x := ModUpQtoP (nth i conv be0) levelRi levelT src (nth i polyTs []) in
    let x := ReduceLvl rT levelT x x in
    let x := NTTLvl rT levelT x x in
    MFormLvl rT levelT x x) (seq 0 blockLen).

(** frlwe/keygen.go:108-114 and 138-144, one polynomial of digit [i] of the switching key of rlwe
    ([kQ], [kP] are its rows modulo Q and P, in the NTT domain and Montgomery form): RingQP.InvMFormLvl,
    RingQP.InvNTTLvl (rlwe/ring_qp.go:162-169, 196-203), polyQPToPolyTs. *)
Definition convertPoly (conv : list BasisExtender) (p : FParams) (kQ kP : rows) (polyTs : list rows) : list rows :=
  let levelQ := fMaxLevel p in let levelP := (fAlpha p - 1)%nat in
  let q := InvMFormLvl (fpQ p) levelQ kQ kQ in
  let q := InvNTTLvl (fpQ p) levelQ q q in
  let pp := InvMFormLvl (fpP p) levelP kP kP in
  let pp := InvNTTLvl (fpP p) levelP pp pp in
  polyQPToPolyTs conv p q pp polyTs.

(** frlwe/keygen.go:93-117 [GenRelinKey] and 119-145 [GenRotKey] after the call of rlwe's key generator:
    [key] lists the rows (Q, P) of one of the two polynomials of each digit. *)
Definition convertKey (conv : list BasisExtender) (p : FParams) (key : list (rows * rows)) (pool : list (list rows)) : list (list rows) :=
  map (fun i => let '(kQ, kP) := nth i key ([], []) in convertPoly conv p kQ kP (nth i pool [])) (seq 0 (fBeta p)).
