(** Model of the constructors of the parameters of frlwe and fckks. *)
From Verif Require Import Word Ring Float64 Codec Params Primes Frlwe.
Local Open Scope Z_scope.

(** frlwe/params.go:10-20 [ParametersLiteral]: the fields of the literal of rlwe (RingType is not among them: Standard), T and Gamma. *)
Record FLiteral := mkFLit { flRlwe : Literal; flT : list Z; flGamma : nat }.
(** frlwe/params.go:22-29 [Parameters]. *)
Record FrlweParams := mkFrlwe { fRlwe : Params; fGamma : nat; fRingR : Ring; fRingT : Ring }.
Definition given (x : option (list Z)) : list Z := match x with Some l => l | None => [] end.

(** frlwe/params.go:31-59 [NewParametersFromLiteral].  [fuel] bounds the search for primes, if the chains are given by their sizes, [rfuel]
    the loops of the ring constructor; [None]: the search does not end. *)
Definition Frlwe_NewParametersFromLiteral (fuel rfuel : nat) (d : FLiteral) : option (res FrlweParams) :=
  let r := flRlwe d in
  match ParametersFromSizes fuel rfuel (mkLit (lLogN r) (lQ r) (lP r) (lLogQ r) (lLogP r) (lSigma r) (lH r) Standard) with
  | None => None
  | Some (Ret (rp, None)) =>
      Some match NewRing rfuel (2 ^ lLogN r) (flT d) with
           | inr _ => Panic
           | inl ringT =>
               match NewRing rfuel (2 ^ lLogN r) (given (lP r) ++ given (lQ r)) with
               | inr _ => Panic
               | inl ringR => Ret (mkFrlwe rp (flGamma d) ringR ringT)
               end
           end
  | Some (Ret (_, Some _)) => Some Panic
  | Some Fail => Some Fail
  | Some Panic => Some Panic
  end.
(** The rings used by the key switcher. *)
Definition fast_rings (p : FrlweParams) : option FParams :=
  match ringQ (fRlwe p), ringP (fRlwe p) with Some rQ, Some rP => Some (mkFP rQ rP (fRingT p) (fRingR p) (fGamma p)) | _, _ => None end.

(** fckks/params.go:28-63 [NewParametersFromLiteral]: the parameters of ckks and those of frlwe, both from the literal.  The case of chains
    given by their sizes stops at the parameters of frlwe and is not followed here ([Fail]). *)
Definition Fckks_NewParametersFromLiteral (rfuel : nat) (d : FLiteral) (logSlots : Z) (scale : float64) : res (CkksParams * FrlweParams) :=
  let r := flRlwe d in
  let* '(cp, e) := Ckks_NewParametersFromLiteral rfuel (mkCkksLit (mkLit (lLogN r) (lQ r) (lP r) (lLogQ r) (lLogP r) (lSigma r) (lH r) Standard) logSlots scale) in
  match e with
  | Some _ => Panic
  | None => match Frlwe_NewParametersFromLiteral O rfuel d with Some x => let* fp := x in Ret (cp, fp) | None => Fail end
  end.
