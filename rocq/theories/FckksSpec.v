(** Vocabulary for the properties of fckks. *)
From Verif Require Import Word Arith PolySpec Ring RingOps RNSSpec Gadget GadgetSpec Frlwe FrlweSetup RlweSpec Rlwe Float64 Ckks CkksSpec Fckks.

(** The parameters, the key switcher and the converters of the key generator, made by the constructors. *)
Definition fast_setup (Qs Ps Ts : list Z) (gamma : nat) (p : FParams) (ks : KeySwitcher) (conv : list BasisExt.BasisExtender) (L : nat) : Prop :=
  exists fuel N, sizes_ok N Qs Ps Ts gamma /\ NewFParams fuel N Qs Ps Ts gamma = Some p /\ NewKeySwitcher fuel p = Some ks /\
    NewConvRiT fuel p = Some conv /\ rN (fpQ p) = (2 ^ L)%nat.

(** A switching key from s' to s in the form used by the fast key switching: a switching key of rlwe, converted. *)
Definition fast_key (conv : list BasisExt.BasisExtender) (p : FParams) (L : nat) (key : fkey) (s s' : poly) (Be : Z) : Prop :=
  exists rkey pool0 pool1, swkey_ok (fpQ p) (fpP p) L (maxLevel (fpQ p)) (maxLevel (fpP p)) rkey s s' Be /\
    key = (convertKey conv p (fst rkey) pool0, convertKey conv p (snd rkey) pool1).

(** The auxiliary moduli are large enough: their product is at least 5 times the number of digits times N times
    the largest product of a block of Q (below DQ) and of a block of PQ. *)
Definition room (Qs Ps Ts : list Z) (gamma n level : nat) (DQ : Z) : Prop :=
  exists DR, (forall j, (j * gamma < length Ps + level + 1)%nat -> product (block_of gamma j (Ps ++ Qs)) <= DR) /\
    5 * (Z.of_nat (ceil_div (level + 1) (length Ps)) * (Z.of_nat n * (DQ * DR))) <= product Ts.

(** A rotation key for k: its index stands for the rotation by k, and it switches from s to the image of s under
    the rotation by -k. *)
Definition fast_rotation_key (conv : list BasisExt.BasisExtender) (p : FParams) (L : nat) (k : Z) (rtk : RotKey) (s : poly) (Be : Z) : Prop :=
  let gal := Automorphism.GaloisElementForColumnRotationBy (fpQ p) in
  fast_key conv p L (rkValue rtk) (pauto (rN (fpQ p)) (Z.to_nat (gal (- k))) s) s Be /\ gal (to_int (rkRotidx rtk)) = gal k.

(** The lowest level of a list of ciphertexts (the highest level of the ring if there are none). *)
Definition lowest (r : Ring) (cs : list Ct) : nat := fold_left (fun l c => Nat.min l (ctLevel c)) cs (maxLevel r).
