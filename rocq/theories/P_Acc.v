(** C83: the accuracy of sessions with the parameter set PN15QP870 of fckks/fckks_test.go: N = 2^15, 2^14 slots, scale 2^36, sigma 3.2. *)
From Coq Require Import Reals Lra Lia List Arith.
From Coquelicot Require Import Complex.
From Verif Require Import Word Ring RingOps Frlwe Float64 Codec Rlwe RlweSpec Ckks CkksSpec Fckks FckksSpec FftSpec SlotSpec Encoder EncSpec EncEx Msg MsgSpec MsgEx Draw DrawSpec DrawProofs Session SessionSpec SessionEx FParams PubParams PubProofs AccSpec PubAcc.
Import ListNotations.
Open Scope R_scope.

(** ** Values of modulus at most 1 are decrypted within 1/60, whatever the generators yield. *)
Theorem C83_encryption : forall p ks conv, fast_setup (sQ fckks_PN15QP870) (sP fckks_PN15QP870) (sT fckks_PN15QP870) (sGamma fckks_PN15QP870) p ks conv 15 ->
  forall ksrc esrc h roots kpools epools scratch pool dbuf dpool rots msgs out, session_env (fpQ p) 14 ksrc esrc roots epools pool dbuf dpool ->
  (forall msg, In msg msgs -> values_ok 14 1 msg) -> (out < length msgs)%nat ->
  yields (session ksrc esrc h p ks conv roots kpools epools scratch pool dbuf dpool 14 (f64_of_Z (2 ^ 36)) (f64_of_Z (2 ^ 36)) rots msgs [] out) (fun vals =>
    length vals = (2 ^ 14)%nat /\ forall k, (k < 2 ^ 14)%nat -> cfinite (nth k vals c_zero) /\ Cmod (value_at vals k - value_at (nth out msgs []) k)%C <= / 60).
Proof. exact p_encryption. Qed.
Print Assumptions C83_encryption.

(** ** A product, its rotation by 1, their sum, rescaled: within 1/12 of a(k) b(k) + a(k+1) b(k+1). *)
Theorem C83_program : forall p ks conv, fast_setup (sQ fckks_PN15QP870) (sP fckks_PN15QP870) (sT fckks_PN15QP870) (sGamma fckks_PN15QP870) p ks conv 15 ->
  forall ksrc esrc h roots kpools epools scratch pool dbuf dpool a b, session_env (fpQ p) 14 ksrc esrc roots epools pool dbuf dpool ->
  values_ok 14 1 a -> values_ok 14 1 b ->
  yields (session ksrc esrc h p ks conv roots kpools epools scratch pool dbuf dpool 14 (f64_of_Z (2 ^ 36)) (f64_of_Z (2 ^ 36)) [1%Z] [a; b] [IMul 0 1; IRot 0 2; IAdd 2 3; IRescale 4] 5) (fun vals =>
    length vals = (2 ^ 14)%nat /\ forall k, (k < 2 ^ 14)%nat -> cfinite (nth k vals c_zero) /\
      Cmod (value_at vals k - (value_at a k * value_at b k + value_at a ((k + 1) mod 2 ^ 14) * value_at b ((k + 1) mod 2 ^ 14)))%C <= / 12).
Proof. exact p_program. Qed.
Print Assumptions C83_program.

(** There are such key switchers, generators, tables of roots and buffers, and messages of 3 values. *)
Example C83_case : exists p ks conv src roots epools pool dbuf dpool, fast_setup (sQ fckks_PN15QP870) (sP fckks_PN15QP870) (sT fckks_PN15QP870) (sGamma fckks_PN15QP870) p ks conv 15 /\
  session_env (fpQ p) 14 src src roots epools pool dbuf dpool /\ values_ok 14 1 (map (fun '(a, b) => (f64_of_Z a, f64_of_Z b)) [(0, 1); (1, 0); (-1, 0)]%Z).
Proof. exact p_case. Qed.
