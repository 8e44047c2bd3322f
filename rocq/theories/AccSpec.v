(** The environment of a session with a published parameter set. *)
From Coq Require Import Reals List Arith.
From Verif Require Import Word Ring RingOps Float64 SlotSpec Gauss GaussSpec Rlwe RlweSpec Ckks CkksSpec FftSpec Encoder EncSpec Msg MsgSpec Draw DrawSpec Session SessionSpec.
From Verif Require Params.
Import ListNotations.
Open Scope R_scope.

(** What the theorems need of the environment of a session: generators with the default deviation, accurate roots, buffers of the right
    length; what they hold does not matter. *)
Definition session_env (r : Ring) (m : nat) (ksrc esrc : source) (roots : list complex128) (epools : nat -> EncPools) (pool : nat -> Ct) (dbuf : list complex128) (dpool : rows) : Prop :=
  source_ok ksrc /\ source_ok esrc /\ srSigma ksrc = Params.DefaultSigma /\ srSigma esrc = Params.DefaultSigma /\ roots_near (2 ^ (m + 2)) (/ 2 ^ 48) roots /\
  (forall n, length (epBuf (epools n)) = 2 ^ m)%nat /\ length dbuf = (2 ^ m)%nat /\ pool_shape r dpool /\ (forall n, 1 <= ctDegree (pool n) /\ maxLevel r <= ctLevel (pool n))%nat.
