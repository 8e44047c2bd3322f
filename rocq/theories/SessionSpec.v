(** What a straight-line program of evaluator calls computes on messages, and what it needs. *)
From Coq Require Import ZArith Reals List.
From Coquelicot Require Import Complex.
From Verif Require Import Word PolySpec Ring RingOps RNSSpec Float64 ScalingSpec GadgetSpec Gadget Frlwe Rlwe RlweSpec Ckks CkksSpec Fckks FckksSpec Encoder SlotSpec EncSpec Msg MsgSpec Session.
Import ListNotations.

(** On vectors of 2^L complex numbers. *)
Definition vec := nat -> C.
Definition vec0 : vec := fun _ => RtoC 0.
Definition turn (L : nat) (k : Z) (v : vec) : vec := fun j => v (Z.to_nat ((Z.of_nat j + k) mod 2 ^ Z.of_nat L)).
Definition meaning (L : nat) (rots : list Z) (vs : list vec) (op : instr) : vec :=
  let v i := nth i vs vec0 in
  match op with
  | IAdd i j => fun k => (v i k + v j k)%C
  | ISub i j => fun k => (v i k - v j k)%C
  | IMul i j => fun k => (v i k * v j k)%C
  | IRot t i => turn L (nth t rots 0%Z) (v i)
  | IRescale i => v i
  end.
Fixpoint meanings (L : nat) (rots : list Z) (vs : list vec) (prog : list instr) : list vec :=
  match prog with [] => vs | op :: prog => meanings L rots (vs ++ [meaning L rots vs op]) prog end.

(** What is known of a ciphertext without looking at it: its level and scale, bounds of its values and of its error. *)
Record info := mkInfo { inLevel : nat; inScale : float64; inSize : R; inEps : R }.
Definition holds (rQ : Ring) (m L : nat) (sk : rows) (c : Ct) (f : info) (v : vec) : Prop :=
  ct_ok rQ (inLevel f) canon c /\ ctDegree c = 1%nat /\ ctScale c = inScale f /\ scale_ok (inScale f) /\ carries rQ m L sk c v (inEps f) /\ vbound v (inSize f).

(** The lists have the same length and their elements satisfy P. *)
Inductive all3 {X Y T} (P : X -> Y -> T -> Prop) : list X -> list Y -> list T -> Prop :=
| all3_nil : all3 P [] [] []
| all3_cons x y t xs ys ts : P x y t -> all3 P xs ys ts -> all3 P (x :: xs) (y :: ys) (t :: ts).

(** What is fixed for a program: the parameters, a bound DQ of the products of blocks of Q, Be of the errors of the keys, Bs of the
    secret, the least scale given to Rescale. *)
Record limits := mkLim { liQ : list Z; liP : list Z; liT : list Z; liGamma : nat; liDQ : Z; liBe : Z; liBs : Z; liMin : float64 }.

(** The analysis of a call: what it needs, and what is known of its result. *)
Definition switch_ok (rQ rP : Ring) (li : limits) (level : nat) : Prop :=
  blocks_below rQ level (maxLevel rP) (liDQ li) /\ room (liQ li) (liP li) (liT li) (liGamma li) (rN rQ) level (liDQ li).
Definition scales_meet (f0 f1 : info) : Prop :=
  (1 <= match_factor (inScale f1) (inScale f0) < 2 ^ 52 /\ 1 <= match_factor (inScale f0) (inScale f1) < 2 ^ 52)%Z.
Definition sum_info (f0 f1 : info) : info :=
  let sc := MaxFloat64 (inScale f0) (inScale f1) in
  mkInfo (Nat.min (inLevel f0) (inLevel f1)) sc (inSize f0 + inSize f1)
    (sum_eps (fval sc) (fval (inScale f0)) (fval (inScale f1)) (inSize f0) (inSize f1) (inEps f0) (inEps f1) (match_factor (inScale f1) (inScale f0)) (match_factor (inScale f0) (inScale f1))).
Definition product_info (rQ rP : Ring) (li : limits) (f0 f1 : info) : info :=
  let level := Nat.min (inLevel f0) (inLevel f1) in
  mkInfo level (f64_mul (inScale f0) (inScale f1)) (inSize f0 * inSize f1)
    (product_eps (fval (inScale f0)) (fval (inScale f1)) (inSize f0) (inSize f1) (inEps f0) (inEps f1) + INR (rN rQ) * switch_size rQ rP level (maxLevel rP) (liDQ li) (liBe li) (liBs li)).
Definition rotate_info (rQ rP : Ring) (li : limits) (f : info) : info :=
  mkInfo (inLevel f) (inScale f) (inSize f) (inEps f + INR (rN rQ) * switch_size rQ rP (inLevel f) (maxLevel rP) (liDQ li) (liBe li) (liBs li)).
Definition rescale_info (rQ : Ring) (li : limits) (nb : nat) (f : info) : info :=
  mkInfo (inLevel f - nb) (rescaled_scale rQ (inLevel f) nb (inScale f)) (inSize f)
    (rescale_eps (rN rQ) 1 (liBs li) (product (last_moduli rQ (inLevel f) nb)) nb (fval (inScale f)) (inSize f) (inEps f)).

Inductive analysed1 (rQ rP : Ring) (li : limits) (rots : list Z) (fs : list info) : instr -> info -> Prop :=
| an_add i j f0 f1 : nth_error fs i = Some f0 -> nth_error fs j = Some f1 -> scales_meet f0 f1 -> analysed1 rQ rP li rots fs (IAdd i j) (sum_info f0 f1)
| an_sub i j f0 f1 : nth_error fs i = Some f0 -> nth_error fs j = Some f1 -> scales_meet f0 f1 -> analysed1 rQ rP li rots fs (ISub i j) (sum_info f0 f1)
| an_mul i j f0 f1 : nth_error fs i = Some f0 -> nth_error fs j = Some f1 -> (1 <= fval (inScale f0) * fval (inScale f1) <= IZR (2 ^ 1000))%R ->
    switch_ok rQ rP li (Nat.min (inLevel f0) (inLevel f1)) -> analysed1 rQ rP li rots fs (IMul i j) (product_info rQ rP li f0 f1)
| an_rot t i f : (t < length rots)%nat -> nth_error fs i = Some f -> switch_ok rQ rP li (inLevel f) -> analysed1 rQ rP li rots fs (IRot t i) (rotate_info rQ rP li f)
| an_rescale i f nb : nth_error fs i = Some f -> (0 < nb)%nat -> (0 < inLevel f)%nat -> (fval (inScale f) <= IZR (2 ^ 1000))%R ->
    rescale_count rQ (inLevel f) (liMin li) (inScale f) nb -> analysed1 rQ rP li rots fs (IRescale i) (rescale_info rQ li nb f).
Inductive analysed (rQ rP : Ring) (li : limits) (rots : list Z) : list info -> list instr -> list info -> Prop :=
| an_nil fs : analysed rQ rP li rots fs [] fs
| an_cons fs op f prog fs' : analysed1 rQ rP li rots fs op f -> analysed rQ rP li rots (fs ++ [f]) prog fs' -> analysed rQ rP li rots fs (op :: prog) fs'.

(** An evaluator with the keys of s: the keys for the rotations in [rots], buffers for sums of a row for every modulus. *)
Definition evaluator_ok (p : FParams) (conv : list BasisExt.BasisExtender) (L : nat) (li : limits) (ks : KeySwitcher) (ev : Eval) (rots : list Z) (s : poly) : Prop :=
  evKs ev = ks /\ evMin ev = liMin li /\ fast_key conv p L (evRlk ev) s (ppow (rN (fpQ p)) s 2) (liBe li) /\
  length (evRtks ev) = length rots /\ (forall t rtk, nth_error (evRtks ev) t = Some rtk -> fast_rotation_key conv p L (nth t rots 0%Z) rtk s (liBe li)) /\
  (forall n, (1 <= ctDegree (evPool ev n) /\ maxLevel (fpQ p) <= ctLevel (evPool ev n))%nat).
Definition limits_ok (rQ : Ring) (li : limits) (s : poly) : Prop :=
  (0 <= liBe li)%Z /\ (0 <= liBs li)%Z /\ pbound (rN rQ) (liBs li) s /\ ffinite (liMin li) /\ (1 <= fval (liMin li) <= IZR (2 ^ 1000))%R.

(** The accuracy of the decrypted values. *)
Definition decoded_eps (L : nat) (delta : R) (f : info) : R :=
  (inEps f / fval (inScale f) + 2 ^ L * (inSize f + inEps f / fval (inScale f)) * growth delta (L + 1))%R.
(** What decryption needs: the values, their error and the scale fit the modulus of the level. *)
Definition readable (rQ : Ring) (L : nat) (f : info) : Prop :=
  let sc := fval (inScale f) in
  (1 <= inSize f /\ 2 * (sc * inSize f + inEps f) + 2 <= IZR (product (prefix rQ (inLevel f))) /\ sc * inSize f + inEps f <= IZR (2 ^ 1000) /\
   2 ^ L * (inSize f + inEps f / sc) <= IZR (2 ^ 900))%R.
(** A fresh encryption. *)
Definition fresh_info (rQ rP : Ring) (L : nat) (scale : float64) (A delta : R) (Be Bf Bs : Z) : info :=
  mkInfo (maxLevel rQ) scale A (encode_eps L (fval scale) A delta + INR (rN rQ) * fresh_size (rN rQ) (mq (rmod rP 0)) 1 Be Bf Bs).
