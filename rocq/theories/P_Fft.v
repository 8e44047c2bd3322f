(** C71, C72: the special transforms of the ckks encoder and the slots of a plaintext.  [eval_poly], [root_table] (FftSpec.v): values of
    polynomials and tables of roots over a commutative ring; [slot N p k] (SlotSpec.v): the value of p at exp(i pi 5^k / N). *)
From Coq Require Import Reals Ring_theory ZArith List.
From Coquelicot Require Import Complex.
From Verif Require Import PolySpec Fft FftSpec FftTop SlotSpec SlotProofs EncFft EncSlots.
Import ListNotations.
Local Open Scope nat_scope.

(** ** C71: over every commutative ring with a table of the powers of a root of order 2^(m+2), SpecialFFTVec on 2^L values computes the
    values of the polynomial they are the coefficients of at the powers 5^k of a root of order 2^(L+2), and keeps the others. *)
Theorem C71_special_fft : forall T (r0 r1 : T) (radd rmul rsub : T -> T -> T) (ropp : T -> T), ring_theory r0 r1 radd rmul rsub ropp eq ->
  forall m L zeta roots, root_table r0 r1 rmul ropp zeta (2 ^ (m + 2)) roots -> L <= m ->
  forall v, 2 ^ L <= length v ->
  let out := SpecialFFTVec radd rsub rmul r0 v (2 ^ L) (2 ^ (m + 2)) (rotGroup (2 ^ (m + 2))) roots in
  length out = length v /\
  (forall k, k < 2 ^ L -> nth k out r0 = eval_poly r0 r1 radd rmul (2 ^ L) v (rpow r1 rmul zeta (2 ^ (m - L) * 5 ^ k))) /\
  (forall k, 2 ^ L <= k -> nth k out r0 = nth k v r0).
Proof. exact @FftTop.special_fft. Qed.
Print Assumptions C71_special_fft.

(** The two transforms undo each other, [dv] being the division by 2^L. *)
Theorem C71_inverse : forall T (r0 r1 : T) (radd rmul rsub : T -> T -> T) (ropp : T -> T), ring_theory r0 r1 radd rmul rsub ropp eq ->
  forall m L zeta roots, root_table r0 r1 rmul ropp zeta (2 ^ (m + 2)) roots -> L <= m ->
  forall (dv : T -> T) c, (forall x, dv x = rmul c x) -> rmul c (of_nat r0 r1 radd (2 ^ L)) = r1 ->
  forall v, 2 ^ L <= length v ->
  let fft x := SpecialFFTVec radd rsub rmul r0 x (2 ^ L) (2 ^ (m + 2)) (rotGroup (2 ^ (m + 2))) roots in
  let ifft x := SpecialiFFTVec radd rsub rmul r0 dv x (2 ^ L) (2 ^ (m + 2)) (rotGroup (2 ^ (m + 2))) roots in
  ifft (fft v) = v /\ fft (ifft v) = v.
Proof.
  exact (fun T r0 r1 radd rmul rsub ropp RT m L zeta roots TAB HL dv c DV CN v Hv =>
    conj (FftTop.ifft_fft r0 r1 radd rmul rsub ropp RT m L zeta roots TAB HL dv c DV CN v Hv) (FftTop.fft_ifft r0 r1 radd rmul rsub ropp RT m L zeta roots TAB HL dv c DV CN v Hv)).
Qed.
Print Assumptions C71_inverse.

(** For arbitrary operations (complex128 among them): the versions unrolled by 8 compute the same first 2^L values, and so does the
    inverse transform of the arbitrary-precision encoder. *)
Theorem C71_unrolled : forall T (add sub mul : T -> T -> T) (zero : T) (dv : T -> T) rot roots values L M,
  3 <= L -> (2 ^ L + 15) / 16 * 16 <= length values -> length values mod 8 = 0 ->
  (exists out, SpecialFFTUL8Vec add sub mul zero values (2 ^ L) M rot roots = Some out /\ length out = length values /\
     forall k, k < 2 ^ L -> nth k out zero = nth k (SpecialFFTVec add sub mul zero values (2 ^ L) M rot roots) zero) /\
  (exists out, SpecialiFFTUL8Vec add sub mul zero dv values (2 ^ L) M rot roots = Some out /\ length out = length values /\
     forall k, k < 2 ^ L -> nth k out zero = nth k (SpecialiFFTVec add sub mul zero dv values (2 ^ L) M rot roots) zero).
Proof.
  exact (fun T add sub mul zero dv rot roots values L M H3 H16 H8 =>
    conj (FftTop.fft_unrolled add sub mul zero _ rot roots values L M H3 eq_refl H16) (FftTop.ifft_unrolled add sub mul zero _ rot roots dv values L M H3 eq_refl H16 H8)).
Qed.
Print Assumptions C71_unrolled.
Theorem C71_arbitrary_precision : forall T (add sub mul : T -> T -> T) (zero : T) (dv : T -> T) rot roots values L M, 2 ^ L <= length values ->
  let out := InvFFT add sub mul zero dv values (2 ^ L) M rot roots in
  length out = length values /\ forall k, k < 2 ^ L -> nth k out zero = nth k (SpecialiFFTVec add sub mul zero dv values (2 ^ L) M rot roots) zero.
Proof. exact (fun T add sub mul zero dv rot roots values L M => FftTop.big_ifft add sub mul zero _ rot roots dv values L M eq_refl). Qed.
Print Assumptions C71_arbitrary_precision.

(** Exact complex numbers, and a table of 64 roots. *)
Example C71_case : ring_theory (RtoC 0) (RtoC 1) Cplus Cmult Cminus Copp eq /\
  root_table (RtoC 0) (RtoC 1) Cmult Copp (cis (2 * PI / INR 64)) 64 (exact_roots 64) /\ (3 <= 4)%nat /\
  (exists c, Cmult c (of_nat (RtoC 0) (RtoC 1) Cplus (2 ^ 3)) = RtoC 1).
Proof.
  split; [exact C_ring_theory|]. split; [exact (exact_root_table 4)|]. split; [repeat constructor|].
  exists (RtoC (/ 8)). cbn [of_nat Nat.pow Nat.mul Nat.add]. unfold RtoC, Cmult, Cplus. cbn [fst snd]. f_equal; field.
Qed.

(** ** C72: the slots.  The exact transform of the packed coefficients of a polynomial in X^(2^(m-L)) is its first 2^L slots. *)
Theorem C72_slots : forall m L p, L <= m -> sparse (2 ^ (m + 1)) (2 ^ (m - L)) p ->
  SpecialFFTVec Cplus Cminus Cmult (RtoC 0) (packed (2 ^ (m + 1)) (2 ^ L) p) (2 ^ L) (2 ^ (m + 2)) (rotGroup (2 ^ (m + 2))) (exact_roots (2 ^ (m + 2))) =
  map (slot (2 ^ (m + 1)) p) (seq 0 (2 ^ L)).
Proof. exact SlotProofs.transform_slots. Qed.
Print Assumptions C72_slots.

(** The operations of the ring act on the slots. *)
Theorem C72_operations : forall N a b k, 0 < N ->
  slot N (padd a b) k = Cplus (slot N a k) (slot N b k) /\
  slot N (pmul N a b) k = Cmult (slot N a k) (slot N b k) /\
  (forall r, slot N (pauto N (5 ^ r) a) k = slot N a (k + r)) /\
  slot N (pauto N (2 * N - 1) a) k = Cconj (slot N a k).
Proof.
  exact (fun N a b k HN => conj (SlotProofs.slot_add N a b k HN) (conj (SlotProofs.slot_mul N a b k HN)
    (conj (fun r => SlotProofs.slot_rotate N a k r HN) (SlotProofs.slot_conj N a k HN)))).
Qed.
Print Assumptions C72_operations.
Theorem C72_period : forall m a k, slot (2 ^ (m + 1)) a (k + 2 ^ m) = slot (2 ^ (m + 1)) a k.
Proof. exact SlotProofs.slot_period. Qed.
Print Assumptions C72_period.

Example C72_case : sparse (2 ^ (4 + 1)) (2 ^ (4 - 3)) (fun k => if Nat.eqb k 2 then 7 else if Nat.eqb k 18 then -3 else 0)%Z.
Proof.
  intros i _ H. cbv beta. destruct (Nat.eqb_spec i 2) as [-> | _]; [exfalso; apply H; reflexivity|].
  destruct (Nat.eqb_spec i 18) as [-> | _]; [exfalso; apply H; reflexivity|reflexivity].
Qed.
