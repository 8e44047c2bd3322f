(** Model of /repo/ring/primes.go and of GenModuli of /repo/rlwe/params.go.

    The loops have a fuel; [None] stands for more than [fuel] iterations.  The theorems also show that the loops end. *)
From Verif Require Import Word Ring Codec Params.

(** uint64(1 << n): panics for negative n. *)
Definition shl1 (n : Z) : res Z := if n <? 0 then Panic else Ret (if n <? 64 then 2 ^ n else 0).

(** ring/primes.go:51-60: the loop of [NextNTTPrime]. *)
Fixpoint next_loop (fuel : nat) (R x : Z) : option (res Z) :=
  match fuel with
  | O => None
  | S f =>
      if IsPrime x then Some (Ret x)
      else
        let x := wadd x R in
        if 61 <? Len64 x then Some Fail else next_loop f R x
  end.
(** ring/primes.go:47-61 [NextNTTPrime]. *)
Definition NextNTTPrime (fuel : nat) (q NthRoot : Z) : option (res Z) := next_loop fuel (w64 NthRoot) (wadd q (w64 NthRoot)).

(** ring/primes.go:73-80: the loop of [PreviousNTTPrime]; the test is about q, not qPrev. *)
Fixpoint previous_loop (fuel : nat) (q R x : Z) : option (res Z) :=
  match fuel with
  | O => None
  | S f =>
      if IsPrime x then Some (Ret x)
      else if q <? R then Some Fail
      else previous_loop f q R (wsub x R)
  end.
(** ring/primes.go:65-83 [PreviousNTTPrime]. *)
Definition PreviousNTTPrime (fuel : nat) (q NthRoot : Z) : option (res Z) :=
  if q <? w64 NthRoot then Some Fail else previous_loop fuel q (w64 NthRoot) (wsub q (w64 NthRoot)).

(** ring/primes.go:102-150: the loop of [GenerateNTTPrimesQ]: nextPrime, previousPrime, whether each is still looked for, the primes. *)
Fixpoint primesQ_loop (fuel : nat) (R levels next previous : Z) (checknext checkprevious : bool) (primes : list Z) : option (res (list Z)) :=
  match fuel with
  | O => None
  | S f =>
      if negb (checknext || checkprevious) then Some Panic
      else
        let stop1 := checknext && (wsub 18446744073709551615 R <? next) in
        let try1 := checknext && negb stop1 in
        let next := if try1 then wadd next R else next in
        let found1 := try1 && IsPrime next in
        let primes := if found1 then primes ++ [next] else primes in
        if found1 && (Z.of_nat (length primes) =? levels) then Some (Ret primes)
        else
          let stop2 := checkprevious && (previous <? R) in
          let try2 := checkprevious && negb stop2 in
          let previous := if try2 then wsub previous R else previous in
          let found2 := try2 && IsPrime previous in
          let primes := if found2 then primes ++ [previous] else primes in
          if found2 && (Z.of_nat (length primes) =? levels) then Some (Ret primes)
          else primesQ_loop f R levels next previous (checknext && negb stop1) (checkprevious && negb stop2) primes
  end.
(** ring/primes.go:87-151 [GenerateNTTPrimesQ]. *)
Definition GenerateNTTPrimesQ (fuel : nat) (logQ NthRoot levels : Z) : option (res (list Z)) :=
  match shl1 logQ with
  | Ret Qpow2 => primesQ_loop fuel (w64 NthRoot) levels (wadd Qpow2 1) (wadd Qpow2 1) true true []
  | _ => Some Panic
  end.

(** ring/primes.go:166-186: the loop of [GenerateNTTPrimesP]. *)
Fixpoint primesP_loop (fuel : nat) (R n x : Z) (primes : list Z) : option (res (list Z)) :=
  match fuel with
  | O => None
  | S f =>
      if R <? x then
        let x := wsub x R in
        let primes := if IsPrime x then primes ++ [x] else primes in
        if IsPrime x && (Z.of_nat (length primes) =? n) then Some (Ret primes) else primesP_loop f R n x primes
      else Some Panic
  end.
(** ring/primes.go:156-187 [GenerateNTTPrimesP]. *)
Definition GenerateNTTPrimesP (fuel : nat) (logP NthRoot n : Z) : option (res (list Z)) :=
  match shl1 logP with
  | Ret Ppow2 => primesP_loop fuel (w64 NthRoot) n (wadd Ppow2 1) []
  | _ => Some Panic
  end.

(** ring/primes.go:32-43 [GenerateNTTPrimes]. *)
Definition GenerateNTTPrimes (fuel : nat) (logQ NthRoot n : Z) : option (res (list Z)) :=
  if 61 <? logQ then Some Panic
  else if logQ =? 61 then GenerateNTTPrimesP fuel logQ NthRoot n
  else GenerateNTTPrimesQ fuel logQ NthRoot n.

(** ** rlwe/params.go *)

(** rlwe/params.go:549-564 [checkModuliLogSize]. *)
Definition checkModuliLogSize (logQ logP : list Z) : bool :=
  forallb (fun qi => negb ((qi <=? 0) || (MaxModuliSize <? qi))) logQ && forallb (fun pi => negb ((pi <=? 0) || (MaxModuliSize + 1 <? pi))) logP.
(** A map from sizes to primes. *)
Definition prime_map := list (Z * list Z).
Definition map_get (m : prime_map) (k : Z) : list Z := match find (fun e => fst e =? k) m with Some e => snd e | None => [] end.
Definition map_put (m : prime_map) (k : Z) (v : list Z) : prime_map := map (fun e => if fst e =? k then (k, v) else e) m.
(** rlwe/params.go:576-583: how often a size is asked for. *)
Definition count (k : Z) (l : list Z) : Z := Z.of_nat (length (filter (Z.eqb k) l)).
(** rlwe/params.go:586-589: the primes of each size.  Go visits the keys in any order; the calls are independent. *)
Fixpoint gen_sizes (fuel : nat) (NthRoot : Z) (all keys : list Z) : option (res prime_map) :=
  match keys with
  | [] => Some (Ret [])
  | k :: keys =>
      match GenerateNTTPrimes fuel k NthRoot (count k all) with
      | Some (Ret l) => match gen_sizes fuel NthRoot all keys with Some (Ret m) => Some (Ret ((k, l) :: m)) | x => x end
      | Some Fail => Some Fail
      | Some Panic => Some Panic
      | None => None
      end
  end.
(** rlwe/params.go:592-601: each size takes the first prime of its list. *)
Fixpoint assign (sizes : list Z) (m : prime_map) : res (list Z * prime_map) :=
  match sizes with
  | [] => Ret ([], m)
  | k :: sizes =>
      match map_get m k with
      | [] => Panic
      | x :: rest => let* '(l, m) := assign sizes (map_put m k rest) in Ret (x :: l, m)
      end
  end.
(** rlwe/params.go:567-606 [GenModuli]; [Fail] is the error. *)
Definition GenModuli (fuel : nat) (logn : Z) (logQ logP : list Z) : option (res (list Z * list Z)) :=
  if negb (checkSizeParams logn (Z.of_nat (length logQ)) (Z.of_nat (length logP))) then Some Fail
  else if negb (checkModuliLogSize logQ logP) then Some Fail
  else
    match gen_sizes fuel (2 * 2 ^ logn) (logQ ++ logP) (nodup Z.eq_dec (logQ ++ logP)) with
    | Some (Ret m) => Some (let* '(q, m) := assign logQ m in let* '(p, m) := assign logP m in Ret (q, p))
    | Some Fail => Some Fail
    | Some Panic => Some Panic
    | None => None
    end.
(** rlwe/params.go:127-160 [NewParametersFromLiteral], the case of chains given by their sizes. *)
Definition ParametersFromSizes (fuel rfuel : nat) (d : Literal) : option (res (Params * option param_error)) :=
  match lQ d, lLogQ d, lP d, lLogP d with
  | None, Some logQ, None, Some logP =>
      if (lH d =? 0) && (lLogN d - 1 <? 0) then Some Panic
      else
        let hh := if lH d =? 0 then int_wrap (2 ^ (lLogN d - 1)) else lH d in
        let sg := if f64_same (lSigma d) (Float64.f64_of_Z 0) then DefaultSigma else lSigma d in
        let gen := if lType d =? Standard then GenModuli fuel (lLogN d) logQ logP
                   else if lType d =? ConjugateInvariant then GenModuli fuel (lLogN d + 1) logQ logP
                   else Some Panic in
        match gen with
        | Some (Ret (q, p)) => Some (Ret (NewParameters rfuel (lLogN d) q p hh sg (lType d)))
        | Some Fail => Some (Ret (zeroParams, Some SizeError))
        | Some Panic => Some Panic
        | None => None
        end
  | _, _, _, _ => Some (NewParametersFromLiteral rfuel d)
  end.
