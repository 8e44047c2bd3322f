(** Model of /repo/ring/ring_sampler_gaussian.go.

    [math.Log] and [math.Exp] are unknown functions, arguments of the definitions, and so is the result of converting a
    float64 outside the range of uint64 (Go leaves it to the implementation): the theorems hold for all of them.
    Simplification: x*y + z is rounded twice (Go may fuse the two operations on some processors). *)
From Flocq Require Import Core.Core IEEE754.BinarySingleNaN.
From Verif Require Import Word ModRed Ring RingOps Float64 Codec Sampler.

(** ** float32 *)
Global Instance prec32_gt_0 : Prec_gt_0 24.
Proof. reflexivity. Qed.
Global Instance prec32_lt_emax : Prec_lt_emax 24 128.
Proof. reflexivity. Qed.
Definition float32 : Type := binary_float 24 128.
Definition f32_of (m e : Z) : float32 := binary_normalize 24 128 _ _ mode_NE m e false.
(** Go [float32(x)] and [float64(y)]. *)
Definition f32_of_f64 (x : float64) : float32 :=
  match x with
  | B754_zero s => B754_zero s
  | B754_infinity s => B754_infinity s
  | B754_nan => B754_nan
  | B754_finite s m e _ => binary_normalize 24 128 _ _ mode_NE (if s then Zneg m else Zpos m) e s
  end.
Definition f64_of_f32 (x : float32) : float64 :=
  match x with
  | B754_zero s => B754_zero s
  | B754_infinity s => B754_infinity s
  | B754_nan => B754_nan
  | B754_finite s m e _ => binary_normalize 53 1024 _ _ mode_NE (if s then Zneg m else Zpos m) e s
  end.

(** ring/ring_sampler_gaussian.go:218-245 [kn]. *)
Definition kn : list Z := [
  1991057938; 0; 1611602771; 1826899878; 1918584482; 1969227037; 2001281515; 2023368125; 2039498179;
  2051788381; 2061460127; 2069267110; 2075699398; 2081089314; 2085670119; 2089610331; 2093034710; 2096037586;
  2098691595; 2101053571; 2103168620; 2105072996; 2106796166; 2108362327; 2109791536; 2111100552; 2112303493;
  2113412330; 2114437283; 2115387130; 2116269447; 2117090813; 2117856962; 2118572919; 2119243101; 2119871411;
  2120461303; 2121015852; 2121537798; 2122029592; 2122493434; 2122931299; 2123344971; 2123736059; 2124106020;
  2124456175; 2124787725; 2125101763; 2125399283; 2125681194; 2125948325; 2126201433; 2126441213; 2126668298;
  2126883268; 2127086657; 2127278949; 2127460589; 2127631985; 2127793506; 2127945490; 2128088244; 2128222044;
  2128347141; 2128463758; 2128572095; 2128672327; 2128764606; 2128849065; 2128925811; 2128994934; 2129056501;
  2129110560; 2129157136; 2129196237; 2129227847; 2129251929; 2129268426; 2129277255; 2129278312; 2129271467;
  2129256561; 2129233410; 2129201800; 2129161480; 2129112170; 2129053545; 2128985244; 2128906855; 2128817916;
  2128717911; 2128606255; 2128482298; 2128345305; 2128194452; 2128028813; 2127847342; 2127648860; 2127432031;
  2127195339; 2126937058; 2126655214; 2126347546; 2126011445; 2125643893; 2125241376; 2124799783; 2124314271;
  2123779094; 2123187386; 2122530867; 2121799464; 2120980787; 2120059418; 2119015917; 2117825402; 2116455471;
  2114863093; 2112989789; 2110753906; 2108037662; 2104664315; 2100355223; 2094642347; 2086670106; 2074676188;
  2054300022; 2010539237].
(** ring/ring_sampler_gaussian.go:247-280 [wn] and 282-309 [fn]: the float32 values nearest to the decimal literals, as pairs m, e for m * 2^e. *)
Definition wn : list (Z * Z) := [
  (15573812, -53); (9137572, -56); (12175945, -56); (14312575, -56); (16020155, -56); (8735159, -55);
  (9373299, -55); (9948267, -55); (10474999, -55); (10963552, -55); (11421055, -55); (11852761, -55);
  (12262667, -55); (12653891, -55); (13028917, -55); (13389763, -55); (13738089, -55); (14075283, -55);
  (14402516, -55); (14720790, -55); (15030965, -55); (15333792, -55); (15629926, -55); (15919944, -55);
  (16204359, -55); (16483628, -55); (16758161, -55); (8514164, -54); (8647231, -54); (8778434, -54);
  (8907913, -54); (9035794, -54); (9162196, -54); (9287226, -54); (9410986, -54); (9533568, -54);
  (9655060, -54); (9775544, -54); (9895096, -54); (10013789, -54); (10131692, -54); (10248868, -54);
  (10365379, -54); (10481285, -54); (10596640, -54); (10711500, -54); (10825915, -54); (10939935, -54);
  (11053608, -54); (11166982, -54); (11280100, -54); (11393009, -54); (11505749, -54); (11618365, -54);
  (11730897, -54); (11843387, -54); (11955874, -54); (12068399, -54); (12181002, -54); (12293723, -54);
  (12406600, -54); (12519674, -54); (12632984, -54); (12746570, -54); (12860473, -54); (12974734, -54);
  (13089393, -54); (13204493, -54); (13320077, -54); (13436188, -54); (13552871, -54); (13670172, -54);
  (13788138, -54); (13906818, -54); (14026262, -54); (14146522, -54); (14267652, -54); (14389707, -54);
  (14512746, -54); (14636830, -54); (14762023, -54); (14888390, -54); (15016002, -54); (15144934, -54);
  (15275261, -54); (15407067, -54); (15540437, -54); (15675466, -54); (15812250, -54); (15950893, -54);
  (16091509, -54); (16234215, -54); (16379141, -54); (16526424, -54); (16676214, -54); (8414335, -53);
  (8491985, -53); (8571151, -53); (8651936, -53); (8734455, -53); (8818831, -53); (8905202, -53);
  (8993721, -53); (9084555, -53); (9177894, -53); (9273948, -53); (9372954, -53); (9475183, -53);
  (9580940, -53); (9690577, -53); (9804501, -53); (9923184, -53); (10047180, -53); (10177146, -53);
  (10313870, -53); (10458306, -53); (10611630, -53); (10775308, -53); (10951211, -53); (11141776, -53);
  (11350263, -53); (11581184, -53); (11841046, -53); (12139759, -53); (12493558, -53); (12931999, -53);
  (13518598, -53); (14439394, -53)].
Definition fn : list (Z * Z) := [
  (8388608, -23); (16166520, -24); (15708217, -24); (15318330, -24); (14970002, -24); (14650587, -24);
  (14352918, -24); (14072454, -24); (13806092, -24); (13551600, -24); (13307302, -24); (13071902, -24);
  (12844371, -24); (12623875, -24); (12409725, -24); (12201346, -24); (11998251, -24); (11800022, -24);
  (11606296, -24); (11416759, -24); (11231133, -24); (11049172, -24); (10870660, -24); (10695399, -24);
  (10523215, -24); (10353948, -24); (10187453, -24); (10023601, -24); (9862269, -24); (9703349, -24);
  (9546739, -24); (9392345, -24); (9240082, -24); (9089868, -24); (8941630, -24); (8795297, -24);
  (8650806, -24); (8508096, -24); (16734221, -25); (16455591, -25); (16180204, -25); (15907965, -25);
  (15638786, -25); (15372584, -25); (15109280, -25); (14848800, -25); (14591072, -25); (14336030, -25);
  (14083612, -25); (13833755, -25); (13586405, -25); (13341506, -25); (13099006, -25); (12858857, -25);
  (12621012, -25); (12385426, -25); (12152056, -25); (11920862, -25); (11691806, -25); (11464850, -25);
  (11239958, -25); (11017098, -25); (10796236, -25); (10577343, -25); (10360388, -25); (10145345, -25);
  (9932184, -25); (9720882, -25); (9511413, -25); (9303755, -25); (9097884, -25); (8893780, -25);
  (8691422, -25); (8490791, -25); (16583738, -26); (16189275, -26); (15798161, -26); (15410364, -26);
  (15025856, -26); (14644607, -26); (14266591, -26); (13891784, -26); (13520162, -26); (13151703, -26);
  (12786389, -26); (12424199, -26); (12065118, -26); (11709130, -26); (11356222, -26); (11006381, -26);
  (10659597, -26); (10315861, -26); (9975167, -26); (9637509, -26); (9302884, -26); (8971291, -26);
  (8642730, -26); (16634406, -27); (15989431, -27); (15350550, -27); (14717782, -27); (14091151, -27);
  (13470687, -27); (12856427, -27); (12248415, -27); (11646699, -27); (11051340, -27); (10462404, -27);
  (9879969, -27); (9304123, -27); (8734968, -27); (16345242, -28); (15234427, -28); (14137798, -28);
  (13055706, -28); (11988559, -28); (10936830, -28); (9901078, -28); (8881962, -28); (15760553, -29);
  (13793981, -29); (11866621, -29); (9981559, -29); (16285762, -30); (12712543, -30); (9260470, -30);
  (11916376, -31); (11465970, -32)].
Definition wn_at (i : nat) : res float32 := let* '(m, e) := index wn i in Ret (f32_of m e).
Definition fn_at (i : nat) : res float32 := let* '(m, e) := index fn i in Ret (f32_of m e).

(** ** The sampler *)

(** ring/ring_sampler_gaussian.go:27-33 [GaussianSampler]: the buffer, ptr and the generator; ring, sigma and bound are arguments below. *)
Record gauss := mkGauss { gbuf : bytes; gptr : nat; ggen : prng }.
(** ring/ring_sampler_gaussian.go:38-47 [NewGaussianSampler]. *)
Definition newGauss (g : prng) : gauss := mkGauss (repeat 0 1024) 0 g.
(** 88 and 113: the buffer is filled anew at the start of every polynomial; ptr stays where it is. *)
Definition refill (s : stream) (st : gauss) : gauss := let '(b, g) := Clock s (length (gbuf st)) (ggen st) in mkGauss b (gptr st) g.
(** ring/ring_sampler_gaussian.go:152-155 and the other places where a used up buffer is filled anew. *)
Definition ready (s : stream) (st : gauss) : gauss :=
  if Nat.eqb (gptr st) (length (gbuf st)) then let '(b, g) := Clock s (length (gbuf st)) (ggen st) in mkGauss b 0 g else st.
Definition advance (st : gauss) : gauss := mkGauss (gbuf st) (gptr st + 8) (ggen st).
(** ring/ring_sampler_gaussian.go:134-136 [randFloat64] of 8 bytes. *)
Definition randFloat64 (b : bytes) : float64 :=
  f64_div (f64_of_Z (Z.land (be_value b) 9007199254740991)) (f64_of_Z 9007199254740991).
(** 3.442619855899 and 1.0 / 3.442619855899. *)
Definition rn : float64 := f64_div (f64_of_Z 3442619855899) (f64_of_Z 1000000000000).
Definition rn_inv : float64 := f64_div (f64_of_Z 1000000000000) (f64_of_Z 3442619855899).

(** ring/ring_sampler_gaussian.go:178-202: the base strip. *)
Fixpoint tail (fuel : nat) (log : float64 -> float64) (s : stream) (st : gauss) : res (float64 * gauss) :=
  match fuel with
  | O => Fail
  | S f =>
      let st := ready s st in
      let* b := slice (gbuf st) (gptr st) 8 in
      let x := f64_mul (Bopp (log (randFloat64 b))) rn_inv in
      let st := ready s (advance st) in
      let* b := slice (gbuf st) (gptr st) 8 in
      let y := Bopp (log (randFloat64 b)) in
      let st := advance st in
      if Bleb (f64_mul x x) (f64_add y y) then Ret (f64_add x rn, st) else tail f log s st
  end.
(** ring/ring_sampler_gaussian.go:148-216 [normFloat64]: the absolute value, the sign bit and the sampler. *)
Fixpoint normFloat64 (fuel : nat) (log exp : float64 -> float64) (s : stream) (st : gauss) : res (float64 * Z * gauss) :=
  match fuel with
  | O => Fail
  | S f =>
      let st := ready s st in
      let* b := slice (gbuf st) (gptr st) 4 in
      let juint32 := be_value b in
      let st := advance st in
      let j := Z.land juint32 2147483647 in
      let sign := juint32 / 2 ^ 31 in
      let i := Z.to_nat (Z.land j 127) in
      let* w := wn_at i in
      let x := f64_mul (f64_of_Z j) (f64_of_f32 w) in
      let* k := index kn i in
      if j <? k then Ret (x, sign, st)
      else if Nat.eqb i 0 then let* '(x, st) := tail fuel log s st in Ret (x, sign, st)
      else
        let st := ready s st in
        let* b := slice (gbuf st) (gptr st) 8 in
        let* f1 := fn_at i in
        let* f0 := fn_at (i - 1) in
        let left := Bplus mode_NE f1 (Bmult mode_NE (f32_of_f64 (randFloat64 b)) (Bminus mode_NE f0 f1)) in
        let right := f32_of_f64 (exp (f64_mul (f64_mul (f64_div (f64_of_Z (-1)) (f64_of_Z 2)) x) x)) in
        let st := advance st in
        if Bltb left right then Ret (x, sign, st) else normFloat64 f log exp s st
  end.
(** Go [uint64(x)]. *)
Definition f64_to_u64 (other : float64 -> Z) (x : float64) : Z :=
  let t := f64_trunc x in if is_finite x && (0 <=? t) && (t <? W) then t else other x.
(** ring/ring_sampler_gaussian.go:94-100 and 119-125: sampling until the absolute value is at most the bound. *)
Fixpoint sample (fuel : nat) (log exp : float64 -> float64) (other : float64 -> Z) (s : stream) (sigma : float64) (bound : Z) (st : gauss) : res (Z * Z * gauss) :=
  match fuel with
  | O => Fail
  | S f =>
      let* '(coeffFlo, sign, st) := normFloat64 fuel log exp s st in
      let coeffInt := f64_to_u64 other (f64_add (f64_mul coeffFlo sigma) (f64_div (f64_of_Z 1) (f64_of_Z 2))) in
      if coeffInt <=? w64 bound then Ret (coeffInt, sign, st) else sample f log exp other s sigma bound st
  end.
(** The value (coeffInt * sign) | (qi - coeffInt) * (sign ^ 1). *)
Definition gauss_value (c sign q : Z) : Z := Z.lor (wmul c sign) (wmul (wsub q c) (Z.lxor sign 1)).
(** Column i of the rows of the moduli gets f (old value) q. *)
Fixpoint set_column (ms : list modp) (pol : rows) (i : nat) (f : Z -> Z -> Z) : rows :=
  match ms, pol with
  | m :: ms, row :: pol => upd row i (f (nth i row 0) (mq m)) :: set_column ms pol i f
  | _, _ => pol
  end.
(** The loop over the coefficients; [put] is what is done with the old value and the sample. *)
Fixpoint gauss_loop (fuel : nat) (log exp : float64 -> float64) (other : float64 -> Z) (s : stream) (sigma : float64) (bound : Z) (ms : list modp)
    (put : Z -> Z -> Z -> Z -> Z) (is : list nat) (pol : rows) (st : gauss) : res (rows * gauss) :=
  match is with
  | [] => Ret (pol, st)
  | i :: is =>
      let* '(c, sign, st) := sample fuel log exp other s sigma bound st in
      gauss_loop fuel log exp other s sigma bound ms put is (set_column ms pol i (fun old q => put c sign old q)) st
  end.
Definition gauss_poly (fuel : nat) (log exp : float64 -> float64) (other : float64 -> Z) (s : stream) (r : Ring) (sigma : float64) (bound : Z) (level : nat)
    (put : Z -> Z -> Z -> Z -> Z) (pol : rows) (st : gauss) : res (rows * gauss) :=
  let st := refill s st in
  if Nat.ltb level (length (rmods r)) && room (rN r) (firstn (level + 1) (rmods r)) pol then
    gauss_loop fuel log exp other s sigma bound (firstn (level + 1) (rmods r)) put (seq 0 (rN r)) pol st
  else Panic.
(** ring/ring_sampler_gaussian.go:108-131 [readLvl]; 50-76 [Read], [ReadLvl], [ReadFromDistLvl] call it. *)
Definition Gauss_ReadLvl fuel log exp other s r sigma bound level pol st :=
  gauss_poly fuel log exp other s r sigma bound level (fun c sign _ q => gauss_value c sign q) pol st.
(** ring/ring_sampler_gaussian.go:79-106 [ReadAndAddLvl], [ReadAndAddFromDistLvl]. *)
Definition Gauss_ReadAndAddLvl fuel log exp other s r sigma bound level pol st :=
  gauss_poly fuel log exp other s r sigma bound level (fun c sign old q => CRed (wadd old (gauss_value c sign q)) q) pol st.
