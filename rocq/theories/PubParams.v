(** The parameter sets in the repository, and certificates that their moduli are prime. *)
From Coq Require Import ZArith List.
From Verif Require Import Word Float64 Params FParams.
Import ListNotations.
Local Open Scope Z_scope.

(** LogN, the number in the name (the size of QP in bits), LogSlots, the logarithm of DefaultScale, RingType, Q, P; T and Gamma for the sets
    of the fast key switching.  Sigma is rlwe.DefaultSigma in all, H and the other fields are not set. *)
Record pset := mkSet { sLogN : nat; sLogQP : Z; sLogSlots : Z; sLogScale : Z; sType : Z; sQ : list Z; sP : list Z; sT : list Z; sGamma : nat }.

(** ckks/params.go:38-47 [PN12QP109]. *)
Definition ckks_PN12QP109 : pset := mkSet 12 109 11 32 Standard
    [0x200000e001; 0x100006001]
    [0x3ffffea001]
    [] 0.
(** ckks/params.go:50-63 [PN13QP218]. *)
Definition ckks_PN13QP218 : pset := mkSet 13 218 12 30 Standard
    [0x1fffec001; 0x3fff4001; 0x3ffe8001; 0x40020001; 0x40038001; 0x3ffc0001]
    [0x800004001]
    [] 0.
(** ckks/params.go:65-77 [PN14QP438]. *)
Definition ckks_PN14QP438 : pset := mkSet 14 438 13 34 Standard
    [0x200000008001; 0x400018001; 0x3fffd0001; 0x400060001; 0x400068001; 0x3fff90001; 0x400080001; 0x4000a8001;
     0x400108001; 0x3ffeb8001]
    [0x7fffffd8001; 0x7fffffc8001]
    [] 0.
(** ckks/params.go:80-93 [PN15QP880]. *)
Definition ckks_PN15QP880 : pset := mkSet 15 880 14 40 Standard
    [0x4000000120001; 0x10000140001; 0xffffe80001; 0x10000290001; 0xffffc40001; 0x100003e0001; 0x10000470001; 0x100004b0001;
     0xffffb20001; 0x10000500001; 0x10000650001; 0xffff940001; 0xffff8a0001; 0xffff820001; 0xffff780001; 0x10000890001;
     0xffff750001; 0x10000960001]
    [0x40000001b0001; 0x3ffffffdf0001; 0x4000000270001]
    [] 0.
(** ckks/params.go:95-111 [PN16QP1761]. *)
Definition ckks_PN16QP1761 : pset := mkSet 16 1761 15 45 Standard
    [0x80000000080001; 0x2000000a0001; 0x2000000e0001; 0x1fffffc20001; 0x200000440001; 0x200000500001; 0x200000620001; 0x1fffff980001;
     0x2000006a0001; 0x1fffff7e0001; 0x200000860001; 0x200000a60001; 0x200000aa0001; 0x200000b20001; 0x200000c80001; 0x1fffff360001;
     0x200000e20001; 0x1fffff060001; 0x200000fe0001; 0x1ffffede0001; 0x1ffffeca0001; 0x1ffffeb40001; 0x200001520001; 0x1ffffe760001;
     0x2000019a0001; 0x1ffffe640001; 0x200001a00001; 0x1ffffe520001; 0x200001e80001; 0x1ffffe0c0001; 0x1ffffdee0001; 0x200002480001;
     0x1ffffdb60001; 0x200002560001]
    [0x80000000440001; 0x7fffffffba0001; 0x80000000500001; 0x7fffffffaa0001]
    [] 0.
(** ckks/params.go:114-123 [PN12QP109CI]. *)
Definition ckks_PN12QP109CI : pset := mkSet 12 109 12 32 ConjugateInvariant
    [0x1ffffe0001; 0x100014001]
    [0x4000038001]
    [] 0.
(** ckks/params.go:126-139 [PN13QP218CI]. *)
Definition ckks_PN13QP218CI : pset := mkSet 13 218 13 30 ConjugateInvariant
    [0x200038001; 0x3ffe8001; 0x40020001; 0x40038001; 0x3ffc0001; 0x40080001]
    [0x800008001]
    [] 0.
(** ckks/params.go:141-153 [PN14QP438CI]. *)
Definition ckks_PN14QP438CI : pset := mkSet 14 438 14 34 ConjugateInvariant
    [0x2000000a0001; 0x3fffd0001; 0x400060001; 0x3fff90001; 0x400080001; 0x400180001; 0x3ffd20001; 0x400300001;
     0x400360001; 0x4003e0001]
    [0x80000050001; 0x7ffffdb0001]
    [] 0.
(** ckks/params.go:156-170 [PN15QP880CI]. *)
Definition ckks_PN15QP880CI : pset := mkSet 15 880 15 40 ConjugateInvariant
    [0x4000000120001; 0x10000140001; 0xffffe80001; 0xffffc40001; 0x100003e0001; 0xffffb20001; 0x10000500001; 0xffff940001;
     0xffff8a0001; 0xffff820001; 0xffff780001; 0x10000960001; 0x10000a40001; 0xffff580001; 0x10000b60001; 0xffff480001;
     0xffff420001; 0xffff340001]
    [0x3ffffffd20001; 0x4000000420001; 0x3ffffffb80001]
    [] 0.
(** ckks/params.go:172-189 [PN16QP1761CI]. *)
Definition ckks_PN16QP1761CI : pset := mkSet 16 1761 16 45 ConjugateInvariant
    [0x80000000080001; 0x200000440001; 0x200000500001; 0x1fffff980001; 0x200000c80001; 0x1ffffeb40001; 0x1ffffe640001; 0x200001a00001;
     0x200001e80001; 0x1ffffe0c0001; 0x200002480001; 0x200002800001; 0x1ffffd800001; 0x200002900001; 0x1ffffd700001; 0x2000029c0001;
     0x1ffffcf00001; 0x200003140001; 0x1ffffcc80001; 0x1ffffcb40001; 0x1ffffc980001; 0x200003740001; 0x200003800001; 0x200003d40001;
     0x1ffffc200001; 0x1ffffc140001; 0x200004100001; 0x200004180001; 0x1ffffbc40001; 0x200004700001; 0x1ffffb900001; 0x200004cc0001;
     0x1ffffb240001; 0x200004e80001]
    [0x80000000440001; 0x80000000500001; 0x7fffffff380001; 0x80000000e00001]
    [] 0.
(** ckks/params.go:192-200 [PN12QP101pq]. *)
Definition ckks_PN12QP101pq : pset := mkSet 12 101 11 30 Standard
    [0x800004001; 0x40002001]
    [0x1000002001]
    [] 0.
(** ckks/params.go:202-210 [PN13QP202pq]. *)
Definition ckks_PN13QP202pq : pset := mkSet 13 202 12 27 Standard
    [0x1fffec001; 0x8008001; 0x8020001; 0x802c001; 0x7fa8001; 0x7f74001]
    [0x400018001]
    [] 0.
(** ckks/params.go:213-223 [PN14QP411pq]. *)
Definition ckks_PN14QP411pq : pset := mkSet 14 411 13 33 Standard
    [0x10000048001; 0x200038001; 0x1fff90001; 0x200080001; 0x1fff60001; 0x2000b8001; 0x200100001; 0x1fff00001;
     0x1ffef0001; 0x200128001]
    [0x1ffffe0001; 0x1ffffc0001]
    [] 0.
(** ckks/params.go:226-237 [PN15QP827pq]. *)
Definition ckks_PN15QP827pq : pset := mkSet 15 827 14 38 Standard
    [0x400000060001; 0x4000170001; 0x3fffe80001; 0x40002f0001; 0x4000300001; 0x3fffcf0001; 0x40003f0001; 0x3fffc10001;
     0x4000450001; 0x3fffb80001; 0x3fffb70001; 0x40004a0001; 0x3fffb20001; 0x4000510001; 0x3fffaf0001; 0x4000540001;
     0x4000560001; 0x4000590001]
    [0x2000000a0001; 0x2000000e0001; 0x2000001d0001]
    [] 0.
(** ckks/params.go:239-252 [PN16QP1654pq]. *)
Definition ckks_PN16QP1654pq : pset := mkSet 16 1654 15 45 Standard
    [0x80000000080001; 0x2000000a0001; 0x2000000e0001; 0x1fffffc20001; 0x200000440001; 0x200000500001; 0x200000620001; 0x1fffff980001;
     0x2000006a0001; 0x1fffff7e0001; 0x200000860001; 0x200000a60001; 0x200000aa0001; 0x200000b20001; 0x200000c80001; 0x1fffff360001;
     0x200000e20001; 0x1fffff060001; 0x200000fe0001; 0x1ffffede0001; 0x1ffffeca0001; 0x1ffffeb40001; 0x200001520001; 0x1ffffe760001;
     0x2000019a0001; 0x1ffffe640001; 0x200001a00001; 0x1ffffe520001; 0x200001e80001; 0x1ffffe0c0001; 0x1ffffdee0001; 0x200002480001]
    [0x7fffffffe0001; 0x80000001c0001; 0x80000002c0001; 0x7ffffffd20001]
    [] 0.
(** ckks/params.go:255-263 [PN12QP101CIpq]. *)
Definition ckks_PN12QP101CIpq : pset := mkSet 12 101 12 30 ConjugateInvariant
    [0x800004001; 0x3fff4001]
    [0xffffc4001]
    [] 0.
(** ckks/params.go:265-273 [PN13QP202CIpq]. *)
Definition ckks_PN13QP202CIpq : pset := mkSet 13 202 13 32 ConjugateInvariant
    [0x1ffffe0001; 0x100050001; 0xfff88001; 0x100098001; 0x1000b0001]
    [0x1ffffc0001]
    [] 0.
(** ckks/params.go:276-288 [PN14QP411CIpq]. *)
Definition ckks_PN14QP411CIpq : pset := mkSet 14 411 14 33 ConjugateInvariant
    [0x10000140001; 0x1fff90001; 0x200080001; 0x1fff60001; 0x200100001; 0x1fff00001; 0x1ffef0001; 0x1ffe60001;
     0x2001d0001; 0x2002e0001]
    [0x1ffffe0001; 0x1ffffc0001]
    [] 0.
(** ckks/params.go:291-303 [PN15QP827CIpq]. *)
Definition ckks_PN15QP827CIpq : pset := mkSet 15 827 15 38 ConjugateInvariant
    [0x400000060001; 0x3fffe80001; 0x4000300001; 0x3fffb80001; 0x40004a0001; 0x3fffb20001; 0x4000540001; 0x4000560001;
     0x3fff900001; 0x4000720001; 0x3fff8e0001; 0x4000800001; 0x40008a0001; 0x3fff6c0001; 0x40009e0001; 0x3fff300001;
     0x3fff1c0001; 0x4000fc0001]
    [0x2000000a0001; 0x2000000e0001; 0x1fffffc20001]
    [] 0.
(** ckks/params.go:305-319 [PN16QP1654CIpq]. *)
Definition ckks_PN16QP1654CIpq : pset := mkSet 16 1654 16 45 ConjugateInvariant
    [0x80000000080001; 0x200000440001; 0x200000500001; 0x1fffff980001; 0x200000c80001; 0x1ffffeb40001; 0x1ffffe640001; 0x200001a00001;
     0x200001e80001; 0x1ffffe0c0001; 0x200002480001; 0x200002800001; 0x1ffffd800001; 0x200002900001; 0x1ffffd700001; 0x2000029c0001;
     0x1ffffcf00001; 0x200003140001; 0x1ffffcc80001; 0x1ffffcb40001; 0x1ffffc980001; 0x200003740001; 0x200003800001; 0x200003d40001;
     0x1ffffc200001; 0x1ffffc140001; 0x200004100001; 0x200004180001; 0x1ffffbc40001; 0x200004700001; 0x1ffffb900001; 0x200004cc0001]
    [0x80000001c0001; 0x80000002c0001; 0x8000000500001; 0x7ffffff9c0001]
    [] 0.
(** fckks/fckks_test.go:18-49 [PN15QP870]. *)
Definition fckks_PN15QP870 : pset := mkSet 15 870 14 36 Standard
    [0xffff00001; 0xfff9c0001; 0xfff8e0001; 0xfff840001; 0xfff700001; 0xfff640001; 0xfff4c0001; 0xfff3c0001;
     0xfff280001; 0xfff100001; 0xffefe0001; 0xffee80001; 0x10004a0001; 0x1000500001; 0x1000960001; 0x1000a20001;
     0x1000b40001; 0x1000f60001; 0x10011a0001; 0x1001220001; 0x10014c0001; 0x1001680001; 0x10017c0001]
    [0x1002700001]
    [0xffffffffffc0001; 0xfffffffff840001; 0xfffffffff6a0001] 3.
(** fckks/fckks_test.go:51-87, also profile/new/main.go:16-52 [PN16QP1760]. *)
Definition fckks_PN16QP1760 : pset := mkSet 16 1760 15 36 Standard
    [0xffff00001; 0xfff9c0001; 0xfff8e0001; 0xfff840001; 0xfff700001; 0xfff640001; 0xfff4c0001; 0xfff3c0001;
     0xfff280001; 0xfff100001; 0xffefe0001; 0xffee80001; 0x10004a0001; 0x1000500001; 0x1000960001; 0x1000a20001;
     0x1000b40001; 0x1000f60001; 0x10011a0001; 0x1001220001; 0x10014c0001; 0x1001680001; 0x10017c0001; 0x1001880001;
     0xffee20001; 0xffeda0001; 0xffeca0001; 0xffea40001; 0xffe940001; 0xffe920001; 0xffe760001; 0xffe040001;
     0xffdf80001; 0xffdf00001; 0xffdd20001; 0xffdbc0001; 0x1001940001; 0x1001a40001; 0x1001d00001; 0x1001fa0001;
     0x1002180001; 0x10021c0001; 0x10021e0001; 0x1002300001; 0x1002340001; 0x1002480001; 0x1002540001]
    [0x1002700001]
    [0xffffffffffc0001; 0xfffffffff840001; 0xfffffffff6a0001; 0xfffffffff5a0001] 5.
(** frlwe/fksw_test.go:17-40 [PN15QP880]. *)
Definition frlwe_PN15QP880 : pset := mkSet 15 880 0 0 Standard
    [0x1fffffcf0001; 0x1fffffc20001; 0x1fffffbf0001; 0x1fffffb10001; 0x1fffff980001; 0x1fffff950001; 0x1fffff7e0001; 0x1fffff750001;
     0x1fffff690001; 0x1fffff630001; 0x1fffff360001; 0x1fffff1b0001; 0x1fffff060001; 0x1ffffefd0001; 0x1ffffef30001; 0x1ffffede0001;
     0x1ffffeca0001; 0x1ffffec30001]
    [0x3ffffffd20001; 0x3ffffffb80001]
    [0x7fffffffba0001; 0x7fffffffaa0001; 0x7fffffff7e0001; 0x7fffffff380001] 2.

(** The default parameter sets of ckks. *)
Definition ckks_sets : list pset :=
  [ckks_PN12QP109; ckks_PN13QP218; ckks_PN14QP438; ckks_PN15QP880; ckks_PN16QP1761; ckks_PN12QP109CI; ckks_PN13QP218CI; ckks_PN14QP438CI; ckks_PN15QP880CI; ckks_PN16QP1761CI; 
   ckks_PN12QP101pq; ckks_PN13QP202pq; ckks_PN14QP411pq; ckks_PN15QP827pq; ckks_PN16QP1654pq; ckks_PN12QP101CIpq; ckks_PN13QP202CIpq; ckks_PN14QP411CIpq; ckks_PN15QP827CIpq; ckks_PN16QP1654CIpq].
(** The parameter sets used with the fast key switching. *)
Definition fast_sets : list pset := [fckks_PN15QP870; fckks_PN16QP1760; frlwe_PN15QP880].

(** The literals: ckks/params.go:338-349 and fckks/params.go:9-21 [ParametersLiteral]. *)
Definition rlwe_literal (s : pset) : Literal := mkLit (Z.of_nat (sLogN s)) (Some (sQ s)) (Some (sP s)) None None DefaultSigma 0 (sType s).
Definition ckks_literal (s : pset) : CkksLiteral := mkCkksLit (rlwe_literal s) (sLogSlots s) (f64_of_Z (2 ^ sLogScale s)).
Definition fast_literal (s : pset) : FLiteral := mkFLit (rlwe_literal s) (sT s) (sGamma s).

(** For each modulus q the exponent of 2 in q - 1 and a quadratic nonresidue. *)
Definition pub_certs : list (Z * nat * Z) :=
  [(0x7f74001, 14%nat, 19); (0x7fa8001, 15%nat, 3); (0x8008001, 15%nat, 3); (0x8020001, 17%nat, 3); (0x802c001, 14%nat, 3);
   (0x3ffc0001, 18%nat, 11); (0x3ffe8001, 15%nat, 3); (0x3fff4001, 14%nat, 3); (0x40002001, 13%nat, 5); (0x40020001, 17%nat, 5);
   (0x40038001, 15%nat, 11); (0x40080001, 19%nat, 5); (0xfff88001, 15%nat, 3); (0x100006001, 13%nat, 3); (0x100014001, 14%nat, 5);
   (0x100050001, 16%nat, 5); (0x100098001, 15%nat, 7); (0x1000b0001, 16%nat, 5); (0x1ffe60001, 17%nat, 5); (0x1ffef0001, 16%nat, 7);
   (0x1fff00001, 20%nat, 3); (0x1fff60001, 17%nat, 3); (0x1fff90001, 16%nat, 3); (0x1fffec001, 14%nat, 5); (0x200038001, 15%nat, 3);
   (0x200080001, 19%nat, 3); (0x2000b8001, 15%nat, 5); (0x200100001, 20%nat, 7); (0x200128001, 15%nat, 3); (0x2001d0001, 16%nat, 3);
   (0x2002e0001, 17%nat, 7); (0x3ffd20001, 17%nat, 11); (0x3ffeb8001, 15%nat, 5); (0x3fff90001, 16%nat, 5); (0x3fffd0001, 16%nat, 3);
   (0x400018001, 15%nat, 3); (0x400060001, 17%nat, 3); (0x400068001, 15%nat, 13); (0x400080001, 19%nat, 5); (0x4000a8001, 15%nat, 3);
   (0x400108001, 15%nat, 3); (0x400180001, 19%nat, 3); (0x400300001, 20%nat, 3); (0x400360001, 17%nat, 3); (0x4003e0001, 17%nat, 5);
   (0x800004001, 14%nat, 5); (0x800008001, 15%nat, 3); (0xffdbc0001, 18%nat, 5); (0xffdd20001, 17%nat, 3); (0xffdf00001, 20%nat, 3);
   (0xffdf80001, 19%nat, 5); (0xffe040001, 18%nat, 19); (0xffe760001, 17%nat, 5); (0xffe920001, 17%nat, 3); (0xffe940001, 18%nat, 5);
   (0xffea40001, 18%nat, 3); (0xffeca0001, 17%nat, 5); (0xffeda0001, 17%nat, 3); (0xffee20001, 17%nat, 11); (0xffee80001, 19%nat, 5);
   (0xffefe0001, 17%nat, 3); (0xfff100001, 20%nat, 3); (0xfff280001, 19%nat, 3); (0xfff3c0001, 18%nat, 11); (0xfff4c0001, 18%nat, 3);
   (0xfff640001, 18%nat, 3); (0xfff700001, 20%nat, 3); (0xfff840001, 18%nat, 5); (0xfff8e0001, 17%nat, 3); (0xfff9c0001, 18%nat, 5);
   (0xffff00001, 20%nat, 7); (0xffffc4001, 14%nat, 3); (0x1000002001, 13%nat, 11); (0x10004a0001, 17%nat, 7); (0x1000500001, 20%nat, 5);
   (0x1000960001, 17%nat, 3); (0x1000a20001, 17%nat, 3); (0x1000b40001, 18%nat, 3); (0x1000f60001, 17%nat, 3); (0x10011a0001, 17%nat, 3);
   (0x1001220001, 17%nat, 5); (0x10014c0001, 18%nat, 11); (0x1001680001, 19%nat, 3); (0x10017c0001, 18%nat, 5); (0x1001880001, 19%nat, 11);
   (0x1001940001, 18%nat, 7); (0x1001a40001, 18%nat, 3); (0x1001d00001, 20%nat, 7); (0x1001fa0001, 17%nat, 5); (0x1002180001, 19%nat, 5);
   (0x10021c0001, 18%nat, 3); (0x10021e0001, 17%nat, 19); (0x1002300001, 20%nat, 5); (0x1002340001, 18%nat, 3); (0x1002480001, 19%nat, 11);
   (0x1002540001, 18%nat, 5); (0x1002700001, 20%nat, 3); (0x1ffffc0001, 18%nat, 3); (0x1ffffe0001, 17%nat, 7); (0x200000e001, 13%nat, 3);
   (0x3fff1c0001, 18%nat, 3); (0x3fff300001, 20%nat, 5); (0x3fff6c0001, 18%nat, 5); (0x3fff8e0001, 17%nat, 3); (0x3fff900001, 20%nat, 5);
   (0x3fffaf0001, 16%nat, 3); (0x3fffb20001, 17%nat, 3); (0x3fffb70001, 16%nat, 5); (0x3fffb80001, 19%nat, 3); (0x3fffc10001, 16%nat, 3);
   (0x3fffcf0001, 16%nat, 7); (0x3fffe80001, 19%nat, 3); (0x3ffffea001, 13%nat, 5); (0x4000038001, 15%nat, 7); (0x4000170001, 16%nat, 5);
   (0x40002f0001, 16%nat, 5); (0x4000300001, 20%nat, 3); (0x40003f0001, 16%nat, 3); (0x4000450001, 16%nat, 3); (0x40004a0001, 17%nat, 7);
   (0x4000510001, 16%nat, 3); (0x4000540001, 18%nat, 3); (0x4000560001, 17%nat, 11); (0x4000590001, 16%nat, 11); (0x4000720001, 17%nat, 3);
   (0x4000800001, 23%nat, 5); (0x40008a0001, 17%nat, 3); (0x40009e0001, 17%nat, 5); (0x4000fc0001, 18%nat, 3); (0xffff340001, 18%nat, 3);
   (0xffff420001, 17%nat, 5); (0xffff480001, 19%nat, 5); (0xffff580001, 19%nat, 3); (0xffff750001, 16%nat, 5); (0xffff780001, 19%nat, 11);
   (0xffff820001, 17%nat, 3); (0xffff8a0001, 17%nat, 7); (0xffff940001, 18%nat, 3); (0xffffb20001, 17%nat, 3); (0xffffc40001, 18%nat, 3);
   (0xffffe80001, 19%nat, 3); (0x10000048001, 15%nat, 3); (0x10000140001, 18%nat, 5); (0x10000290001, 16%nat, 5); (0x100003e0001, 17%nat, 11);
   (0x10000470001, 16%nat, 5); (0x100004b0001, 16%nat, 3); (0x10000500001, 20%nat, 5); (0x10000650001, 16%nat, 5); (0x10000890001, 16%nat, 17);
   (0x10000960001, 17%nat, 3); (0x10000a40001, 18%nat, 13); (0x10000b60001, 17%nat, 7); (0x7ffffdb0001, 16%nat, 3); (0x7fffffc8001, 15%nat, 5);
   (0x7fffffd8001, 15%nat, 3); (0x80000050001, 16%nat, 3); (0x1ffffb240001, 18%nat, 7); (0x1ffffb900001, 20%nat, 5); (0x1ffffbc40001, 18%nat, 3);
   (0x1ffffc140001, 18%nat, 7); (0x1ffffc200001, 21%nat, 7); (0x1ffffc980001, 19%nat, 11); (0x1ffffcb40001, 18%nat, 3); (0x1ffffcc80001, 19%nat, 7);
   (0x1ffffcf00001, 20%nat, 3); (0x1ffffd700001, 20%nat, 5); (0x1ffffd800001, 23%nat, 3); (0x1ffffdb60001, 17%nat, 3); (0x1ffffdee0001, 17%nat, 5);
   (0x1ffffe0c0001, 18%nat, 5); (0x1ffffe520001, 17%nat, 3); (0x1ffffe640001, 18%nat, 3); (0x1ffffe760001, 17%nat, 3); (0x1ffffeb40001, 18%nat, 7);
   (0x1ffffec30001, 16%nat, 7); (0x1ffffeca0001, 17%nat, 3); (0x1ffffede0001, 17%nat, 5); (0x1ffffef30001, 16%nat, 7); (0x1ffffefd0001, 16%nat, 3);
   (0x1fffff060001, 17%nat, 3); (0x1fffff1b0001, 16%nat, 3); (0x1fffff360001, 17%nat, 3); (0x1fffff630001, 16%nat, 3); (0x1fffff690001, 16%nat, 3);
   (0x1fffff750001, 16%nat, 3); (0x1fffff7e0001, 17%nat, 3); (0x1fffff950001, 16%nat, 7); (0x1fffff980001, 19%nat, 11); (0x1fffffb10001, 16%nat, 3);
   (0x1fffffbf0001, 16%nat, 5); (0x1fffffc20001, 17%nat, 13); (0x1fffffcf0001, 16%nat, 3); (0x200000008001, 15%nat, 3); (0x2000000a0001, 17%nat, 5);
   (0x2000000e0001, 17%nat, 3); (0x2000001d0001, 16%nat, 3); (0x200000440001, 18%nat, 3); (0x200000500001, 20%nat, 3); (0x200000620001, 17%nat, 3);
   (0x2000006a0001, 17%nat, 11); (0x200000860001, 17%nat, 3); (0x200000a60001, 17%nat, 7); (0x200000aa0001, 17%nat, 3); (0x200000b20001, 17%nat, 11);
   (0x200000c80001, 19%nat, 3); (0x200000e20001, 17%nat, 7); (0x200000fe0001, 17%nat, 3); (0x200001520001, 17%nat, 3); (0x2000019a0001, 17%nat, 3);
   (0x200001a00001, 21%nat, 3); (0x200001e80001, 19%nat, 3); (0x200002480001, 19%nat, 3); (0x200002560001, 17%nat, 13); (0x200002800001, 23%nat, 5);
   (0x200002900001, 20%nat, 3); (0x2000029c0001, 18%nat, 3); (0x200003140001, 18%nat, 3); (0x200003740001, 18%nat, 3); (0x200003800001, 23%nat, 3);
   (0x200003d40001, 18%nat, 3); (0x200004100001, 20%nat, 3); (0x200004180001, 19%nat, 7); (0x200004700001, 20%nat, 3); (0x200004cc0001, 18%nat, 11);
   (0x200004e80001, 19%nat, 3); (0x400000060001, 17%nat, 3); (0x3ffffffb80001, 19%nat, 3); (0x3ffffffd20001, 17%nat, 11); (0x3ffffffdf0001, 16%nat, 3);
   (0x4000000120001, 17%nat, 3); (0x40000001b0001, 16%nat, 3); (0x4000000270001, 16%nat, 3); (0x4000000420001, 17%nat, 3); (0x7ffffff9c0001, 18%nat, 3);
   (0x7ffffffd20001, 17%nat, 3); (0x7fffffffe0001, 17%nat, 5); (0x80000001c0001, 18%nat, 5); (0x80000002c0001, 18%nat, 3); (0x8000000500001, 20%nat, 3);
   (0x7fffffff380001, 19%nat, 17); (0x7fffffff7e0001, 17%nat, 3); (0x7fffffffaa0001, 17%nat, 5); (0x7fffffffba0001, 17%nat, 3); (0x80000000080001, 19%nat, 3);
   (0x80000000440001, 18%nat, 3); (0x80000000500001, 20%nat, 3); (0x80000000e00001, 21%nat, 3); (0xfffffffff5a0001, 17%nat, 7); (0xfffffffff6a0001, 17%nat, 3);
   (0xfffffffff840001, 18%nat, 5); (0xffffffffffc0001, 18%nat, 5)].
