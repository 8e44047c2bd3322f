# Formal model of SNUCP/fast-ksw in Coq 8.16.1 — design

## 1. Shape of the development

* A Go `uint64` is a `Z` in `[0, 2^64)`.  Every operation that can wrap applies
  `mod 2^64` explicitly (Word.v).  `bits.Mul64`/`bits.Add64` are quotient and
  remainder by `2^64`.  A Go `int` is a `Z` or, for lengths and indices, a `nat`.
* A Go slice is a `list`; a polynomial is a `list (list Z)`, one row per RNS modulus.
  The rows a function does not write are part of the statements (`kept level old new`).
* In-place updates become functions that return the new value.  Where aliasing of
  arguments matters there is one definition for the aliased call and one for the
  other.  Scratch polynomials whose previous content can be seen are arguments.
* Panics and returned errors are values (`None`, or the constructors `Ret`, `Fail`,
  `Panic`).  A loop without a bound has fuel, and running out of it is a value that the
  theorems exclude or allow in so many words.
* `float64` arithmetic is Flocq's IEEE-754 binary64, round to nearest even.
* A random generator is an arbitrary infinite stream of bytes: a theorem for all
  streams is a theorem for all random choices.  What samplers produce enters the
  key generation and encryption theorems as arbitrary polynomials of the stated shape.

| Layer (files under `rocq/theories`) | Content |
|---|---|
| Word, ModRed, SmallPrimes, Ring, NTT, RingOps, Float64, BasisExt, Scaling, Automorphism, Gadget, Frlwe, Rlwe, Ckks, Fckks, Codec, Params, Utils, Sampler, Gauss, Primes, ... | the model: executable transcriptions; each definition cites file and lines |
| `*Spec.v` | the vocabulary of the statements, independent of the model: residues, the ring Z[X]/(X^N+1), representation of integer polynomials by rows, gadget keys, byte formats, ... |
| `*Proofs.v`, `*Props.v`, `*Top.v`, ... | lemmas |
| `*Ex.v`, Examples.v, Pocklington.v | concrete objects for examples and counterexamples; certified large primes |
| `P_*.v` | the property theorems, each closed by `exact` (counterexamples: by a witness), with `Print Assumptions`, and `Example`s showing that the hypotheses are met |

The hypothesis `built_ring c r` of many theorems says that `r` is what the constructor
`NewRing` returned for some degree and moduli, with `c*q <= 2^64` for every modulus; nothing
else about the tables of the ring is assumed.  A theorem whose name ends in `_refuted`
exhibits a case in which the code does not do what its documentation or the wording of
the property would promise; the statement of the property in `properties.jsonl` says so.

## 2. Per property: what is modelled, how it is proved

| Id | Model | Proof |
|---|---|---|
| C01 Montgomery products are exact | ModRed.v: `MRed`, `MRedConstant` | arithmetic over Z: the value of the high words and of the borrow; uniqueness because 2^64 is invertible modulo q |
| C02 The Montgomery constant inverts every odd modulus | ModRed.v: `MRedParams` (63 squarings) | invariant of the loop: after i rounds the product is 1 modulo a growing power of two |
| C03 Barrett reduction and multiplication are exact | ModRed.v: `BRed*`, the carry chain word by word | error of the truncated quotient bounded by one q |
| C04 Switching to the Montgomery domain and back is the identity | ModRed.v: `MForm*`, `InvMForm*` | from C01 and C03 |
| C05 Modular exponentiation and inversion | ModRed.v: `ModExp`, `ModexpMontgomery`, `PowerOf2` | induction on the bits of the exponent; Fermat's little theorem proved in Fermat.v |
| C06 The forward NTT evaluates the polynomial at the odd powers of psi | Ring.v (`NewRing`: primitive roots, tables), NTT.v (`NTTLazy` round by round), RingOps.v | invariant: block k of round m is the polynomial modulo X^(N/m) - zeta; the tables are proved to hold the powers of psi; primitive roots exist (PrimRoot.v) |
| C07 NTT and InvNTT are mutually inverse | NTT.v: `invNTTCore` | the rounds of the inverse undo those of the forward transform |
| C08 Coefficient-wise products in the NTT domain are products in Z_q[X]/(X^N+1) | NTT.v, RingOps.v | C06 and evaluation of a product at the roots of X^N+1 |
| C09 Lazy transforms never overflow and have a known output range | NTT.v | range invariant of the butterflies, no wrap-around |
| C10 RNS basis extension is correct up to one multiple of the source modulus | BasisExt.v: `basisextenderparameters`, `reconstructRNS` (binary64 sum), `multSum` | CRT identity; the float64 sum is within 2^-43 of the real sum (FloatProofs.v, Flocq), so its truncation is off by at most one |
| C11 RNS basis extension is exact away from the boundary | as C10 | the same error bound |
| C12 Range of basis-extension outputs | BasisExt.v: `multSum` | bound of the three-word accumulation |
| C13 Dividing by the special modulus is flooring up to one unit | BasisExt.v: `genModDownParams`, `ModDownQPtoQ`, `ModDownQPtoQNTT` | C10 and exact division in each row |
| C14 Dividing by the ciphertext modulus uses the right constant only at equal levels | BasisExt.v: `ModDownQPtoP` | C10; counterexample by evaluation |
| C15 Rescaling divides exactly | Scaling.v: the eight `Div*ByLastModulus*` | residue by residue; induction on the number of moduli dropped |
| C16 Reconstruction to big integers is CRT | Scaling.v: `PolyToBigint*`, `SetCoefficients*` | CRT.v (uniqueness for distinct primes) |
| C17 Coefficient-domain automorphism | Automorphism.v: `Permute` | the action on the monomials; ring laws of PolyProofs.v |
| C18 NTT-domain automorphism | Automorphism.v: `PermuteNTTIndex`, `PermuteNTTWithIndexLvl` | C06 and arithmetic of bit reversal |
| C19 Rotation Galois elements form a group | Automorphism.v: `GaloisElement*`, `InverseGaloisElement`, `GenGaloisParams` | order of 5 modulo 2^k by induction |
| C20 Polynomial serialization round-trips | Codec.v: ring/ring_poly.go | induction on rows and coefficients; the decoder on arbitrary bytes |
| C21 Ciphertext and key serialization round-trips | Codec.v: rlwe/marshaler.go, rlwe/ring_qp.go, ckks/ciphertext.go | composition of C20; the map of rotation keys as a list in any order |
| C22 Parameter serialization | Params.v: rlwe/params.go, ckks/params.go, utils/buffer.go | byte-level; primality of accepted moduli from `CheckModuli` |
| C23 Uniform sampling stays in range and is a function of the stream | Sampler.v: `UniformSampler`, `RandUniform` | invariant relating the buffer to the position in the stream |
| C24 Fixed-weight ternary secrets have exactly the requested weight | Sampler.v: `sampleSparse` | the free positions stay a permutation of the unwritten ones; soundness and completeness for the list of choices |
| C25 Gaussian samples are bounded and consistent across rows | Gauss.v: ring/ring_sampler_gaussian.go with its three tables | invariant of the buffer; binary64 reasoning for the bound; flipping the sign bit commutes with every step |
| C26 Keyed PRNG reads are seekable and deterministic | Sampler.v: utils/prng.go | induction over histories of operations |
| C27 Utility predicates decide what they are named after | Utils.v, Ring.v | structural induction |
| C28 Generated NTT primes are distinct and NTT friendly | Primes.v: ring/primes.go (fuel; `IsPrime` as in Ring.v) | the loop enumerates the candidates in order of distance |
| C29 Decryption evaluates the ciphertext at the secret | Rlwe.v: `Decrypt` | Horner loop invariant with the range of the lazy accumulator |
| C30 Encryption then decryption returns the message plus the fresh noise | Rlwe.v: rlwe/encryptor.go | C08, C13, C29 |
| C31 Switching keys encrypt the scaled source secret | Rlwe.v: rlwe/keygen.go | C08; induction on the degree for relinearization keys |
| C32 Reference key switching is correct | Rlwe.v: rlwe/keyswitch.go | C33, C50, C13 and the algebra of GadgetProofs.v |
| C33 Lazy accumulation in key switching does not overflow | Gadget.v: the accumulation loop and the margin in binary64 | invariant on the partial sums; it holds for every number of digits, so there is no counterexample |
| C34 The fast external product computes the gadget product exactly before the final division | Frlwe.v: frlwe/keyswitch.go | C33 modulo T, exact lift from T, C13 |
| C35 Fast key switching is correct | Frlwe.v | C34, C36, GadgetProofs.v |
| C36 The auxiliary-modulus form of a key represents the same key | Frlwe.v: frlwe/keygen.go | C10 per block |
| C37 Homomorphic multiplication with fast relinearization decrypts to the product | Fckks.v: `MulRelin` | C35, C55 |
| C38 Homomorphic rotation with fast keys decrypts to the rotated plaintext | Fckks.v: `Rotate`, `RotateNew` | C18, C35 |
| C39 Key switching of a CKKS ciphertext through the fast evaluator | Fckks.v: `SwitchKeys` | evaluation of the flags |
| C40 Message decryption must not depend on the decryptor's history | Fckks.v: the decryptor with its pool as state | induction over the history; counterexample by evaluation |
| C41 Multiply-and-add | Ckks.v: `mulRelinAndAdd` | ring identities; counterexample by evaluation |
| C42 Addition and subtraction of ciphertexts | Ckks.v: `Add`, `Sub`, `evaluateInPlace` | component by component, all degrees and levels |
| C43 Scalar operations write their destination | RingOps.v: the four scalar additions | residues; counterexample by evaluation |
| C44 Coefficient-wise ring operations agree with modular arithmetic | RingOps.v: ring_operations.go, ring_vector_ops.go | C01-C04 word by word |
| C45 Multiplication by a monomial | RingOps.v: `MultByMonomial` | the negacyclic shift |
| C46 Accepted moduli are usable | Params.v, Ring.v | what `NewRing` accepts is characterized; counterexamples with certified primes (Pocklington.v) |
| C47 Integer rounded division | Scaling.v: `DivRound` | arithmetic |
| C48 Level bookkeeping of rescaling | Ckks.v: `Rescale` with its float64 loop | loop invariant over the float64 scale; C15 |
| C49 Small-norm basis extension | Rlwe.v: `ExtendBasisSmallNormAndCenter` | case split on the sign |
| C50 Digit decomposition | BasisExt.v: `DecomposeAndSplit` | C10, CRT |
| C51 Multiplication by a power of two | RingOps.v: `MulByPow2*` | C05; counterexample by evaluation |
| C52 Polynomial equality | Scaling.v: `EqualLvl` | CRT |
| C53 Scaling by t/Q | Scaling.v: `RNSScaler`, `SimpleScaler` | C10, C47; the pool is explicit state |
| C54 Constants, imaginary unit and negation | Ckks.v: `MultByConst`, `MultByi`, `DivByi`, `Neg` | binary64 rounding of the constant (CkksFloat.v) and the two halves of a row as multiplication by X^(N/2) |
| C55 Product of ciphertexts | Ckks.v: `mulRelin` | C08, C32 |
| C56 Relinearized products as operands | Ckks.v | range analysis of relinearized products; counterexamples by evaluation |
| C57 Relinearization | Ckks.v: `Relinearize` | C32 |
| C58 Key switching, rotation and conjugation of ciphertexts | Ckks.v: `SwitchKeys`, `Rotate`, `Conjugate` | C18, C32 |
| C59 Addition of a constant | Ckks.v: `AddConst` | C54 |
| C60 Rotation in place | Ckks.v: `permuteNTT` with ct0 == ctOut | counterexample by evaluation |
| C61 Ternary sampling with a probability | Sampler.v: `sampleProba`, `kysampling` | induction on the coefficients; the matrix of binary digits of p is computed in binary64 |
| C62 Moduli chains generated from bit sizes | Primes.v: `GenModuli` | C28 and the bookkeeping of the map of sizes |
| C63 Product with a constant added to a receiver | CkksMore.v: MultByConstAndAdd with the float64 case distinction on the scales | CkksMoreTop.v: const_and_add, over the constant products of C54 |
| C64 Products with Gaussian integers | CkksMore.v: MultByGaussianInteger(AndAdd), one case per Go type | CkksMoreProofs.v: the two halves of the NTT row are the values of a + bX^(N/2) |
| C65 Setting and raising the scale | CkksMore.v: SetScale, ScaleUp | CkksMoreTop.v: case analysis on the loop of Rescale; CkksMoreEx.v: the counterexample, computed |
| C66 Sums without reduction, reduction, dropped levels | CkksMore.v: AddNoMod, SubNoMod, Reduce, DropLevel | CkksNoMod.v, CkksMoreProofs.v: word bounds, then the sums of C54 |
| C67 Products with powers of two and with i to new ciphertexts | CkksMore.v: MulByPow2 in place and to a receiver, MultByiNew | CkksNoMod.v: over C51; CkksMoreEx.v: counterexamples, computed |
| C68 Hoisted rotation | Rlwe.v, CkksMore.v: DecomposeNTT, RotateHoisted | CkksNoMod.v: the hoisted digits equal those of the key switching (RlweGen.v), then C58 |
| C69 Coefficient encoding | Encoder.v: floatToFixedPointCRT, EncodeCoeffs, DecodeCoeffs, the big-integer reconstruction over the whole buffer | EncFloat.v: accuracy of the fixed-point words; EncCoeffs.v: CRT and centring; EncEx.v: the reused plaintext |
| C70 Transform of sparse plaintexts | Encoder.v: NttAndMontgomeryLvl | EncNtt.v: the NTT of X(Y^gap) repeats each value gap times, by the evaluation property of the NTT (C06) |
| C71 Special transforms | Fft.v: the transforms over any type of numbers | FftProofs.v: rounds and bit reversal; FftRing.v: decimation over a commutative ring; FftTop.v |
| C72 Slots | SlotSpec.v: slots | SlotProofs.v: evaluation at exp(i pi 5^k/N) is a ring homomorphism; the transform of the packed vector |
| C73 Slot encoding and decoding | Encoder.v: Embed, Encode, Decode with complex128 as pairs of float64; the table of roots is any table of given accuracy (`roots_near`) | EncFft.v: error of one round, induction over the rounds; EncSlots.v; EncEx.v: the refutations |
| C74 Slot round trip | as C73 | EncSlots.v: composition of the two halves; EncEx.v: accurate tables exist, the error is linear in the number of rounds |
| C75 Decryption to a message | Msg.v: DecryptToMsg with the pooled plaintext of the decryptor; messages: `carries`, MsgSpec.v | SlotMsg.v, SlotTrace.v: decoding takes an average of slots, so noise outside the sparse subring does not add up; MsgProofs.v |
| C76 Encryption of a message | Msg.v: EncryptMsg (encode into the pooled plaintext, encrypt) | MsgProofs.v: encoder of C73 and encryption of C31, noise bounded through the slots |
| C77 Evaluators act on messages | the evaluators of C37, C38, C42, C48, C55, C58 | MsgOps.v, MsgCkks.v: slots of sums, products and automorphisms (C72), float64 scales, noise |
| C78 Keys and encryptions from a generator | Draw.v: the samplers of C23-C25, C49, C50, C61 in front of the key generators and the encryptor; arbitrary byte streams, fuel for rejections | DrawProofs.v: what the samplers return is small and well shaped; then the theorems on keys; DrawFresh.v: every sampler depends only on the bytes it reads and advances the generator behind them |
| C79 Programs | Session.v: `run`, programs as lists of instructions; SessionSpec.v: meaning on vectors, analysis of levels, scales and errors | SessionProofs.v: induction over the program, one case for each instruction from C77 |
| C80 Sessions | Session.v: `session` from bytes to decoded values | SessionProofs.v: composition; SessionEx.v: a session that returns, accurate to 1/100 |
| C81 Construction of rings | Ring.v: `NewRing`, `getFactors`, `primitiveRoot`, the Pollard walk, with fuel; the table of small primes | RingTotal.v: the walk meets itself at the second step; existence of a primitive root; RingTotalEx.v: witness 2^5*13*17477*17491+1 |
| C82 Parameter literals and the published parameter sets | FParams.v: constructors of frlwe and fckks parameters; PubParams.v: the published sets as data, with certificates | PubTotal.v: acceptance from C81 for every admissible chain; Proth.v: primality from a certificate (q-1 = k*2^e, a^((q-1)/2) = -1, no divisors up to a bound); PubProofs.v: the conditions by evaluation of the sets |
| C83 Accuracy with a published parameter set | The session of C80 with the parameters of C82 | PubAcc.v: the analysis of C79 evaluated for the set with interval bounds of levels, scales and errors; AccSpec.v: what is needed of the environment |
| C84 Conjugate-invariant transforms | CI.v: the folded first and last rounds and the rounds between, on rows of words; CISpec.v: the polynomial a row stands for | CIProofs.v: invariant of the rounds with the factor tree of X^2N+1 (the sums of C06); CIProps.v: conjugation as an automorphism, closure of products |
| C85 Passing between conjugate-invariant and standard rings | CI.v: Unfold, Fold, Pad, StandardRing, ConjugateInvariantRing | CISwap.v: position 2N-1-k holds the inverse point (bit reversal of the complement); independence of the tables of the fuel |
| C86 Changing the degree of a ciphertext | Degree.v: MapSmallDimensionToLargerDimensionNTT, SwitchCiphertextRingDegreeNTT, SwitchCiphertextRingDegree | DegreeProofs.v, DegreeTop.v: the roots of the two rings are powers of one generator; products with polynomials in X^gap |
| C87 Switching keys between rings | Degree.v: GenSwitchingKey, GenSwitchingKeysForRingSwap | DegreeKeys.v: reduction to C31 and the embeddings of C85 and C86 |
| C88 Copies | Heap.v: memory of backing arrays and Poly values, Go slices with offset and capacity, make/copy/append; CopyNew, Copy, Shift, RotateUint64Slice, NewCiphertextAtLevelFromPoly | HeapProofs.v: a copy extends the memory and its rows lie on new arrays; changes below and above the boundary commute (induction over the changes); HeapTop.v, HeapEq.v |
| C89 Equality of polynomials and keys | Heap.v: Equals, Includes | HeapProofs.v, HeapEq.v: induction over rows, components and maps |
| C90 Shallow copies can be used concurrently | Memory of rows; calls as lists of reads and writes in the order of the loops (Conc.v); ShallowCopy allocates; interleavings as an inductive relation (ConcSpec.v) | footprints of the calls; isolation by induction on the interleaving; refinement of `Rlwe.Decrypt` and `Rlwe.skEncrypt` loop by loop |
| C91 Rotations without division by P | `PermuteNTTHoistedNoModDown`, `RotateHoistedNoModDownNew` (Lazy.v) on top of the key switching of Rlwe.v; the map of results as a list of entries | the phase modulo QP from the gadget identity, automorphisms applied to it, sums by induction on the list, one division by P |
| C92 Bit reversal, rotation of evaluations and export of a ring | `BitReverse`, `BitReverseInPlace`, `Rotate`, `MarshalBinary`, `UnmarshalBinary`, `Type_`, `ObjNTT` (RingUtil.v) | invariants of the loops, powers of the root in Montgomery form, values of X^n at the roots of X^N+1, determinism of the construction of rings |
| C93 Sets of rotation keys hold what was asked for, and the lists of rotations suffice for the sums they are made for | RotKeys.v: the map of keys, the loops that fill it, the lists of rotations with wrapping products; RotKeysSpec.v: sums of rotations, what can be computed with a list of rotations. | Induction on the list of Galois elements for the map; the group law of the Galois elements for sums of rotations; the binary digits of n for the logarithmic lists; composition with the theorems on genrotKey, Rotate and Add. |
| C94 Secret keys of every kind are of that kind, and everything also works without special moduli | KeyKinds.v: the four generators over the samplers of Sampler.v, Gauss.v and Draw.v, the branches of genSecretKeyFromSampler, GenPublicKey and Encrypt without special moduli, the self calls of frlwe/keygen.go; KeyKindsSpec.v: what a secret of each kind is. | The theorems on the samplers give a small integer polynomial behind the sampled rows; NTT, Montgomery form and the extension to P keep it; linearity of the NTT gives the relation of the public key and the noise of the encryption. |
| C95 Values of parameters, constants for dividing by P, and random elements are what they are said to be | ParamValues.v: the accessors over the parameters of Params.v, with big integers as Z and int shifts wrapping; the samplers of Sampler.v reading from one generator. | The products by induction on the chain; bit lengths from log2 and the accepted moduli (congruent to 1 modulo 2N or 4N, so above 2N); Fermat's little theorem and the correctness of Montgomery reduction for the constants; the theorems on the uniform sampler by induction on the degree. |
| C96 Encryption from a shared polynomial uses that polynomial, and encryptions of several parties add up | Crp.v on Draw.v, Rlwe.v and Ckks.v: CopyValues, EncryptFromCRP of both kinds of encryptors and the two functions of ckks, with the Gaussian sampler reading bytes. | skEncrypt's first polynomial is M + E - A s for every A the shared polynomial represents; the copies of rows give that A, sums and differences follow from the ring; for missing rows the values of A are 0. |

Nothing on the list is inexpressible in the model.

## 3. Disagreements between the code and its documentation or the natural expectation

Each is a theorem (`_refuted`, `_panics`, ...) with a concrete witness.

* C09: the lazy forward transform returns words up to 6q, not below 2q.
* C10, C12: basis extension can be off by the source modulus near the boundary; its words exceed 2p.
* C13: the division by P floors, where the comment says it rounds.
* C14: `ModDownQPtoP` takes the constant of the wrong level; it panics for some levels.
* C15: the one-step NTT floor is one too small on exact multiples; the coefficient version of the rounded division overwrites its input.
* C16: the centred reconstruction maps (Q-1)/2 to -(Q+1)/2.
* C17, C44, C49, C25: a zero can be stored as q (or p).
* C20: 256 moduli, a dirty buffer, a used target, 32-bit truncation and trailing bytes break round trips; short data panics.
* C21: keys without special moduli, truncated data, Galois elements above 2^32.
* C22: 11 to 19 bytes crash the decoder; JSON loses the ring type and defaults; equality ignores some fields; ckks slots are not checked on decoding.
* C26: equal clocks do not mean equal positions when block sizes differ.
* C27: slice equality compares a prefix only.
* C28: no prime below: the search wraps around zero; 2^logQ+1 is skipped.
* C29: decryption of coefficient-domain ciphertexts of degree 7 modulo 8 misses a reduction.
* C38: fckks `Rotate` does not set the scale of the receiver.
* C39: fckks `SwitchKeys` panics on every NTT-domain ciphertext.
* C40: the decryptor's pooled plaintext shrinks permanently.
* C41: `MulAndAdd` doubles one cross term instead of adding the other.
* C42: operands of degree three with different scales panic.
* C43: scalar additions write their source.
* C46: 62- and 63-bit moduli and primes shared by Q and P are accepted.
* C48: `Rescale` can index below level zero (panic).
* C51: `MulByPow2` with a separate destination lacks the Montgomery factor.
* C53: `SimpleScaler` returns t for t x/Q near t; `RNSScaler` depends on the previous call at lower levels.
* C54: integers from 2^52 on are not exact; stale rows in a receiver of higher level.
* C55, C56: stale third polynomial of a degree-two receiver; relinearized products are unreduced, and negation, subtraction and rescaling of them are wrong.
* C59, C60: `AddConst` into another receiver; rotation in place.
* C61: the ternary sampler with p = 1/3 has dependent neighbours, with p = 1 it never returns, with some p it panics.
* C62: moduli of different sizes can coincide, also between Q and P.
* C63: a receiver of smaller scale is raised by the integer part of the ratio only.
* C65: `SetScale` multiplies the message by q when the ratio is not an integer and the scale was below half of the new one; `ScaleUp` multiplies by scale, the comment says 2^scale.
* C67: `MulByPow2New` divides the message by 2^64; `MultByiNew` drops the third polynomial of a ciphertext of degree two.
* C68: hoisted rotations need a reduced second polynomial; C58 does not.
* C69: `EncodeCoeffs` does not clear the coefficients beyond the values: on a plaintext that was used before they keep old NTT words.
* C73: `Encode` does not mark the plaintext as in the NTT domain, the documentation says it always is; at degree 16 with 8 slots the unrolled transforms access 16 entries of a buffer of 8.
* C81: Pollard's rho swaps its two points, so it never finds a factor; `getFactors` returns a composite cofactor as a prime, and `primitiveRoot` can return an element that does not generate the group (harmless for the transforms, which need order 2N only).
* C82: `frlwe.NewParametersFromLiteral` builds its rings from the fields `P` and `Q` of the literal; if the chains are given by `LogQ` and `LogP`, which `rlwe` accepts, these are nil and the constructor panics (also `fckks`).
* C84: `NTTConjugateInvariantLazy` documents outputs in [0, 2q-1]; they reach up to 8q.
* C85: the comments of `UnfoldConjugateInvariantToStandard` and `FoldStandardToConjugateInvariant` ask for a compressed polynomial of twice the degree of the standard one; both panic then. `PermuteNTTIndex` with g = 3 mod 4 in a conjugate-invariant ring gives indices outside the rows (a panic). `PadDefaultRingToConjuateInvariant` overwrites within the first half of its output and so loses half of the input.
* C86: `SwitchCiphertextRingDegreeNTT` from the larger degree to the smaller takes both of its row pointers from `ctIn`: the receiver is never written, the source is destroyed (the right words end in the first n words of its rows). `SwitchCiphertextRingDegree` to the larger degree writes only the words at the multiples of N/n, so a receiver that was used before gives another polynomial.
* C87: `GenSwitchingKeysForRingSwap` keeps the unfolded secret in `keygen.poolQP`, whose other rows are whatever the last call left when the conjugate-invariant secret has fewer rows than the parameters, and whose first row the second `GenSwitchingKey` uses as scratch when the standard secret has fewer rows. The theorem is about secrets with all rows.
* C88: `SwitchingKey.CopyNew` and `RelinearizationKey.CopyNew` return nil for a key without components, which `Equals` tells from the key. `Poly.Copy` on a receiver with more rows leaves these. `Ring.Shift` masks the shift with `(1<<N)-1` instead of `N-1`: negative shifts and shifts above N panic for N >= 64; for the shift 0 `append` returns the slice itself, so that both polynomials have the same rows. `RotateUint64Slice(s, 0)` returns s although a new slice is announced.
* C89: `PolyQP.Equals` skips a component that is nil in the receiver whatever the other has, hence is not symmetric. `RotationKeySet.Includes` does not look at the keys.
* C90: nothing in the documentation of `Decryptor` or `Encryptor` forbids sharing one between goroutines; the buffers make it wrong (but for NTT-domain decryption).
* C92: `Ring.Rotate` is documented to write p2, but writes p1 (both slices are taken from p1); a negative n does nothing when N >= 64 (`1 << N` is 0 for an int), and turns back for N = 16 and 32. `Ring.UnmarshalBinary` does not install a transformer: `Type` and `NTT` panic on a ring imported into a fresh object, and an import into a ring of the other type transforms wrongly.
* C93: the loop of `RotationsForInnerSumLog` never ends for n above 2^62 (the shifted counter becomes negative, then 0). The evaluator has none of the methods (`InnerSum`, `InnerSumLog`, `Replicate`, `SubSum`) that the comments of these lists refer to.
* C94: `GenSecretKeyWithDistrib` with probability 1 (the zero secret) never returns: the rejection loop of the Knuth-Yao matrix has no column with a bit. `GenSecretKey` and `GenPublicKey` of the generator of `frlwe` call themselves and never return. The comment of `GenSecretKey` announces the distribution [1/3, 1/3, 1/3]; the weight of the secret is exactly the parameter h.
* C95: `NewCiphertextRandom` of `ckks` builds on `rlwe.NewCiphertext` and does not set the NTT flags, so that `Add` and `Sub` panic on the result. `NewAdditiveShare` is documented as being at the maximum level and has one row. `GenSwitchkeysRescalingParams` answers 0 for a modulus that Q and P share.
* C96: `EncryptFromCRP` does not check the number of rows of the shared polynomial. If it has fewer rows than the plaintext, the remaining rows of the second polynomial stay those of the receiver (0 for a new ciphertext), and the first polynomial holds the message and the error there without a mask.

## 4. What is modelled and what is not

Modelled, file by file (functions not named are not modelled):

* `ring/modular_reduction.go`: all.  `ring/utils.go`: all.  `ring/primes.go`: all.
* `ring/ring.go`: constructors, `setParameters`, `genNTTParams`, `StandardRing`, `ConjugateInvariantRing`, `SetCoefficients{Int64,Uint64,Bigint}`, `PolyToBigint*`, `Equal*`.
* `ring/ring_ntt.go`, `ring/ring_ntt_interface.go`: all transforms.  `ring/conjugate_invariant.go`: all.
* `ring/ring_operations.go`, `ring/ring_vector_ops.go`: all operations of C43-C45 and C51 (`Lvl` versions; the others call them with the smallest level).
* `ring/ring_basis_extension.go`, `ring/ring_scaling.go`, `ring/ring_automorphism.go`: all but `ShallowCopy` and the unused `reconstructThenScale`.
* `ring/ring_poly.go`: serialization, copies and `Equals` (Heap.v).  `rlwe/keys.go`, `rlwe/elements.go`, `rlwe/ring_qp.go`: `CopyNew`, `Copy`, `Equals`, `Includes`; `Ring.Shift` (Heap.v).  `ring/int.go`: `DivRound`.
* `ring/ring_sampler_{uniform,ternary,gaussian}.go`, `utils/prng.go`, `utils/buffer.go`, `utils/utils.go`.
* `ring/ring_operations.go` (`MapSmallDimensionToLargerDimensionNTT`), `rlwe/elements.go` (the changes of degree), `rlwe/keygen.go`, `rlwe/encryptor.go`, `rlwe/decryptor.go`, `rlwe/keyswitch.go`, `rlwe/marshaler.go`, `rlwe/params.go`, `rlwe/ring_qp.go` (`ExtendBasisSmallNormAndCenter`, serialization).
* `frlwe/*`: parameters, key conversion, external product, key switching.
* `ckks/evaluator.go`: additions, constants, products, relinearization, rotations (also hoisted, with and without the division by P), key switching, rescaling, scale changes, sums without reduction.  `ckks/ciphertext.go`, `ckks/params.go`, `ckks/decryptor.go`, the integer scaling of `ckks/utils.go`.
* `frlwe/params.go`, `fckks/params.go` (constructors); the parameter sets of `ckks/params.go`, `fckks/fckks_test.go`, `frlwe/fksw_test.go` as data (PubParams.v, generated from the sources, with primality certificates that Proth.v checks).
* `fckks/evaluator.go`, `fckks/decryptor.go`, `fckks/encryptor.go` (messages), and sessions that use them together with the generators, encryptors and encoders (Draw.v, Session.v).
* `ckks/encoder.go`: the complex128 encoder for the standard ring type (slots and coefficients), the transforms of both encoders.  `ckks/ckks_vector_ops.go`: all.  `ckks/utils.go`: fixed point, sparse NTT, bit reversal.


Not modelled: the arbitrary-precision encoder of `ckks/encoder.go` (but for its transforms), decoding with added noise, error statistics,
the conjugate-invariant ring type above the package `ring`, the computation of the table of roots with `math.Cos` and `math.Sin` (any table of a given accuracy is allowed),
NTTs of fewer than 16 words, `ring/complex128.go`, the `profile` programs, string and `gob` forms,
`crypto/rand` and blake2b (streams are arbitrary), goroutines but for C90 (the code itself starts none),
memory exhaustion, and performance.

## 5. Simplifications

* The 8- and 16-fold unrolled loops over slices are one pass; `unsafe.Pointer` casts are not modelled.  Row lengths that are multiples of 8 (every ring degree >= 16) make the two equal.
* `math/big` integers are `Z`.  `math.Log`, `math.Exp` in the Gaussian sampler are arbitrary functions, and so is the conversion of an out-of-range float64 to an integer; the theorems hold for all of them.  Go may fuse `x*y + z` on some architectures; the model does not.
* Blocks or accumulators that do not interact are computed one after the other although the code interleaves them; stated at each definition.
* `return params, params.initRings()`: Go does not fix whether `params` is read before or after the call; the model follows the compiler (after).
* In Heap.v the outer slices (`Coeffs`, `Value`) are values: only rows and `*Poly` pointers can be shared.  In Conc.v the write of a row is one step, and samplers are streams given from outside.
* A map is a list of its entries in the order of the visit; theorems hold for every order.
* The half-built object that a constructor returns next to an error is dropped.
* A session (Session.v) uses the objects the code shares through pointers (buffers, tables, keys) as values; what a buffer holds when a function starts is an arbitrary argument wherever the function writes before it reads.
* Primality is decided in the model by `IsPrime` (Ring.v), proved equal to `Znumtheory.prime`; in the code it is `big.Int.ProbablyPrime(0)`, which is exact for 64-bit integers.

## 6. Trusted base

### 6.1 What is trusted

* Coq 8.16.1's kernel, including its `vm_compute`.  No axiom, parameter or hypothesis is added; no kernel check is switched off; there is no `Admitted`.
* The reading of the Go source recorded in the citations: the code was not run.
* The Go standard library behaves as documented (`math/bits`, `math/big`, `encoding/binary`, `encoding/json` on the literals considered, IEEE-754 `float64`).
* Certified primes (Pocklington.v) are proved prime inside Coq from their certificates, so nothing is trusted about them.

### 6.2 `Print Assumptions`, theorem by theorem

Every theorem of the `P_*.v` files is followed there by `Print Assumptions`.  The output is one of four:

* **none**: "Closed under the global context".
* **R**: the four axioms `ClassicalDedekindReals.sig_not_dec`, `ClassicalDedekindReals.sig_forall_dec`, `FunctionalExtensionality.functional_extensionality_dep`, `Classical_Prop.classic` of the standard library.  They come with its real numbers, which Flocq uses to specify binary64 arithmetic.
* **R3**: the same without `Classical_Prop.classic`.
* **R2**: `ClassicalDedekindReals.sig_forall_dec` and `FunctionalExtensionality.functional_extensionality_dep` only.

* `P_Acc.v`, **R**: C83_encryption, C83_program.
* `P_Auto.v`, **none**: C17_permute, C17_composition, C17_inverse, C17_automorphism, C17_reduced_refuted, C18_index_permutation, C18_permute_ntt, C18_permute_ntt_add, C18_composition, C18_inverse, C19_group, C19_inverse, C19_row_rotation, C19_generates, C19_gen_galois_params.
* `P_Basis.v`, **none**: C50_recombination.
* `P_Basis.v`, **R**: C10_basis_extension, C10_exactness_refuted, C11_exact_extension, C12_output_range, C12_documented_range_refuted, C13_division_by_P, C13_division_by_P_ntt, C13_rounding_refuted, C14_equal_levels, C14_wrong_divisor, C14_panics, C14_division_refuted, C50_digit.
* `P_CI.v`, **none**: C84_ci_ntt_is_evaluation, C84_ci_inverse_after_forward, C84_ci_forward_after_inverse, C84_ci_product, C84_ci_lazy_ranges, C84_ci_documented_lazy_range_refuted, C85_unfold, C85_fold, C85_ci_permute, C85_ci_permute_outside, C85_standard_ring, C85_conjugate_invariant_ring, C85_ring_swap, C85_documented_degrees_refuted, C85_pad_refuted.
* `P_Ckks.v`, **none**: C54_mult_by_i, C54_neg.
* `P_Ckks.v`, **R**: C41_mul_and_add_cross_term, C41_mul_and_add_square, C41_mul_and_add_plain, C41_mul_and_add_refuted, C42_add, C42_sub, C42_degree_three_panics, C48_rescale, C54_mult_by_const, C54_mult_by_integer, C54_mult_by_const_refuted, C54_receiver_level_refuted, C55_mul, C55_mul_plaintext, C55_mul_relin, C55_receiver_degree_refuted, C56_sum_of_products, C56_reduced_by_one, C56_negation_refuted, C56_subtraction_refuted, C56_rescaling_refuted, C57_relinearize, C58_switch_keys, C58_rotate, C58_conjugate, C58_rotate_by_zero, C59_add_const, C59_add_const_refuted, C60_rotate_in_place_refuted.
* `P_CkksMore.v`, **none**: C64_mult_by_gaussian_integer, C64_mult_by_gaussian_integer_and_add, C66_reduce, C66_drop_level, C67_mul_by_pow2_in_place, C67_mul_by_pow2_receiver, C67_mult_by_i_new.
* `P_CkksMore.v`, **R**: C63_mult_by_const_and_add, C65_set_scale, C65_set_scale_integer, C65_set_scale_without_rescale, C65_set_scale_refuted, C65_set_scale_refuses, C65_scale_up, C66_add_no_mod, C66_sub_no_mod, C67_mul_by_pow2_new_refuted, C67_mult_by_i_new_refuted, C68_rotate_hoisted.
* `P_Codec.v`, **none**: C20_integers, C20_round_trip, C20_any_buffer, C20_decode, C20_any_target, C20_accepted, C20_truncated, C20_panic_refuted, C20_256_moduli_refuted, C20_dirty_buffer_refuted, C20_used_target_refuted, C20_trailing_refuted, C20_32_bits_refuted, C21_ciphertext, C21_secret_key, C21_public_key, C21_switching_key, C21_relinearization_key, C21_rotation_keys, C21_no_special_primes_refuted, C21_truncated_panic_refuted, C21_galois_element_refuted.
* `P_Codec.v`, **R**: C21_ckks_ciphertext.
* `P_Conc.v`, **none**: C90_isolation, C90_decryptors, C90_race_free, C90_encryptors, C90_encryptors_race_free, C90_shared_ntt, C90_shared_refuted, C90_shared_encryptor_refuted.
* `P_Crp.v`, **none**: C96_key_sum.
* `P_Crp.v`, **R**: C96_decrypts, C96_new, C96_same_crp, C96_public_key, C96_short_crp_refuted.
* `P_Degree.v`, **none**: C86_embedding, C86_up_ntt, C86_up_ntt_decrypts, C86_up_coefficients, C86_up_coefficients_decrypts, C86_up_coefficients_refuted, C86_down_coefficients, C86_down_coefficients_decrypts, C86_phase_up, C86_phase_down, C86_down_ntt, C86_down_ntt_refuted, C87_key_up, C87_key_down, C87_ring_swap.
* `P_Draw.v`, **none**: C78_secret_key, C78_fresh_secret_key.
* `P_Draw.v`, **R**: C78_public_key, C78_relin_key, C78_rot_key, C78_encrypt_msg, C78_fresh_public_key, C78_fresh_relin_key, C78_fresh_rot_key, C78_fresh_encryption.
* `P_Encoder.v`, **none**: C70_sparse_ntt.
* `P_Encoder.v`, **R**: C69_encode_coeffs, C69_decode_coeffs, C69_round_trip, C69_reused_plaintext_refuted, C73_encode_slots, C73_decode_slots, C73_decode_any, C73_ntt_flag_refuted, C73_smallest_degree_refuted, C74_round_trip, C74_roots.
* `P_Encoder.v`, **R2**: C74_growth.
* `P_Fckks.v`, **none**: C40_decrypt_after_history.
* `P_Fckks.v`, **R**: C37_mul_relin, C37_generated_key, C38_rotate, C38_generated_key, C38_scale_refuted, C38_new_scale, C39_switch_keys_panics, C40_history_refuted.
* `P_Fft.v`, **none**: C71_special_fft, C71_inverse, C71_unrolled, C71_arbitrary_precision.
* `P_Fft.v`, **R3**: C72_slots, C72_operations, C72_period.
* `P_Frlwe.v`, **none**: C34_constructors_succeed.
* `P_Frlwe.v`, **R**: C33_accumulation_does_not_wrap, C34_external_product, C35_fast_key_switching, C36_key_conversion.
* `P_Gauss.v`, **none**: C25_new_state.
* `P_Gauss.v`, **R**: C25_read, C25_read_and_add, C25_symmetric, C25_canonical_refuted, C25_any_bound_refuted.
* `P_Heap.v`, **none**: C88_polynomial, C88_ciphertext, C88_public_key, C88_switching_key, C88_relinearization_key, C88_empty_key_refuted, C88_in_place, C88_ciphertext_in_place, C88_in_place_refuted, C88_shared, C88_shift, C88_shift_zero_refuted, C88_shift_panics, C88_rotate_slice, C88_rotate_slice_refuted, C89_polynomials, C89_switching_keys, C89_public_keys, C89_relinearization_keys, C89_rotation_keys, C89_includes, C89_copy, C89_nil_refuted, C89_includes_refuted, C89_flags_refuted.
* `P_KeyKinds.v`, **none**: C94_size, C94_fast_generator_refuted.
* `P_KeyKinds.v`, **R**: C94_secret_key, C94_gaussian_fresh, C94_distrib_returns, C94_distrib_one_refuted, C94_secret_key_without_P, C94_public_key_without_P, C94_encryption_without_P.
* `P_Lazy.v`, **none**: C91_add.
* `P_Lazy.v`, **R**: C91_switch, C91_hoisted, C91_rotations, C91_missing_key, C91_mod_down, C91_rotate_and_sum.
* `P_ModRed.v`, **none**: C01_montgomery_product, C01_montgomery_product_lazy, C01_reduced_operand, C01_unreduced_refuted, C02_montgomery_constant, C02_even_modulus_has_no_constant, C03_barrett_product, C03_barrett_product_lazy, C03_barrett_reduction, C03_barrett_reduction_lazy, C03_conditional_subtraction, C04_to_montgomery, C04_to_montgomery_lazy, C04_from_montgomery, C04_from_montgomery_lazy, C04_round_trip, C05_exponentiation, C05_inverse, C05_montgomery_exponentiation, C05_power_of_two.
* `P_Msg.v`, **R**: C75_decrypt_to_msg, C76_encrypt_msg, C77_mul_relin, C77_rotate, C77_add, C77_sub, C77_rescale, C77_ckks_mul_relin, C77_ckks_rotate, C77_conjugate.
* `P_NTT.v`, **none**: C06_ntt_is_evaluation, C07_inverse_after_forward, C07_forward_after_inverse, C08_ntt_product, C09_lazy_ranges, C09_documented_lazy_range_refuted.
* `P_Ops.v`, **none**: C44_linear_ops, C44_reduction_ops, C44_mod_op, C44_barrett_products, C44_montgomery_products, C44_scalar_products, C44_rows_above_level_kept, C44_negation_canonical_refuted, C43_scalar_bigint_writes_source, C43_scalar_word_writes_source, C43_destination_written_refuted, C45_monomial_product, C45_negative_exponent_unsupported, C51_mul_by_pow2, C51_separate_destination_refuted.
* `P_ParamValues.v`, **none**: C95_products, C95_division_by_P, C95_shared_modulus_refuted, C95_uniform_QP, C95_uniform_half, C95_share_refuted, C95_smallest_largest.
* `P_ParamValues.v`, **R**: C95_bits, C95_slots, C95_random_ciphertext, C95_random_level, C95_random_usable_refuted.
* `P_Params.v`, **none**: C22_equals, C22_equals_refl.
* `P_Params.v`, **R**: C22_round_trip, C22_accepted_bytes, C22_panics, C22_panic_refuted, C22_short, C22_equals_refuted, C22_json, C22_json_type_refuted, C22_json_defaults_refuted, C22_ckks_round_trip, C22_ckks_json, C22_ckks_slots_refuted, C22_ckks_missing_refuted, C22_zero_refuted, C22_error_receiver_refuted, C46_accepted, C46_usable, C46_large_moduli_refuted, C46_shared_prime_refuted.
* `P_Primes.v`, **none**: C28_primes_Q, C28_primes_P, C28_dispatch, C28_ends, C28_friendly, C28_next, C28_previous, C28_previous_unique, C28_previous_error, C28_previous_refuted, C28_centre_refuted, C28_size_refuted, C62_moduli, C62_error, C62_friendly, C62_distinct_refuted, C62_any_size_refuted.
* `P_Primes.v`, **R**: C62_shared_prime_refuted.
* `P_Pub.v`, **R**: C82_accepted, C82_parameters, C82_ckks_literal, C82_frlwe_literal, C82_fckks_literal, C82_ckks_accepted, C82_frlwe_accepted, C82_fckks_accepted, C82_sizes, C82_sizes_refuted, C82_ckks_sets, C82_fast_sets.
* `P_RingTotal.v`, **none**: C81_new_ring, C81_factors, C81_cofactor, C81_table, C81_factors_refuted, C81_primitive_root, C81_generator, C81_generator_refuted.
* `P_RingUtil.v`, **none**: C92_bit_reverse, C92_in_place, C92_involution, C92_natural_order, C92_ntt_order, C92_rotate, C92_rotate_monomial, C92_shift, C92_rotate_negative_small, C92_rotate_negative_refuted, C92_rotate_destination_refuted, C92_round_trip, C92_faithful, C92_fresh_refuted, C92_type_refuted.
* `P_Rlwe.v`, **none**: C49_small_norm_extension, C49_reduced_words_refuted, C31_switching_key, C31_relinearization_key, C31_rotation_key, C29_decryption, C29_degree_seven_refuted, C30_public_key_encryption_without_P, C30_secret_key_encryption.
* `P_Rlwe.v`, **R**: C32_key_switching, C32_hoisted, C30_public_key_encryption.
* `P_RotKeys.v`, **none**: C93_set, C93_inner_sum_keys, C93_rotation_lists, C93_inner_sum_log, C93_replicate_log, C93_trace, C93_single_keys, C93_inner_sum_log_refuted.
* `P_RotKeys.v`, **R**: C93_rotate, C93_conjugate, C93_inner_sum.
* `P_Sampler.v`, **none**: C23_read, C23_canonical, C23_never_panics, C23_read_all, C23_masks, C23_equal_fibres, C23_any_polynomial, C23_rand_uniform, C24_sound, C24_complete, C24_weight, C24_positions, C26_history, C26_position, C26_seek, C26_set_clock, C26_backwards, C26_clock_refuted.
* `P_Sampler.v`, **R**: C61_ternary, C61_half, C61_third_returns, C61_independence_refuted, C61_one_refuted, C61_panic_refuted.
* `P_Scaling.v`, **none**: C15_floor, C15_floor_many, C15_floor_many_ntt, C15_floor_ntt, C15_floor_ntt_refuted, C15_round, C15_round_inplace, C15_round_ntt, C15_round_many, C15_round_many_ntt, C15_nearest, C15_rounds, C15_input_preserved_refuted, C16_reconstruction, C16_centred, C16_centred_boundary_refuted, C16_set_coefficients, C16_set_uint64, C16_set_int64, C16_integers_round_trip, C16_rows_round_trip, C47_div_round, C52_equal, C53_simple_scaler, C53_simple_scaler_reduced_refuted.
* `P_Scaling.v`, **R**: C53_rns_scaler, C53_history_refuted.
* `P_Session.v`, **R**: C79_program, C80_session.
* `P_Utils.v`, **none**: C27_all_distinct, C27_bit_reverse, C27_bit_reverse_involution, C27_hamming_weight, C27_rotate, C27_rotate_laws, C27_rotate_slots, C27_is_in_slice, C27_min_max, C27_max_slice, C27_equal_slice, C27_equal_slice_refuted.
