{"id": "C01", "title": "Montgomery products are exact", "statement": "For every odd modulus q below 2^63 and every pair of 64-bit operands whose product is below q*2^64 (in particular whenever one operand is reduced), the Montgomery product returned by the library is the canonical residue of x*y*2^-64 modulo q; the constant-time variant returns a value below 2q in the same residue class.", "quantifier": "all odd q < 2^63, all 64-bit x and y with x*y < q*2^64", "why_tests_cant": "2^64 * 2^64 operand pairs per modulus and about 2^62 moduli; an off-by-one in the carry or final subtraction shows only on rare operands", "anchors": ["ring/modular_reduction.go:MRed", "ring/modular_reduction.go:MRedConstant"]}
{"id": "C02", "title": "The Montgomery constant inverts every odd modulus", "statement": "For every odd 64-bit q the Montgomery parameter computed by the library multiplied by q is 1 modulo 2^64; for even q no parameter can work.", "quantifier": "all odd 64-bit integers q", "why_tests_cant": "there are 2^63 odd moduli", "anchors": ["ring/modular_reduction.go:MRedParams"]}
{"id": "C03", "title": "Barrett reduction and multiplication are exact", "statement": "For every modulus 2 <= q <= 2^63 and all 64-bit operands (reduced or not), the Barrett product equals x*y mod q and the Barrett reduction of one word equals a mod q; the constant-time variants return a representative below 2q.", "quantifier": "all q in [2, 2^63], all 64-bit x, y, a", "why_tests_cant": "the operand space is 2^128 per modulus and the carry chain is only exercised by rare operand patterns", "anchors": ["ring/modular_reduction.go:BRed", "ring/modular_reduction.go:BRedConstant", "ring/modular_reduction.go:BRedAdd", "ring/modular_reduction.go:BRedAddConstant", "ring/modular_reduction.go:BRedParams", "ring/modular_reduction.go:CRed"]}
{"id": "C04", "title": "Switching to the Montgomery domain and back is the identity", "statement": "For every odd q below 2^63, converting any 64-bit value to the Montgomery domain gives a*2^64 mod q, converting any 64-bit value back gives a*2^-64 mod q, and the two conversions compose to reduction modulo q.", "quantifier": "all odd q < 2^63 and all 64-bit a", "why_tests_cant": "too many moduli and operands to enumerate", "anchors": ["ring/modular_reduction.go:MForm", "ring/modular_reduction.go:InvMForm", "ring/modular_reduction.go:MFormConstant", "ring/modular_reduction.go:InvMFormConstant"]}
{"id": "C05", "title": "Modular exponentiation and inversion", "statement": "Modular exponentiation returns x^e mod q for every 64-bit base and exponent; with exponent q-2 and q prime it returns the multiplicative inverse of every non-multiple of q. The Montgomery-domain exponentiation agrees with it.", "quantifier": "all bases, exponents and moduli (prime moduli for inversion)", "why_tests_cant": "exponents range over 2^64 values; every precomputed table of the library rests on it", "anchors": ["ring/utils.go:ModExp", "ring/utils.go:ModexpMontgomery"]}
{"id": "C06", "title": "The forward NTT evaluates the polynomial at the odd powers of psi", "statement": "For every ring degree N = 2^k >= 16 and every NTT-friendly prime the library accepts below 2^61, the forward transform of a coefficient vector is, at position i, the canonical residue of sum_j a_j*psi^((2*brv(i)+1)*j), where psi is a primitive 2N-th root of unity.", "quantifier": "all ring degrees, all moduli, all coefficient vectors below 4q (and any larger input that cannot overflow)", "why_tests_cant": "vectors of N 64-bit words; lazy reduction makes an overflow visible only on extreme coefficient patterns", "anchors": ["ring/ring_ntt.go:NTT", "ring/ring_ntt.go:NTTLazy", "ring/ring_ntt.go:butterfly", "ring/ring.go:genNTTParams"]}
{"id": "C07", "title": "NTT and InvNTT are mutually inverse", "statement": "For every ring and every coefficient vector, InvNTT(NTT(x)) is x reduced modulo q and NTT(InvNTT(y)) is y reduced modulo q; the lazy variants agree modulo q.", "quantifier": "all ring degrees, moduli below 2^61, and coefficient vectors", "why_tests_cant": "the set of vectors is astronomically large and intermediate values are only bounded, not reduced", "anchors": ["ring/ring_ntt.go:NTT", "ring/ring_ntt.go:InvNTT", "ring/ring_ntt.go:InvNTTLazy", "ring/ring_ntt.go:invNTTCore"]}
{"id": "C08", "title": "Coefficient-wise products in the NTT domain are products in Z_q[X]/(X^N+1)", "statement": "Transforming two polynomials, multiplying the transforms coefficient-wise (with one operand in Montgomery form) and transforming back gives the negacyclic product of the polynomials, reduced modulo q.", "quantifier": "all rings, moduli and pairs of polynomials", "why_tests_cant": "pairs of N-word vectors", "anchors": ["ring/ring_ntt.go:NTT", "ring/ring_ntt.go:InvNTT", "ring/ring_operations.go:MulCoeffsMontgomery"]}
{"id": "C09", "title": "Lazy transforms never overflow and have a known output range", "statement": "For q below 2^61 and inputs below 4q no intermediate word of the lazy forward transform exceeds 2^64 and its outputs are below 6q; for inputs below 2q the lazy inverse transform's outputs are below 2q. The documented range [0,2q-1] of the forward lazy transform is not met.", "quantifier": "all ring degrees, all q < 2^61, all input vectors in range", "why_tests_cant": "overflow occurs only on adversarial combinations of coefficients and twiddles", "anchors": ["ring/ring_ntt.go:NTTLazy", "ring/ring_ntt.go:InvNTTLazy"]}
{"id": "C10", "title": "RNS basis extension is correct up to one multiple of the source modulus", "statement": "For every polynomial given by residues modulo Q = q_0...q_k, basis extension to P produces, for each coefficient, residues modulo every p_j of one and the same integer x + e*Q with x the representative in [0,Q) and e in {-1,0,1}, whatever the floating-point rounding of the correction term does; no table index is out of range.", "quantifier": "all coprime prime chains (at most 32 moduli below 2^61), all residues", "why_tests_cant": "the correction term is computed in float64; rounding failures occur on a 2^-50 fraction of inputs", "anchors": ["ring/ring_basis_extension.go:ModUpQtoP", "ring/ring_basis_extension.go:ModUpPtoQ", "ring/ring_basis_extension.go:modUpExact", "ring/ring_basis_extension.go:reconstructRNS", "ring/ring_basis_extension.go:multSum", "ring/ring_basis_extension.go:basisextenderparameters"]}
{"id": "C11", "title": "RNS basis extension is exact away from the boundary", "statement": "If the represented integer x in [0,Q) is zero, or satisfies eps*Q <= x <= (1-eps)*Q for eps = 2^-42, basis extension yields exactly the residues of x. Near the boundary it can be off by Q.", "quantifier": "all chains and all residues with the represented value in the safe interval", "why_tests_cant": "depends on float64 rounding of sums of quotients over all inputs", "anchors": ["ring/ring_basis_extension.go:modUpExact", "ring/ring_basis_extension.go:reconstructRNS"]}
{"id": "C12", "title": "Range of basis-extension outputs", "statement": "The un-reduced outputs of basis extension modulo p lie in [1,(t+2)*p) for every t with t*2^64 at least the sum of the source moduli, and never wrap; the documented range [0,2q-1] is not met by some inputs.", "quantifier": "all chains and inputs", "why_tests_cant": "range violations occur on rare inputs", "anchors": ["ring/ring_basis_extension.go:multSum", "ring/ring_basis_extension.go:modUpExact"]}
{"id": "C13", "title": "Dividing by the special modulus is flooring up to one unit", "statement": "Given the residues of an integer X modulo Q_l*P, basis reduction to Q returns reduced residues of floor(X/P)+e with e in {-1,0,1}, and exactly floor(X/P) when X mod P is zero or away from the boundary. It is a floor, although documented as rounding.", "quantifier": "all levels, chains and inputs", "why_tests_cant": "float rounding and unbounded input space", "anchors": ["ring/ring_basis_extension.go:ModDownQPtoQ", "ring/ring_basis_extension.go:ModDownQPtoQNTT", "ring/ring_basis_extension.go:genModDownParams"]}
{"id": "C14", "title": "Dividing by the ciphertext modulus uses the right constant only at equal levels", "statement": "Reducing a polynomial from basis Q_l,P_m to basis P_m with division by Q divides by q_0...q_m instead of q_0...q_l: it is the documented flooring when the two levels coincide and is wrong otherwise.", "quantifier": "all level pairs", "why_tests_cant": "unit tests call it at full, equal levels", "anchors": ["ring/ring_basis_extension.go:ModDownQPtoP"]}
{"id": "C15", "title": "Rescaling divides exactly", "statement": "Dropping the last modulus returns, for every coefficient, the residues of floor(x/q_l) (floor variant) or of the nearest integer to x/q_l (round variant), for the same integer x in every remaining row; repeated division composes.", "quantifier": "all chains, levels, coefficients", "why_tests_cant": "all residues vectors; rounding ties and boundary residues are measure-zero", "anchors": ["ring/ring_scaling.go:DivFloorByLastModulusLvl", "ring/ring_scaling.go:DivRoundByLastModulusLvl", "ring/ring_scaling.go:DivFloorByLastModulusManyLvl", "ring/ring_scaling.go:DivRoundByLastModulusNTTLvl"]}
{"id": "C16", "title": "Reconstruction to big integers is CRT", "statement": "Reconstructing an RNS polynomial gives for each coefficient the unique integer in [0,Q) with the given residues, and reading a big-integer polynomial back gives the canonical residues: the two are inverse modulo Q. The centred reconstruction returns the unique congruent integer in the centred interval (with the code's choice at the boundary).", "quantifier": "all chains of distinct primes, all residues", "why_tests_cant": "unbounded integers", "anchors": ["ring/ring.go:PolyToBigintLvl", "ring/ring.go:PolyToBigintCenteredLvl", "ring/ring.go:SetCoefficientsBigintLvl"]}
{"id": "C17", "title": "Coefficient-domain automorphism", "statement": "Applying the Galois permutation with an odd element g computes a(X^g) in Z_q[X]/(X^N+1); it is additive, multiplicative, and composing elements g and h equals applying g*h mod 2N. The result may contain the unreduced representative q for zero.", "quantifier": "all degrees, odd Galois elements, polynomials", "why_tests_cant": "quadratic number of (g, polynomial) pairs", "anchors": ["ring/ring_automorphism.go:Permute"]}
{"id": "C18", "title": "NTT-domain automorphism", "statement": "The index table produced for an odd Galois element is a permutation of 0..N-1 and permuting the transform of a by it yields the transform of a(X^g).", "quantifier": "all degrees and odd Galois elements, all polynomials", "why_tests_cant": "all g and all N", "anchors": ["ring/ring_automorphism.go:PermuteNTTIndex", "ring/ring_automorphism.go:PermuteNTTWithIndexLvl"]}
{"id": "C19", "title": "Rotation Galois elements form a group", "statement": "For all integers k and l (negative included) the rotation elements satisfy gal(k)*gal(l) = gal(k+l) modulo 2N, gal(k) depends only on k mod N/2, gal(0)=1, and the inverse element of any odd element multiplies with it to 1 modulo 2N.", "quantifier": "all integer rotation amounts and all ring degrees", "why_tests_cant": "infinitely many rotation amounts", "anchors": ["rlwe/params.go:GaloisElementForColumnRotationBy", "rlwe/params.go:InverseGaloisElement", "rlwe/params.go:GaloisElementForRowRotation"]}
{"id": "C20", "title": "Polynomial serialization round-trips", "statement": "Writing any polynomial to bytes and decoding it returns the same coefficients and domain flags, and the byte length is the advertised one, for all polynomials whose degree is a power of two and with at most 255 moduli; with 256 moduli or a dirty buffer the decoded polynomial differs.", "quantifier": "all polynomials and all destination buffers", "why_tests_cant": "all coefficient values and buffer states", "anchors": ["ring/ring_poly.go:WriteTo", "ring/ring_poly.go:MarshalBinary", "ring/ring_poly.go:UnmarshalBinary", "ring/ring_poly.go:DecodePolyNew"]}
{"id": "C21", "title": "Ciphertext and key serialization round-trips", "statement": "Marshalling a ciphertext, secret key, public key, relinearization key, switching key or rotation key set and unmarshalling the bytes reproduces the object; a ciphertext with trailing bytes is rejected.", "quantifier": "all well-formed objects", "why_tests_cant": "all contents and degrees", "anchors": ["rlwe/marshaler.go:Ciphertext.MarshalBinary", "rlwe/marshaler.go:SwitchingKey", "rlwe/marshaler.go:RotationKeySet", "ckks/ciphertext.go:MarshalBinary"]}
{"id": "C22", "title": "Parameter serialization", "statement": "Binary marshalling of accepted parameters decodes to equal parameters; decoding of short inputs must be rejected rather than crash (inputs of 11 to 19 bytes crash); the JSON form loses the ring type.", "quantifier": "all accepted parameter sets and all byte strings", "why_tests_cant": "all byte strings", "anchors": ["rlwe/params.go:MarshalBinary", "rlwe/params.go:UnmarshalBinary", "rlwe/params.go:MarshalJSON", "rlwe/params.go:UnmarshalJSON"]}
{"id": "C23", "title": "Uniform sampling stays in range and is a function of the stream", "statement": "For every random byte stream, each accepted uniform coefficient is below its modulus and equals the first masked 8-byte word of the remaining stream that is below q.", "quantifier": "all byte streams, moduli and degrees", "why_tests_cant": "all random streams", "anchors": ["ring/ring_sampler_uniform.go:Read", "ring/ring_sampler_uniform.go:ReadLvl"]}
{"id": "C24", "title": "Fixed-weight ternary secrets have exactly the requested weight", "statement": "For every random stream, sampling with Hamming weight h sets exactly min(h,N) coefficients to +1 or -1 and all others to 0, with the same signed value in every RNS row.", "quantifier": "all streams, N, h, chains", "why_tests_cant": "all random streams and histories of the sampler", "anchors": ["ring/ring_sampler_ternary.go:sampleSparse"]}
{"id": "C25", "title": "Gaussian samples are bounded and consistent across rows", "statement": "For a bound below the moduli, every sampled error coefficient has absolute value at most the bound and is represented by the residues of the same signed integer in all RNS rows, except that a zero sample with the sign bit of a negative number is stored as the unreduced value q (so the rows need not be canonical; the adding variant always gives canonical rows). No read panics. Flipping the top bit of each word of the random stream negates every sample. With a bound at or above a modulus the rows may hold no integer within the bound.", "quantifier": "all streams, all chains", "why_tests_cant": "all random streams", "anchors": ["ring/ring_sampler_gaussian.go:readLvl"]}
{"id": "C26", "title": "Keyed PRNG reads are seekable and deterministic", "statement": "The next block of a keyed generator depends only on the key and on the number of bytes read so far, whatever the history of reads and clock settings; if all reads have the same size the clock determines it; setting the clock backwards is rejected and never changes state. With reads of different sizes equal clocks do not give equal blocks.", "quantifier": "all histories of clock and reset operations", "why_tests_cant": "unbounded histories", "anchors": ["utils/prng.go:KeyedPRNG"]}
{"id": "C27", "title": "Utility predicates decide what they are named after", "statement": "The distinctness check accepts exactly duplicate-free lists; bit reversal is an involution on k-bit numbers; the Hamming weight equals the number of one bits; rotations of slices compose and invert. The slice equality helpers only compare a prefix.", "quantifier": "all slices, words, bit widths", "why_tests_cant": "all inputs", "anchors": ["utils/utils.go:AllDistinct", "utils/utils.go:BitReverse64", "utils/utils.go:HammingWeight64", "utils/utils.go:RotateUint64Slice", "utils/utils.go:EqualSliceUint64"]}
{"id": "C28", "title": "Generated NTT primes are distinct and NTT friendly", "statement": "GenerateNTTPrimes returns n distinct primes congruent to 1 modulo the root order, the nearest ones to 2^logQ + 1 (for 61 bits the greatest ones below), or panics when there are not n of them; 2^logQ + 1 itself is passed over and the bit length need not be logQ. NextNTTPrime returns the next such prime below 2^61 or an error. PreviousNTTPrime returns the previous one if there is one; if there is none it does not report it but searches on below zero and can return a 64-bit prime above its input.", "quantifier": "all bit sizes, root orders and counts", "why_tests_cant": "the search space spans all sizes", "anchors": ["ring/primes.go:GenerateNTTPrimesQ", "ring/primes.go:GenerateNTTPrimesP", "ring/primes.go:NextNTTPrime", "ring/primes.go:PreviousNTTPrime"]}
{"id": "C29", "title": "Decryption evaluates the ciphertext at the secret", "statement": "Decrypting a ciphertext of any degree d yields the canonical residues of c_0 + c_1*s + ... + c_d*s^d, for ciphertexts in the NTT domain and for every degree with d mod 8 different from 7; for a ciphertext given by coefficients with d = 7 mod 8 the last reduction is skipped and the plaintext can be wrong.", "quantifier": "all degrees, levels, ciphertexts, keys", "why_tests_cant": "all degrees; tests use degree 1 and 2", "anchors": ["rlwe/decryptor.go:Decrypt"]}
{"id": "C30", "title": "Encryption then decryption returns the message plus the fresh noise", "statement": "Public-key and secret-key encryption of any plaintext at any level, decrypted under the matching key, give m plus the noise polynomial determined by the sampled randomness (e0 + e1*s + u*e_pk divided by P and rounded).", "quantifier": "all plaintexts, keys, randomness, levels", "why_tests_cant": "all randomness", "anchors": ["rlwe/encryptor.go:encrypt", "rlwe/keygen.go:GenPublicKey", "rlwe/decryptor.go:Decrypt"]}
{"id": "C31", "title": "Switching keys encrypt the scaled source secret", "statement": "Every row i of a generated switching key satisfies b_i + a_i*s_out = e_i + P*g_i*s_in modulo Q*P, with g_i equal to 1 modulo the i-th block of ciphertext moduli and 0 modulo all others.", "quantifier": "all secrets, randomness, chains", "why_tests_cant": "all randomness and chains", "anchors": ["rlwe/keygen.go:genSwitchingKey", "rlwe/keygen.go:GenSwitchingKey"]}
{"id": "C32", "title": "Reference key switching is correct", "statement": "The reference key-switching routine applied to a polynomial c and a switching key returns (p0,p1) with p0 + p1*s_out = c*s_in + (sum d_j*e_j)/P + rounding modulo Q_l, where d_j are the digits of c.", "quantifier": "all levels, inputs, keys within the size limits", "why_tests_cant": "all inputs; noise growth cannot be tested exhaustively", "anchors": ["rlwe/keyswitch.go:SwitchKeysInPlace", "rlwe/keyswitch.go:SwitchKeysInPlaceNoModDown", "rlwe/keyswitch.go:DecomposeSingleNTT"]}
{"id": "C33", "title": "Lazy accumulation in key switching does not overflow", "statement": "The inner product of digits and key rows never wraps modulo 2^64, whatever the number of digits: with a reduction after every half overflow margin of terms, the result is the reduced sum of the products modulo every prime.", "quantifier": "all digit counts, all moduli, all operands", "why_tests_cant": "needs worst-case operands and more digits than test parameters have", "anchors": ["frlwe/keyswitch.go:externalProduct", "frlwe/params.go:TiOverflowMargin", "rlwe/keyswitch.go:SwitchKeysInPlaceNoModDown"]}
{"id": "C34", "title": "The fast external product computes the gadget product exactly before the final division", "statement": "For every level, digit vector and fast key whose integer products fit in the auxiliary modulus T, the fast external product returns floor((sum_j d_j*b_j)/P)+e modulo Q_l with coefficient-wise e in {-1,0,1}.", "quantifier": "all levels, all digits and keys satisfying the size bound on T", "why_tests_cant": "all inputs; wrap-around modulo T would be rare and silent", "anchors": ["frlwe/keyswitch.go:externalProduct"]}
{"id": "C35", "title": "Fast key switching is correct", "statement": "For every polynomial a in coefficient form at any level, every fast switching key derived from a valid key from s_in to s_out, the two outputs satisfy c0 + c1*s_out = a*s_in + noise with noise = (sum_j d_j*e_j)/P plus a rounding term of at most 2 units (1+|s|_1).", "quantifier": "all levels, polynomials, keys", "why_tests_cant": "all inputs and levels; end-to-end property over several chained approximations", "anchors": ["frlwe/keyswitch.go:SwitchKey", "frlwe/keyswitch.go:externalProduct", "frlwe/keygen.go:polyQPToPolyTs"]}
{"id": "C36", "title": "The auxiliary-modulus form of a key represents the same key", "statement": "Converting a switching key to the auxiliary modulus T preserves it: every block's T-residues are those of an integer polynomial congruent to the key modulo each prime of the block and bounded by twice the block modulus.", "quantifier": "all keys, blocks and levels", "why_tests_cant": "all keys", "anchors": ["frlwe/keygen.go:polyQPToPolyTs", "frlwe/keygen.go:GenRelinKey", "frlwe/keygen.go:GenRotKey"]}
{"id": "C37", "title": "Homomorphic multiplication with fast relinearization decrypts to the product", "statement": "MulRelin of two degree-one ciphertexts produces a degree-one ciphertext whose decryption is the product of the decryptions plus the key-switching noise, at the minimum of the input levels.", "quantifier": "all ciphertext pairs, levels, keys", "why_tests_cant": "all ciphertexts", "anchors": ["fckks/evaluator.go:MulRelin", "ckks/evaluator.go:mulRelin"]}
{"id": "C38", "title": "Homomorphic rotation with fast keys decrypts to the rotated plaintext", "statement": "Rotate with the rotation key for k (any integer, negative included) produces a ciphertext whose decryption is the image of the decryption under the automorphism X -> X^(5^k), plus key-switching noise.", "quantifier": "all ciphertexts, rotations, keys", "why_tests_cant": "all rotations", "anchors": ["fckks/evaluator.go:Rotate", "frlwe/keygen.go:GenRotKey"]}
{"id": "C39", "title": "Key switching of a CKKS ciphertext through the fast evaluator", "statement": "SwitchKeys on a CKKS ciphertext must return a ciphertext under the new key; with ciphertexts in the NTT domain (the only form the scheme produces) it always panics.", "quantifier": "all NTT-domain ciphertexts", "why_tests_cant": "no test calls it; must hold for every ciphertext", "anchors": ["fckks/evaluator.go:SwitchKeys", "frlwe/keyswitch.go:SwitchKey"]}
{"id": "C40", "title": "Message decryption must not depend on the decryptor's history", "statement": "Decrypting a ciphertext to a message must give the same result whatever was decrypted before with the same decryptor; the pooled plaintext is permanently shrunk to the lowest level seen, so later results are taken modulo a smaller modulus.", "quantifier": "all histories of decryptions", "why_tests_cant": "unbounded histories", "anchors": ["fckks/decryptor.go:DecryptToMsg", "rlwe/decryptor.go:Decrypt"]}
{"id": "C41", "title": "Multiply-and-add", "statement": "Multiplying two degree-one ciphertexts and adding to an accumulator must decrypt to acc + m0*m1; the code computes the cross term as 2*c00*c11 instead of c00*c11 + c01*c10, so it is right only for particular operands.", "quantifier": "all operand triples", "why_tests_cant": "tests use particular operands", "anchors": ["ckks/evaluator.go:mulRelinAndAdd"]}
{"id": "C42", "title": "Addition and subtraction of ciphertexts", "statement": "Adding (subtracting) ciphertexts with equal scales yields a ciphertext whose decryption is the sum (difference) of the decryptions, for operands of any degrees and levels, at the minimum level.", "quantifier": "all degrees, levels, ciphertexts", "why_tests_cant": "combinations of degrees, levels and aliasing", "anchors": ["ckks/evaluator.go:Add", "ckks/evaluator.go:Sub", "ckks/evaluator.go:evaluateInPlace"]}
{"id": "C43", "title": "Scalar operations write their destination", "statement": "Adding or subtracting a scalar must leave the source unchanged and write the result to the destination; the code writes the source, so the destination is stale unless they alias.", "quantifier": "all polynomials, scalars and aliasing patterns", "why_tests_cant": "tests only use the in-place form", "anchors": ["ring/ring_operations.go:AddScalarLvl", "ring/ring_operations.go:AddScalarBigintLvl", "ring/ring_operations.go:SubScalarLvl", "ring/ring_operations.go:SubScalarBigintLvl"]}
{"id": "C44", "title": "Coefficient-wise ring operations agree with modular arithmetic", "statement": "Addition, subtraction, negation, Montgomery/Barrett products and their lazy and fused variants return, for reduced operands, values congruent to the corresponding operation modulo each q_i, within the documented range.", "quantifier": "all chains, levels, operands", "why_tests_cant": "all operands", "anchors": ["ring/ring_vector_ops.go", "ring/ring_operations.go"]}
{"id": "C45", "title": "Multiplication by a monomial", "statement": "Multiplying by X^k for 0 <= k < 2N and more gives the negacyclic shift; negative exponents are not supported.", "quantifier": "all polynomials and exponents", "why_tests_cant": "all exponents", "anchors": ["ring/ring_operations.go:MultByMonomial"]}
{"id": "C46", "title": "Accepted moduli are usable", "statement": "Moduli accepted by the parameter checks should be usable by the transforms: moduli up to 62 (63) bits are accepted although the lazy transforms overflow above 61 bits.", "quantifier": "all accepted chains", "why_tests_cant": "needs moduli that tests do not use", "anchors": ["rlwe/params.go:CheckModuli", "ring/ring_ntt.go:NTTLazy"]}
{"id": "C47", "title": "Integer rounded division", "statement": "Rounded division of big integers returns the nearest integer, ties away from zero, for every sign combination.", "quantifier": "all integers a and non-zero b", "why_tests_cant": "unbounded integers", "anchors": ["ring/int.go:DivRound"]}
{"id": "C48", "title": "Level bookkeeping of rescaling", "statement": "Rescaling must stop before the last modulus is consumed and divide the scale by exactly the dropped moduli; the loop can index below level zero.", "quantifier": "all levels, scales, moduli", "why_tests_cant": "depends on scale/moduli combinations", "anchors": ["ckks/evaluator.go:Rescale"]}
{"id": "C49", "title": "Small-norm basis extension", "statement": "Extending a polynomial with coefficients represented centred modulo q_0 to the other moduli yields the residues of the same signed integers.", "quantifier": "all polynomials with small norm", "why_tests_cant": "all polynomials", "anchors": ["rlwe/ring_qp.go:ExtendBasisSmallNormAndCenter"]}
{"id": "C50", "title": "Digit decomposition", "statement": "Splitting a polynomial into digits yields integers congruent to the polynomial modulo each block of moduli; summing digits times the gadget reconstructs the polynomial modulo Q.", "quantifier": "all levels, all polynomials, any number of special moduli", "why_tests_cant": "all polynomials", "anchors": ["ring/ring_basis_extension.go:DecomposeAndSplit", "ring/ring_basis_extension.go:NewDecomposer"]}
{"id": "C51", "title": "Multiplication by a power of two", "statement": "Multiplying by 2^k must give 2^k times the source in the destination; done in place it does, but with a separate destination the second pass reads the wrong polynomial and the Montgomery factor is missing.", "quantifier": "all polynomials and exponents", "why_tests_cant": "aliasing combined with all exponents", "anchors": ["ring/ring_operations.go:MulByPow2Lvl", "ring/ring_vector_ops.go:MulByPow2Vec"]}
{"id": "C52", "title": "Polynomial equality", "statement": "Comparing two polynomials of a ring answers true exactly when the integers they represent are congruent modulo the product of the compared moduli, for unreduced representatives as well; the arguments are left reduced.", "quantifier": "all chains, levels, words", "why_tests_cant": "all representatives", "anchors": ["ring/ring.go:EqualLvl", "ring/ring.go:Equal"]}
{"id": "C53", "title": "Scaling by t/Q", "statement": "Scaling a polynomial by t/Q returns the nearest integer to t*x/Q modulo t for every coefficient; the RNS version may be off by one near ties, the multi-precision version may return t itself instead of 0, and the RNS version of a lower-level input depends on the previous call.", "quantifier": "all chains, all polynomials", "why_tests_cant": "all coefficients, in particular those near ties", "anchors": ["ring/ring_scaling.go:RNSScaler", "ring/ring_scaling.go:SimpleScaler"]}
{"id": "C54", "title": "Constants, imaginary unit and negation", "statement": "Multiplying a ciphertext by a constant multiplies the decrypted polynomial by the Gaussian integer nearest to the constant (times a modulus and recorded in the scale if the constant is not integral); integers below 2^52 are exact and keep the scale; multiplying or dividing by i and negation act likewise. At 2^52+1 the factor used is 2^52+2, and a receiver of a higher level keeps stale rows.", "quantifier": "all ciphertexts of any degree and level, all constants in range", "why_tests_cant": "float64 rounding of all constants", "anchors": ["ckks/evaluator.go:MultByConst", "ckks/evaluator.go:getConstAndScale", "ckks/utils.go:scaleUpExact", "ckks/evaluator.go:MultByi", "ckks/evaluator.go:DivByi", "ckks/evaluator.go:Neg"]}
{"id": "C55", "title": "Product of ciphertexts", "statement": "The product of two degree-one ciphertexts decrypts to the product of the decryptions, exactly without relinearization and up to the bounded key-switching noise with it; products with plaintexts are exact. With a receiver of degree two the relinearized product keeps a stale third polynomial.", "quantifier": "all ciphertexts, keys, levels", "why_tests_cant": "noise bounds hold for all keys and ciphertexts", "anchors": ["ckks/evaluator.go:mulRelin", "ckks/evaluator.go:Mul", "ckks/evaluator.go:MulRelin"]}
{"id": "C56", "title": "Relinearized products as operands", "statement": "The result of a relinearized product can be used as an operand. It holds words up to 6q: sums and products of it are right, but negating it, subtracting it or rescaling it gives a wrong result until it is reduced.", "quantifier": "all ciphertexts and keys", "why_tests_cant": "only some words exceed the range the next operation expects", "anchors": ["ckks/evaluator.go:mulRelin", "ckks/evaluator.go:Neg", "ckks/evaluator.go:Sub", "ckks/evaluator.go:Rescale"]}
{"id": "C57", "title": "Relinearization", "statement": "Relinearizing a degree-two ciphertext gives a degree-one ciphertext with the same decryption up to the bounded key-switching noise.", "quantifier": "all ciphertexts, keys, levels", "why_tests_cant": "noise bounds hold for all keys and ciphertexts", "anchors": ["ckks/evaluator.go:Relinearize"]}
{"id": "C58", "title": "Key switching, rotation and conjugation of ciphertexts", "statement": "Switching the key of a ciphertext preserves its decryption up to the bounded noise; rotating by k (conjugating) applies X -> X^(5^k) (X -> X^-1) to the decrypted polynomial up to the bounded noise; rotating by 0 copies.", "quantifier": "all ciphertexts, keys, rotations, levels", "why_tests_cant": "all ciphertexts and rotations", "anchors": ["ckks/evaluator.go:SwitchKeys", "ckks/evaluator.go:Rotate", "ckks/evaluator.go:Conjugate", "ckks/evaluator.go:permuteNTT"]}
{"id": "C59", "title": "Addition of a constant", "statement": "Adding a constant adds the constant times the scale to the decrypted polynomial, in place; with another receiver the code writes only its first polynomial, so that the result is not the sum.", "quantifier": "all ciphertexts and constants", "why_tests_cant": "tests only use the in-place form", "anchors": ["ckks/evaluator.go:AddConst"]}
{"id": "C60", "title": "Rotation in place", "statement": "Rotating a ciphertext with itself as the receiver should give the rotated ciphertext; the code overwrites the first polynomial before reading it, so the result is wrong.", "quantifier": "all ciphertexts and rotations", "why_tests_cant": "tests use a separate receiver", "anchors": ["ckks/evaluator.go:permuteNTT", "ckks/evaluator.go:Rotate"]}
{"id": "C61", "title": "Ternary sampling with a probability", "statement": "Sampling with a probability gives one polynomial with coefficients -1, 0 and 1, the same in every RNS row; with probability 1/2 coefficient i is decided by bit i of two blocks. With probability 1/3 a coefficient -1 in front is never followed by 0, with probability 1 the sampler never returns, and with some probabilities it panics on some streams.", "quantifier": "all streams, chains, levels and probabilities", "why_tests_cant": "all random streams; correlations are invisible to tests", "anchors": ["ring/ring_sampler_ternary.go:sampleProba", "ring/ring_sampler_ternary.go:kysampling", "ring/ring_sampler_ternary.go:computeMatrixTernary"]}
{"id": "C62", "title": "Moduli chains generated from bit sizes", "statement": "GenModuli succeeds exactly for valid sizes with enough primes, and gives each size the primes chosen for it, in order; for sizes above logN every modulus is a prime congruent to 1 modulo 2N and moduli of equal size are distinct. Moduli of different sizes can coincide, within a chain and across the chains Q and P (accepted by the parameter constructor), and a size of at most logN gives a modulus that does not support the NTT.", "quantifier": "all ring degrees and size lists", "why_tests_cant": "collisions only appear for particular sizes", "anchors": ["rlwe/params.go:GenModuli", "rlwe/params.go:checkModuliLogSize", "rlwe/params.go:NewParametersFromLiteral"]}
{"id": "C63", "title": "Product with a constant added to a receiver", "statement": "MultByConstAndAdd adds the constant times the message to the receiver's message: an integer constant exactly, any other one to the nearest multiple of 1/q; the receiver is multiplied by the integer part of the ratio of the scales when its scale is smaller.", "quantifier": "all ciphertexts, constants, scales and levels", "why_tests_cant": "scales and constants are real numbers", "anchors": ["ckks/evaluator.go:MultByConstAndAdd"]}
{"id": "C64", "title": "Products with Gaussian integers", "statement": "MultByGaussianInteger multiplies the decrypted polynomial by a + b X^(N/2) for all integers a, b of the accepted types, and MultByGaussianIntegerAndAdd adds the product to the receiver's message without looking at the scales.", "quantifier": "all ciphertexts, all uint64, int64 and big integers", "why_tests_cant": "integers of any size and sign", "anchors": ["ckks/evaluator.go:MultByGaussianInteger", "ckks/evaluator.go:MultByGaussianIntegerAndAdd"]}
{"id": "C65", "title": "Setting and raising the scale", "statement": "SetScale should keep the message and set the scale. It does so, with one rescaling, when the ratio of the scales is not an integer and the scale was at least half of the new one, and exactly when the ratio is an integer and nothing is rescaled; when the ratio is not an integer and the scale was smaller, the message is multiplied by q. ScaleUp multiplies by the integer part of its argument (the comment says 2^scale).", "quantifier": "all ciphertexts and scales", "why_tests_cant": "tests only set scales close to the one of the ciphertext", "anchors": ["ckks/evaluator.go:SetScale", "ckks/evaluator.go:ScaleUp"]}
{"id": "C66", "title": "Sums without reduction, reduction, dropped levels", "statement": "AddNoMod and SubNoMod decrypt to the sum and difference with words bounded by the sum of the bounds; Reduce restores reduced words without changing the message; DropLevel keeps the message.", "quantifier": "all ciphertexts of any degrees, levels and word bounds", "why_tests_cant": "word bounds cannot be sampled", "anchors": ["ckks/evaluator.go:AddNoMod", "ckks/evaluator.go:SubNoMod", "ckks/evaluator.go:Reduce", "ckks/evaluator.go:DropLevel"]}
{"id": "C67", "title": "Products with powers of two and with i to new ciphertexts", "statement": "MulByPow2 multiplies the message by 2^k in place; with another receiver, as in MulByPow2New, the message is also divided by 2^64. MultByiNew of a ciphertext of degree two loses its third polynomial.", "quantifier": "all ciphertexts and exponents up to 64", "why_tests_cant": "tests only use small cases in place", "anchors": ["ckks/evaluator.go:MulByPow2", "ckks/evaluator.go:MulByPow2New", "ckks/evaluator.go:MultByiNew"]}
{"id": "C68", "title": "Hoisted rotation", "statement": "A hoisted rotation, computed from one decomposition of the second polynomial, decrypts to the rotated message plus the key-switching noise, for every rotation with a key.", "quantifier": "all reduced ciphertexts of degree one, all rotations, levels and keys", "why_tests_cant": "all keys and rotations", "anchors": ["ckks/evaluator.go:RotateHoisted", "ckks/evaluator.go:PermuteNTTHoisted", "rlwe/keyswitch.go:DecomposeNTT"]}
{"id": "C69", "title": "Coefficient encoding", "statement": "EncodeCoeffs stores the integer nearest to value*scale for each value, in the NTT domain, and DecodeCoeffs returns the coefficients over the scale; the round trip is accurate to 1/scale plus the float64 accuracy, and unused coefficients decode to 0. On a plaintext that was used before, the unused coefficients should be 0 too; they are not, EncodeCoeffs does not clear them.", "quantifier": "all rings, levels, scales, values up to 2^1000 and numbers of values up to N, any content of the encoder's buffers", "why_tests_cant": "rounding errors over all float64 values, all moduli chains", "anchors": ["ckks/encoder.go:EncodeCoeffs", "ckks/encoder.go:EncodeCoeffsNew", "ckks/encoder.go:DecodeCoeffs", "ckks/utils.go:floatToFixedPointCRT", "ckks/utils.go:singleFloatToFixedPointCRT", "ckks/utils.go:scaleDown"]}
{"id": "C70", "title": "Transform of sparse plaintexts", "statement": "NttAndMontgomeryLvl of a polynomial given by its 2*2^logSlots coefficients in steps of the gap gives the NTT of the polynomial in X^gap, in Montgomery form if asked.", "quantifier": "all rings, levels, numbers of slots from 8 to N/2 and polynomials", "why_tests_cant": "all sizes and moduli", "anchors": ["ckks/utils.go:NttAndMontgomeryLvl"]}
{"id": "C71", "title": "Special transforms", "statement": "The decoding transform evaluates a polynomial at the powers 5^k of a primitive root, the encoding transform is its inverse, and the unrolled and arbitrary-precision versions compute the same values.", "quantifier": "all sizes, all vectors, all commutative rings with roots of unity (the unrolled versions: any arithmetic whatsoever)", "why_tests_cant": "all sizes and inputs; the algebraic identity is not observable in floating point", "anchors": ["ckks/ckks_vector_ops.go:SpecialFFTVec", "ckks/ckks_vector_ops.go:SpecialiFFTVec", "ckks/ckks_vector_ops.go:SpecialFFTUL8Vec", "ckks/ckks_vector_ops.go:SpecialiFFTUL8Vec", "ckks/encoder.go:FFT", "ckks/encoder.go:InvFFT", "ckks/utils.go:SliceBitReverseInPlaceComplex128"]}
{"id": "C72", "title": "Slots", "statement": "The slots of a plaintext polynomial are what the exact decoding transform gives; sums and products of polynomials are slot-wise sums and products, the automorphism X -> X^(5^r) rotates the slots by r, X -> X^-1 conjugates them, and the slots have period N/2.", "quantifier": "all degrees, polynomials, slots and rotations", "why_tests_cant": "algebraic identities for all sizes", "anchors": ["ckks/encoder.go:Encode", "ckks/encoder.go:Decode", "ckks/evaluator.go:Rotate", "ckks/evaluator.go:Conjugate"]}
{"id": "C73", "title": "Slot encoding and decoding", "statement": "Encode writes a polynomial in X^gap whose slots are the scaled values up to rounding and the accumulated error of the complex128 transform; Decode returns the slots of the plaintext polynomial over the scale up to that error. The returned plaintext should always be marked as in the NTT domain; Encode does not update the mark. For the smallest degree, 16, with 8 slots, the transforms access memory beyond the encoder's buffer.", "quantifier": "all rings, levels, scales, numbers of slots from 8, values, tables of roots of any given accuracy and contents of the buffers", "why_tests_cant": "floating-point errors over all inputs and sizes", "anchors": ["ckks/encoder.go:Encode", "ckks/encoder.go:Decode", "ckks/encoder.go:Embed", "ckks/encoder.go:polyToComplexNoCRT", "ckks/encoder.go:polyToComplexCRT", "ckks/utils.go:complexToFixedPointCRT"]}
{"id": "C74", "title": "Slot round trip", "statement": "Decode(EncodeNew(values)) returns the values, each up to 2^L(2/scale + 5A g), where A bounds the values and g is about (L+2) times the accuracy of the roots and of float64, provided that the scaled values fit into the modulus.", "quantifier": "all rings, levels, scales, numbers of slots from 8, values and tables of roots", "why_tests_cant": "a bound that holds for all inputs", "anchors": ["ckks/encoder.go:EncodeNew", "ckks/encoder.go:Decode"]}
{"id": "C75", "title": "Decryption to a message", "statement": "Decrypting a ciphertext that carries the values v at its scale, with an error of at most eps, returns 2^L finite values, each within eps/scale plus the accuracy of the transform of v, whatever the decryptor has decrypted before, provided that the scaled values and the error fit into the modulus of the lowest level seen.", "quantifier": "all rings, keys, ciphertexts of any degree and level, messages, numbers of slots, histories of the decryptor and tables of roots", "why_tests_cant": "floating-point and encryption errors over all inputs; depends on the history", "anchors": ["fckks/decryptor.go:DecryptToMsg", "fckks/decryptor.go:DecryptToMsgNew", "rlwe/decryptor.go:Decrypt", "ckks/encoder.go:Decode"]}
{"id": "C76", "title": "Encryption of a message", "statement": "EncryptMsg gives a ciphertext that carries the values at the scale of the pooled plaintext, with an explicit bound of the error (encoding, the errors sampled, the error of the public key and the division by the special modulus), for every content of the receiver and of the buffers, and leaves the encryptor ready for the next message.", "quantifier": "all rings, keys, messages, receivers and sampled polynomials of given size", "why_tests_cant": "a bound over all random choices and messages", "anchors": ["fckks/encryptor.go:EncryptMsg", "ckks/encryptor.go:Encrypt", "rlwe/encryptor.go:Encrypt", "ckks/encoder.go:Encode"]}
{"id": "C77", "title": "Evaluators act on messages", "statement": "Sums, differences, products (ckks and fckks), rotations, conjugation and rescaling act on the values carried by ciphertexts slot by slot: the results carry the sums, differences, products, rotated and conjugated values and the same values, with explicit bounds of the error, at the scale the code sets.", "quantifier": "all rings, keys, ciphertexts of any level, messages, rotations, scales", "why_tests_cant": "bounds over all inputs and keys; the slot structure is not visible to a test of one message", "anchors": ["fckks/evaluator.go:MulRelin", "fckks/evaluator.go:RotateNew", "ckks/evaluator.go:Add", "ckks/evaluator.go:Sub", "ckks/evaluator.go:MulRelin", "ckks/evaluator.go:Rotate", "ckks/evaluator.go:Conjugate", "ckks/evaluator.go:Rescale"]}
{"id": "C78", "title": "Keys and encryptions from a generator", "statement": "For every stream of bytes: the secret key generated has exactly h coefficients 1 or -1, the public key is an encryption of 0 with an error of at most 6 sigma, the relinearization and rotation keys of the fast evaluator switch to the secret with errors of at most 6 sigma, and encryption of a message carries the message; nothing panics, and the samplers are left in a state that can be used again. What is drawn depends only on bytes that have not been used for anything drawn before.", "quantifier": "all byte streams, standard deviations, weights, rings and states of the samplers", "why_tests_cant": "all random streams", "anchors": ["rlwe/keygen.go:GenSecretKey", "rlwe/keygen.go:GenPublicKey", "rlwe/keygen.go:genSwitchingKey", "frlwe/keygen.go:GenRelinKey", "frlwe/keygen.go:GenRotKey", "rlwe/encryptor.go:Encrypt", "fckks/encryptor.go:EncryptMsg"]}
{"id": "C79", "title": "Programs", "statement": "A straight-line program of calls of the fast evaluator (AddNew, SubNew, MulRelinNew, RotateNew, Rescale) whose levels, scales and keys pass a static analysis never fails, and every ciphertext it makes carries the vector that the same program computes on complex vectors, with the error bound computed by the analysis.", "quantifier": "all programs of any length, all parameters, keys, inputs and contents of the buffers", "why_tests_cant": "composition over programs of any length", "anchors": ["fckks/evaluator.go:NewEvaluator", "fckks/evaluator.go:MulRelinNew", "fckks/evaluator.go:RotateNew", "ckks/evaluator.go:AddNew", "ckks/evaluator.go:SubNew", "ckks/evaluator.go:Rescale"]}
{"id": "C80", "title": "Sessions", "statement": "Keys drawn from one generator, messages encoded and encrypted with another, a program run by the fast evaluator, decryption and decoding: no step panics, and each value returned is within the bound computed by the analysis of the value that the program computes on the messages.", "quantifier": "all byte streams, parameters, messages, programs and tables of roots", "why_tests_cant": "the whole chain of randomness, rounding and noise", "anchors": ["fckks/keygen.go:NewKeyGenerator", "fckks/encryptor.go:EncryptMsgNew", "fckks/evaluator.go:MulRelinNew", "fckks/evaluator.go:RotateNew", "fckks/decryptor.go:DecryptToMsgNew"]}
{"id": "C81", "title": "Construction of rings", "statement": "NewRing succeeds for every power-of-two degree and every list of distinct primes congruent to 1 modulo 2N below 2^63: the searches for factors and roots end. getFactors returns the primes of the table that divide the argument and the cofactor; the root returned by primitiveRoot generates the multiplicative group if the cofactor of q-1 is 1 or prime. (Refuted: the factors are not always prime, the root is not always primitive, because the Pollard walk never finds a factor.)", "quantifier": "all degrees, all lists of moduli, all primes", "why_tests_cant": "termination and order for all primes; the composite cofactors are rare", "anchors": ["ring/ring.go:NewRing", "ring/ring.go:genNTTParams", "ring/utils.go:primitiveRoot", "ring/utils.go:getFactors", "ring/utils.go:factorizationPollardsRho"]}
{"id": "C82", "title": "Parameter literals and the published parameter sets", "statement": "rlwe.NewParameters accepts exactly the chains of distinct primes congruent to 1 modulo 2N (4N for the conjugate-invariant ring) below its size limits, and builds the rings with these moduli. The literals of ckks, frlwe and fckks give these parameters, with the defaults for what is unset. Each of the 20 default parameter sets of ckks and the 3 sets of the fast key switching is accepted and meets the conditions of the correctness theorems: blocks of Q are at most P, the errors fit, and the auxiliary moduli T are large enough at every level. (Refuted: frlwe and fckks literals that give the chains by LogQ and LogP; they always panic.)", "quantifier": "all degrees, moduli, ring types; all published sets", "why_tests_cant": "acceptance for all chains; primality of 252 moduli and the size of T are not tested", "anchors": ["rlwe/params.go:NewParameters", "rlwe/params.go:NewParametersFromLiteral", "ckks/params.go:NewParametersFromLiteral", "ckks/params.go:DefaultParams", "frlwe/params.go:NewParametersFromLiteral", "fckks/params.go:NewParametersFromLiteral", "fckks/fckks_test.go:PN15QP870"]}
{"id": "C83", "title": "Accuracy with a published parameter set", "statement": "With the parameter set PN15QP870 of the fast key switching (N = 2^15, 2^14 slots, scale 2^36, default sigma), whatever the generators yield: values of modulus at most 1 that are encoded, encrypted, decrypted and decoded are within 1/60; for two such messages a, b, the program Mul, Rotate by 1, Add, Rescale gives values within 1/12 of a(k)b(k)+a(k+1)b(k+1), in every slot.", "quantifier": "all messages, all keys and randomness, all roots tables of accuracy 2^-48", "why_tests_cant": "a guarantee for every outcome of the random generators, not for the ones that a test happens to draw", "anchors": ["fckks/fckks_test.go:PN15QP870", "fckks/evaluator.go:MulRelinNew", "fckks/evaluator.go:RotateNew", "ckks/encoder.go:Decode", "ckks/encryptor.go:EncryptNew", "ckks/evaluator.go:Rescale"]}
{"id": "C84", "title": "Conjugate-invariant transforms", "statement": "In a conjugate-invariant ring the word list c_0..c_(N-1) stands for c_0 + sum c_j (X^j + X^-j). The forward transform holds at position k the value of this polynomial at an odd power of a root psi of X^2N+1, exponent 2*bitrev(k)+1; the backward transform undoes it in both orders, also in the lazy variants; the product of transforms is the transform of the product of the polynomials in Z[X]/(X^2N+1), which is again conjugate-invariant. Lazy inputs below 4q give words below 8q, the inverse gives words below 2q. (Refuted: the documented range [0,2q-1] of the lazy forward transform.)", "quantifier": "all rings built by NewRingConjugateInvariant with 8q <= 2^64, all levels, all inputs with the headroom", "why_tests_cant": "the folded butterflies differ from the standard ones; no test compares them with the polynomial they stand for", "anchors": ["ring/ring_ntt.go:NTTConjugateInvariantLazy", "ring/ring_ntt.go:NTTConjugateInvariant", "ring/ring_ntt.go:InvNTTConjugateInvariant", "ring/ring_ntt.go:invNTTConjugateInvariantCore", "ring/ring_ntt_interface.go:NumberTheoreticTransformerConjugateInvariant", "ring/ring.go:NewRingConjugateInvariant"]}
{"id": "C85", "title": "Passing between conjugate-invariant and standard rings", "statement": "UnfoldConjugateInvariantToStandard of a transform is the standard transform of degree 2N of the same polynomial; FoldStandardToConjugateInvariant of a standard transform, with the index of X -> X^-1, is the transform of p(X) + p(X^-1). PermuteNTT of a conjugate-invariant ring is the automorphism X -> X^g for g = 1 mod 4; for g = 3 mod 4 every index lies outside the rows. StandardRing and ConjugateInvariantRing give the rings that the constructors would build, and undo each other. (Refuted: the degrees the comments ask for make both conversions panic; PadDefaultRingToConjuateInvariant sends different polynomials to the same one.)", "quantifier": "all pairs of rings on the same moduli, all levels, all polynomials, all Galois elements", "why_tests_cant": "the order of the evaluation points of two different transforms has to match at every size", "anchors": ["ring/conjugate_invariant.go:UnfoldConjugateInvariantToStandard", "ring/conjugate_invariant.go:FoldStandardToConjugateInvariant", "ring/conjugate_invariant.go:PadDefaultRingToConjuateInvariant", "ring/ring.go:StandardRing", "ring/ring.go:ConjugateInvariantRing", "ring/ring_automorphism.go:PermuteNTTIndex"]}
{"id": "C86", "title": "Changing the degree of a ciphertext", "statement": "Repeating each word of a transform of degree n N/n times gives the transform of degree N of p(X^(N/n)). A ciphertext of degree n moved to degree N decrypts under s(X^(N/n)) to m(X^(N/n)); a ciphertext of degree N under s(X^(N/n)) moved to degree n decrypts under s to the coefficients of the message at the multiples of N/n. Both functions write the result to the receiver and leave the source. (Refuted for the NTT domain from N to n: the receiver is never written and the source is destroyed; on coefficients from n to N a receiver that is not zero keeps its other words.)", "quantifier": "all pairs of rings on the same moduli, all degrees, levels, ciphertexts of any number of parts, keys and contents of the buffers", "why_tests_cant": "the identity has to hold at all degrees and for every polynomial; a test with a fresh receiver cannot see what is left in it", "anchors": ["ring/ring_operations.go:MapSmallDimensionToLargerDimensionNTT", "rlwe/elements.go:SwitchCiphertextRingDegreeNTT", "rlwe/elements.go:SwitchCiphertextRingDegree", "rlwe/decryptor.go:Decrypt"]}
{"id": "C87", "title": "Switching keys between rings", "statement": "GenSwitchingKey gives a switching key in the ring of the larger degree: from s'(X^(N/n)) to s when the input secret has the smaller or the same degree, also when it has fewer rows than the output, and from s' to s(X^(N/n)) when the output secret has the smaller degree. GenSwitchingKeysForRingSwap gives the keys from the standard secret to the conjugate-invariant secret seen in the standard ring and back.", "quantifier": "all rings, degrees, levels, secrets, errors, uniform polynomials and contents of the buffers", "why_tests_cant": "all secrets and random choices", "anchors": ["rlwe/keygen.go:GenSwitchingKey", "rlwe/keygen.go:GenSwitchingKeysForRingSwap", "rlwe/keygen.go:genSwitchingKey"]}
{"id": "C88", "title": "Copies", "statement": "CopyNew of a polynomial, ciphertext, public key, switching key or relinearization key yields the same contents in memory of its own: whatever is written afterwards through the copy is not seen through anything that existed before, and the other way round. Copy on an existing polynomial or ciphertext transfers the rows both have and the flags and changes nothing else. Ciphertexts and plaintexts made from given polynomials share their words with them. Shift and the rotations of slices give a new slice with the words rotated. (Refuted: a key without components is copied to nil; a receiver with more rows keeps its own; Shift by 0 makes the receiver share the rows of the source and Shift by a negative number or more than N panics; the rotation by 0 returns its argument.)", "quantifier": "all memories, all polynomials and keys, all later sequences of changes through any pointers", "why_tests_cant": "sharing shows only in later writes; all sequences of them", "anchors": ["ring/ring_poly.go:CopyNew", "ring/ring_poly.go:Copy", "rlwe/ring_qp.go:CopyNew", "rlwe/keys.go:CopyNew", "rlwe/elements.go:CopyNew", "rlwe/elements.go:Copy", "ckks/ciphertext.go:CopyNew", "ckks/ciphertext.go:NewCiphertextAtLevelFromPoly", "ring/ring_operations.go:Shift", "utils/utils.go:RotateUint64Slice"]}
{"id": "C89", "title": "Equality of polynomials and keys", "statement": "Equals of polynomials, public keys, switching keys, relinearization keys and rotation key sets holds exactly if all the rows are the same, in the same places (for rotation keys: under the same Galois elements); a copy equals the original. Includes holds exactly if the Galois elements of the other set are all present. (Refuted: with a nil component Equals is not symmetric; keys of included sets may differ; equal polynomials may have different flags.)", "quantifier": "all memories, polynomials and keys, also nil ones", "why_tests_cant": "an equivalence over all pairs of keys", "anchors": ["ring/ring_poly.go:Equals", "rlwe/ring_qp.go:Equals", "rlwe/keys.go:Equals", "rlwe/keys.go:Includes"]}
{"id": "C90", "title": "Shallow copies can be used concurrently", "statement": "A decryptor and any number of copies of it by ShallowCopy or WithKey, each used by one goroutine for any number of calls, never interfere: however the steps of the goroutines follow each other, each call leaves in its plaintext what it would leave if nothing else ran, ciphertexts and keys (which may be shared) are unchanged, and there is no data race. The same for encryptors with a secret key. One decryptor may be shared while all ciphertexts are in the NTT domain. (Refuted: sharing one decryptor for coefficient-domain ciphertexts, or one encryptor, gives wrong results under some schedules.)", "quantifier": "all numbers of goroutines, copies and calls, all sizes and contents, all interleavings", "why_tests_cant": "the schedules are too many to try, and wrong ones are rare", "anchors": ["rlwe/decryptor.go:ShallowCopy", "rlwe/decryptor.go:WithKey", "rlwe/decryptor.go:Decrypt", "rlwe/encryptor.go:ShallowCopy", "rlwe/encryptor.go:WithKey", "rlwe/encryptor.go:Encrypt"]}
{"id": "C91", "title": "Rotations without division by P", "statement": "SwitchKeysInPlaceNoModDown and KeyswitchHoistedNoModDown give, modulo every modulus of Q up to the level and every modulus of P, a pair with c0 + c1 s = P A s' + F with a small F; decomposing first gives the same words. RotateHoistedNoModDownNew gives one entry for each rotation other than 0, a pair that encrypts P times the rotated plaintext; a missing key is a panic. Such pairs add, and a single division by P of the sum of any number of rotations gives a ciphertext of the sum of the rotated plaintexts with the rounding error of one division.", "quantifier": "all rings, levels, keys, ciphertexts, lists of rotations and contents of the buffers", "why_tests_cant": "the bound and the congruence have to hold for all words and any number of rotations; tests compare decoded values up to a precision", "anchors": ["ckks/evaluator.go:RotateHoistedNoModDownNew", "ckks/evaluator.go:PermuteNTTHoistedNoModDown", "rlwe/keyswitch.go:SwitchKeysInPlaceNoModDown", "rlwe/keyswitch.go:KeyswitchHoistedNoModDown"]}
{"id": "C92", "title": "Bit reversal, rotation of evaluations and export of a ring", "statement": "BitReverse writes word j of every row at the index with the bits of j reversed and nothing else; in place it gives the same; twice it gives the words back; on a polynomial in the NTT domain it lists the values at psi, psi^3, psi^5, ... in this order. Rotate by n multiplies word j by psi^(2nj); on values this is the product by X^n up to the constant psi^-n of each modulus, on coefficients (between an inverse and a forward transform and two bit reversals) it is a cyclic shift of the values by n places. MarshalBinary followed by UnmarshalBinary gives a ring with the same tables, and different rings have different exports. Disagreements with the documentation: Rotate writes its source and never its destination; a negative n is ignored when N >= 64; a ring imported into a fresh object has no transformer, so that Type and NTT panic; a conjugate-invariant ring imported into a standard one keeps the standard transform.", "quantifier": "all rings, rows, rotations, receivers", "why_tests_cant": "the permutation and the powers of the root have to be right at every index of every ring; the only test rotates by 1 in place, and the test of the import only compares N and the moduli", "anchors": ["ring/ring_operations.go:BitReverse", "ring/ring_operations.go:Rotate", "ring/ring.go:MarshalBinary", "ring/ring.go:UnmarshalBinary", "ring/ring.go:Type", "ring/ring.go:NewRingFromType"]}
{"id": "C93", "title": "Sets of rotation keys hold what was asked for, and the lists of rotations suffice for the sums they are made for", "statement": "GenRotationKeys returns a set with exactly one key for each distinct Galois element of its list, and each of these keys is a valid key for its automorphism, also when the list has repetitions. With the set of GenRotationKeysForRotations, RotateNew by k rotates (up to the key switching noise) when k is congruent to a listed rotation modulo the number of slots and panics otherwise, and ConjugateNew works exactly when includeConjugate was set. GenRotationKeysForInnerSum gives the keys for the powers of two and the conjugation, and adding to a ciphertext its rotations by 1, 2, 4, ... with them gives the sum of all N/2 rotations, with the noise of N/2 - 1 key switchings. RotationsForInnerSum and RotationsForReplicate cover every multiple of the batch, RotationsForInnerSumLog and RotationsForReplicateLog, in whatever order the map is visited, and RotationsForTrace allow the corresponding sum to be computed with a logarithmic number of rotations, also when the products of ints wrap. RotationsForInnerSumLog never returns for n above 2^62.", "quantifier": "all ring pairs, secrets, draws, lists of Galois elements or rotations, ciphertexts, levels, batches and counts, and all orders of iteration of the map", "why_tests_cant": "Tests generate keys for a few rotations and rotate by those; they cannot cover all lists, repetitions, congruent and wrapped rotations, nor the order of iteration of a map.", "anchors": ["rlwe/keygen.go: GenRotationKeys, GenRotationKeysForRotations, GenRotationKeysForInnerSum, GenSwitchingKeyForRotationBy, GenSwitchingKeyForRowRotation, GenSwitchingKeyForGalois", "rlwe/keys.go: NewRotationKeySet, GetRotationKey", "rlwe/params.go: GaloisElementsForRowInnerSum", "ckks/params.go: RotationsForInnerSum, RotationsForInnerSumLog, RotationsForReplicate, RotationsForReplicateLog, RotationsForTrace", "ckks/evaluator.go: RotateNew, ConjugateNew, AddNew"]}
{"id": "C94", "title": "Secret keys of every kind are of that kind, and everything also works without special moduli", "statement": "GenSecretKey, GenSecretKeyGaussian, GenSecretKeyWithDistrib and GenSecretKeyWithHammingWeight give a key that holds, modulo Q and modulo P, one small secret of the kind asked for: ternary with exactly h nonzero coefficients for the first, at most 6 sigma for the second, ternary for the third, ternary with exactly the given weight (at most N) for the fourth; only the probability of the third can make the sampler panic, and the last two leave the samplers of the generator untouched. A Gaussian secret depends only on bytes not used before. With probability 1/2 or 1/3 a key is always made, with probability 1 never. For a parameter set without special moduli, the secret key, the public key and the encryption under it satisfy the same specifications: decrypting an encryption gives the message plus a noise of at most N Be + B + N B Bs. GenSecretKey and GenPublicKey of the generator of the fast evaluator never return.", "quantifier": "all rings, kinds of secrets, probabilities, weights, random bytes, states of the samplers, plaintexts, levels and domains", "why_tests_cant": "Tests draw a few keys of one kind for parameter sets with special moduli; they cannot cover all draws, probabilities and weights, nor show that a call never returns.", "anchors": ["rlwe/keygen.go: GenSecretKey, GenSecretKeyGaussian, GenSecretKeyWithDistrib, GenSecretKeyWithHammingWeight, genSecretKeyFromSampler, GenPublicKey", "rlwe/encryptor.go: Encrypt, encryptNoP", "rlwe/decryptor.go: Decrypt", "frlwe/keygen.go: GenSecretKey, GenPublicKey"]}
{"id": "C95", "title": "Values of parameters, constants for dividing by P, and random elements are what they are said to be", "statement": "QBigInt, PBigInt, QPBigInt and QLvl are the products of the moduli of Q, of P, of both, and of the first level + 1 moduli of Q (a level outside of the chain panics). LogQ, LogP, LogQP and LogQLvl of accepted parameters are the exact numbers of bits of these products; LogQP is LogQ + LogP or one less, and each level adds more than LogN bits. Slots, MaxSlots and MaxLogSlots of accepted parameters are 2^LogSlots, N/2 or N by the ring type, and its logarithm, and LogSlots is never above MaxLogSlots. Montgomery multiplication by the constants of GenSwitchkeysRescalingParams divides by P modulo each modulus of Q that divides none of P; for a shared modulus the constant is 0. The uniform sampler modulo Q and P and NewCiphertextRandom give canonical polynomials of the degree, level and scale asked for, that depend only on bytes not used before; but the random ciphertext is not marked as being in the NTT domain, so that Add and Sub panic on it. NewAdditiveShare, said to be at the maximum level, is at level 0.", "quantifier": "all parameter sets, chains of moduli, levels, ring types, rings, random bytes, degrees and scales", "why_tests_cant": "Tests look at a few parameter sets; they cannot cover all chains, lengths at the boundary of a power of two, all bytes, nor exclude shared moduli.", "anchors": ["rlwe/params.go: N, Q, P, QP, QCount, PCount, QPCount, MaxLevel, QBigInt, PBigInt, QPBigInt, LogQ, LogP, LogQP", "ckks/params.go: QLvl, LogQLvl, Slots, MaxSlots, MaxLogSlots", "ckks/utils.go: GenSwitchkeysRescalingParams", "rlwe/ring_qp.go: NewUniformSamplerQP, Read", "rlwe/elements.go: NewCiphertext, NewCiphertextRandom, PopulateElementRandom, NewAdditiveShare, NewAdditiveShareAtLevel, GetSmallestLargest", "ckks/ciphertext.go: NewCiphertextRandom"]}
{"id": "C96", "title": "Encryption from a shared polynomial uses that polynomial, and encryptions of several parties add up", "statement": "EncryptFromCRP and EncryptFromCRPNew with a secret key, given a shared polynomial with at least as many rows as the level, make a ciphertext whose second polynomial is the shared one (taken as being in the NTT domain) and that decrypts to the message with one sampled error of at most the bound of the sampler; level, scale, degree and domain are as documented. The first polynomials of two parties for the same shared polynomial add up to an encryption of the sum of the messages under the sum of the secrets, and the sum of the keys is a key of that sum; under the same key their difference shows the difference of the messages to everybody. With a public key both panic. The claim that the message is hidden whenever the call succeeds is refuted: a shared polynomial with fewer rows than the plaintext is accepted, and the rows it lacks then hold 0 and the message with the error in clear.", "quantifier": "all rings, levels, secrets, shared polynomials, messages, plaintexts and receivers in either domain, random bytes and states of the samplers", "why_tests_cant": "Tests encrypt with a few sampled polynomials at one level; they cannot cover all levels, receivers, bytes and pairs of parties, nor what a polynomial with missing rows shows.", "anchors": ["rlwe/encryptor.go: EncryptFromCRP, encrypt", "ckks/encryptor.go: EncryptFromCRP, EncryptFromCRPNew", "ring/ring_poly.go: CopyValues, CopyValuesLvl"]}
