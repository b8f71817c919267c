{"id": "C01", "title": "Scalar codec is a canonical bijection on 32-byte strings", "statement": "Serialize of any scalar is exactly 32 bytes and Scalar.Deserialize returns the same scalar; conversely every 32-byte string that Deserialize accepts is the Serialize of the result, and it is accepted exactly when its big-endian value is below the group order. Tagged forms round-trip too.", "quantifier": "every scalar; every 32-byte string", "why_tests_cant": "2^256 inputs; tests only sample a handful and the rejection region (2^128 values above the order) is never hit at random", "anchors": ["curve/scalar.go:Deserialize,DeserializeTagged", "curve/k256_scalar.go:Deserialize,Serialize,SerializeTagged"]}
{"id": "C02", "title": "Scalar.Deserialize on other lengths", "statement": "Scalar.Deserialize does not enforce the 32-byte length: for any byte string it decodes the low-order 32 bytes of it (zero-extending short strings), so distinct strings decode to the same scalar. A caller relying on uniqueness of encodings for arbitrary-length inputs is wrong (refuted), and the exact set of accepted strings is characterised.", "quantifier": "every byte string of every length", "why_tests_cant": "unbounded input lengths", "anchors": ["curve/k256_scalar.go:Deserialize", "common/utils.go:ReverseBytes"]}
{"id": "C03", "title": "Wide reduction is big-endian reduction modulo the group order", "statement": "Scalar.FromBytesWide on at most 64 bytes returns the big-endian integer reduced modulo the order; above 64 bytes it panics; it never returns an error or another value.", "quantifier": "every byte string", "why_tests_cant": "512-bit input space, and boundary behaviour at every length", "anchors": ["curve/scalar.go:FromBytesWide", "curve/k256_scalar.go:FromWideBytes"]}
{"id": "C04", "title": "Compressed point codec round-trips and is injective", "statement": "For every point of the curve (identity included) Serialize gives 33 bytes, Point.Deserialize of those bytes returns the same point, and two points with the same encoding are equal.", "quantifier": "every point of secp256k1", "why_tests_cant": "about 2^256 points; needs the square-root algorithm to be right for every residue", "anchors": ["curve/k256_point.go:Serialize,encodePoint,decompress", "curve/point.go:Deserialize", "curve/encode.go"]}
{"id": "C05", "title": "Point.Deserialize only yields curve points, but decodes invalid x-coordinates to the identity", "statement": "Whatever 33 bytes are given, Point.Deserialize either errors or returns a point on the curve. It does not reject x-coordinates without a point (returns the identity with nil error) nor x >= p (reduces), so 'accepted implies re-encodes to the same bytes' is refuted; the exact accepted set and result are characterised.", "quantifier": "every byte string", "why_tests_cant": "half of all 2^256 x-coordinates are non-residues; a test samples few and asserts only success", "anchors": ["curve/point.go:Deserialize", "curve/k256_point.go:decompress,fromEncodedPoint"]}
{"id": "C06", "title": "Point.DeserializeTagged never decodes what SerializeTagged produced", "statement": "A user expects DeserializeTagged(SerializeTagged(P)) = P. For every byte string whatsoever, Point.DeserializeTagged never returns a usable point: it errors, panics, or returns nil with nil error.", "quantifier": "every point and every byte string", "why_tests_cant": "negative universal statement over all inputs", "anchors": ["curve/point.go:DeserializeTagged", "curve/k256_point.go:SerializeTagged"]}
{"id": "C07", "title": "SerializeUncompressed is unusable on non-identity points", "statement": "SerializeUncompressed panics for every point other than the identity, and for the identity returns 33 zero bytes rather than a 65-byte uncompressed encoding.", "quantifier": "every point", "why_tests_cant": "quantified over all points", "anchors": ["curve/k256_point.go:SerializeUncompressed,encodePoint", "curve/encode.go:FromAffineCoordinates"]}
{"id": "C08", "title": "CBOR marshalling of points and scalars", "statement": "UnmarshalCBOR(MarshalCBOR(x)) = x for every scalar and for every non-identity point; for the identity point decoding its own encoding fails. Which payloads panic is characterised.", "quantifier": "every scalar, every point, every payload", "why_tests_cant": "whole-domain round trip, plus a negative case", "anchors": ["curve/k256_point.go:MarshalCBOR,UnmarshalCBOR", "curve/k256_scalar.go:MarshalCBOR,UnmarshalCBOR"]}
{"id": "C09", "title": "Uncompressed decoding does not check the curve equation", "statement": "A user of DeserializeAnyFormat (or FromFieldElems) expects rejection of coordinates off the curve. Every pair of coordinates is accepted, on the curve or not.", "quantifier": "every pair of coordinates", "why_tests_cant": "universal statement; tests only decode honest points", "anchors": ["curve/k256_point.go:fromUncompressed,fromEncodedPoint", "curve/point.go:DeserializeAnyFormat,FromFieldElems"]}
{"id": "C10", "title": "MulByNodeIndex equals scalar multiplication by FromNodeIndex", "statement": "For every node index representable in a Go int (negative and extreme values included) P.MulByNodeIndex(i) = FromNodeIndex(i) * P, both meaning i+1 modulo 2^64.", "quantifier": "every 64-bit index, every point", "why_tests_cant": "2^64 indices including integer wrap-around", "anchors": ["curve/k256_point.go:MulByNodeIndex", "curve/scalar.go:FromNodeIndex", "common/types.go"]}
{"id": "C11", "title": "Node evaluation points are distinct and non-zero", "statement": "Distinct node indices map to distinct evaluation scalars, and only index -1 maps to zero; so no node with a non-negative index ever receives the shared secret itself.", "quantifier": "every pair of 64-bit indices", "why_tests_cant": "needs the order to exceed 2^64 and a wrap argument", "anchors": ["curve/scalar.go:FromNodeIndex"]}
{"id": "C12", "title": "Hash-to-curve always lands on the curve", "statement": "For every field element, the SSWU map followed by the isogeny never errors and gives a point satisfying the curve equation (in particular the isogeny denominators never vanish); hence HashToPoint returns a curve point for every message and domain separator.", "quantifier": "every field element, every message and domain separator", "why_tests_cant": "2^256 field elements; exceptional cases have probability about 2^-255 so no test reaches them", "anchors": ["curve/hash_to_curve.go:MapToCurve,sswu,sqrtRatio,sswuIsogenySecp256k1,HashToCurveRo,HashToField"]}
{"id": "C13", "title": "ExpandMessageXmd is RFC 9380 expand_message_xmd", "statement": "For every message, domain separator and length the result equals RFC 9380 section 5.3.1 instantiated with the hash: exactly the requested number of bytes, an error above 8160 bytes, oversize domain separators hashed first.", "quantifier": "every message, every DST, every length, every hash function", "why_tests_cant": "unbounded inputs and every block count", "anchors": ["seed/xmd.go:ExpandMessageXmd"]}
{"id": "C14", "title": "Random-oracle inputs are order independent", "statement": "Adding the same named inputs to a RandomOracle in any order gives the same outcome (OutputScalars, OutputByteString, OutputPoint).", "quantifier": "every list of inputs and every permutation", "why_tests_cant": "factorially many orders and unbounded inputs", "anchors": ["ro/ro.go:AddInput,formRoInput"]}
{"id": "C15", "title": "Random-oracle encoding is injective", "statement": "Two oracles with the same domain separator whose hashed input strings coincide hold exactly the same set of (name, type, data) entries.", "quantifier": "every pair of oracle states reachable through the API", "why_tests_cant": "collision-freeness of an encoding over unbounded inputs", "anchors": ["ro/ro.go:formRoInput,AddInput,AddPoint,AddScalar,AddUint64,AddBytesString"]}
{"id": "C16", "title": "AddInput rejects exactly the malformed inputs and leaves the oracle unchanged", "statement": "AddInput fails exactly if the name is a duplicate, empty or longer than 255 bytes or the encoded data exceeds 255 bytes, and a failed call does not change what is hashed.", "quantifier": "every oracle state, name and data", "why_tests_cant": "all histories of calls", "anchors": ["ro/ro.go:AddInput"]}
{"id": "C17", "title": "Associated data longer than 255 bytes is silently not bound", "statement": "A user expects proofs and proofs of possession made for one associated data to depend on it. For associated data longer than 255 bytes the challenge is computed as though no associated data were supplied, so a proof made for one such string verifies for any other (refuted); up to 255 bytes the hashed input is injective in the associated data.", "quantifier": "every pair of associated data strings, every proof statement", "why_tests_cant": "depends on ignored error returns for large inputs", "anchors": ["ro/ro.go:AddInput", "zk/dlog.go:HashToChallenge", "zk/equal_opening.go:HashToChallenge", "zk/product.go:HashToChallenge", "mega/mega.go:ComputePopBase"]}
{"id": "C18", "title": "Challenges of different proof systems never hash the same input", "statement": "Although proof-of-product uses the domain separator of proof-of-equal-openings, the byte string hashed for one kind of proof can never be equal to that hashed for another kind.", "quantifier": "every pair of statements, commitments and associated data", "why_tests_cant": "cross-protocol collision freedom over unbounded inputs", "anchors": ["zk/product.go:HashToChallenge", "zk/equal_opening.go:HashToChallenge", "zk/dlog.go:HashToChallenge"]}
{"id": "C19", "title": "Discrete-log-equality proofs are complete", "statement": "A proof made by Create for exponent x, bases g and h verifies for (g,h,xg,xh) under the same associated data.", "quantifier": "every seed, exponent, pair of bases, associated data", "why_tests_cant": "all inputs; tests try one random instance", "anchors": ["zk/dlog.go:Create,Verify"]}
{"id": "C20", "title": "Equal-openings and product proofs are complete", "statement": "Proofs made by Create verify for honest statements: (Pedersen(s,m), s*G) for equal openings; (lhs*G, Pedersen(rhs,m), Pedersen(lhs*rhs,pm)) for products.", "quantifier": "every seed, secrets, masks, associated data", "why_tests_cant": "all inputs", "anchors": ["zk/equal_opening.go:Create,Verify", "zk/product.go:Create,Verify"]}
{"id": "C21", "title": "Proofs are specially sound", "statement": "From two accepting transcripts that share the first message and have different challenges one computes a witness: an exponent for dlog equality; an h-multiple for the difference of the two commitments for equal openings; lhs and mask with product = lhs*rhs for products. For an honestly derived transcript about a false statement at most one challenge is acceptable.", "quantifier": "every statement, every pair of accepting transcripts", "why_tests_cant": "soundness is about adversarial proofs, which tests cannot enumerate", "anchors": ["zk/dlog.go:RecoverCommitments", "zk/equal_opening.go:RecoverCommitments", "zk/product.go:RecoverCommitment"]}
{"id": "C22", "title": "Proofs are perfectly honest-verifier zero knowledge", "statement": "For every fixed challenge the map from the prover's randomness to the response is a bijection and the first message is determined by challenge and response, so transcripts can be simulated without the witness.", "quantifier": "every witness and challenge", "why_tests_cant": "statement about distributions", "anchors": ["zk/dlog.go", "zk/equal_opening.go", "zk/product.go"]}
{"id": "C23", "title": "Polynomial arithmetic agrees with pointwise arithmetic", "statement": "EvaluateAt computes the sum of coefficient times power; Add and Mul evaluate to sum and product; Equal holds iff the polynomials agree up to zero padding. NonZeroCoefficients counts exactly the non-zero coefficients, which does not bound the degree (refuted); IsZero holds iff every coefficient is zero, which up to length q is the same as vanishing everywhere; a sum has the length of the longer operand and a product one less than the lengths together.", "quantifier": "every polynomial, every evaluation point", "why_tests_cant": "unbounded degrees", "anchors": ["poly/poly.go:EvaluateAt,Add,Mul,Equal,Coeff,NonZeroCoefficients,IsZero"]}
{"id": "C24", "title": "MulScalar uses its receiver instead of its argument", "statement": "A user calling dst.MulScalar(src, c) expects c*src. The result is c*dst whatever src is; the expectation holds only when receiver and argument are the same polynomial (refuted otherwise).", "quantifier": "every pair of polynomials and scalar", "why_tests_cant": "tests only ever call it with receiver = argument", "anchors": ["poly/poly.go:MulScalar"]}
{"id": "C25", "title": "Polynomial interpolation is sound", "statement": "If Interpolate succeeds then abscissae are pairwise distinct and the result passes through every sample, has fewer coefficients than or as many as samples, and is the only such polynomial.", "quantifier": "every list of samples", "why_tests_cant": "unbounded lists", "anchors": ["poly/poly.go:Interpolate"]}
{"id": "C26", "title": "Polynomial interpolation fails on degenerate but legal samples", "statement": "A user expects Interpolate to succeed whenever the abscissae are distinct. It fails as soon as an intermediate sample already lies on the polynomial through the previous ones (e.g. three samples of a constant); it succeeds exactly if abscissae are distinct and this happens at no sample before the last.", "quantifier": "every list of samples with distinct abscissae", "why_tests_cant": "random samples hit this with negligible probability", "anchors": ["poly/poly.go:Interpolate"]}
{"id": "C27", "title": "Lagrange coefficients reconstruct every polynomial of degree below the number of samples", "statement": "For distinct node indices x1..xn and every polynomial of degree < n, InterpolateScalar of its values with the coefficients for v gives its value at v, for every v; InterpolatePoint does the same in the exponent; the coefficients of AtZero give back the constant coefficient and the first point; duplicates are rejected when n >= 2; the length mismatch is rejected.", "quantifier": "every list of indices, every polynomial, every target point", "why_tests_cant": "unbounded n and all field values", "anchors": ["poly/lagrange.go:AtValue,AtZero,InterpolateScalar,InterpolatePoint,checkForDuplicates"]}
{"id": "C28", "title": "Fewer shares than the threshold reveal nothing", "statement": "For every set of at most t-1 distinct non-zero evaluation points, every tuple of share values and every candidate secret there is a polynomial with t coefficients having that constant term and those values: exactly one for t-1 points, and for fewer points equally many for every two candidate secrets.", "quantifier": "every index set, every share values, every secret", "why_tests_cant": "information-theoretic statement over all polynomials", "anchors": ["poly/poly.go:RandomWithConstant,EvaluateAt", "dealings/dealings.go:EncryptAndCommitSinglePolynomial"]}
{"id": "C29", "title": "Commitment openings verify exactly when correct", "statement": "For a simple commitment created from a polynomial with at most num coefficients, CheckOpening(i, o) holds iff o is the value at i+1; for a Pedersen commitment every genuine (value, mask) opens, and two different openings of one index reveal the discrete logarithm of H to base G.", "quantifier": "every polynomial, index and claimed opening", "why_tests_cant": "binding is about all adversarial openings", "anchors": ["poly/commitment.go:SimpleCM.Create,PedersenCM.Create,CheckOpening,EvaluateAt"]}
{"id": "C30", "title": "Commitment creation silently truncates long polynomials", "statement": "A user expects Create(poly, num) to error if the polynomial has more than num coefficients up to trailing zeros. It only counts non-zero coefficients, so some longer polynomials are accepted and truncated and their own openings do not verify (refuted).", "quantifier": "every polynomial and num", "why_tests_cant": "requires polynomials with interior zeros, never produced at random", "anchors": ["poly/commitment.go:Create", "poly/poly.go:NonZeroCoefficients"]}
{"id": "C31", "title": "Commitment openings survive (de)serialisation only for the simple kind and then cannot be checked", "statement": "A user expects an opening to be usable after Serialize/Deserialize. A serialised Pedersen opening never decodes to a Pedersen opening; every decoded opening makes CheckOpening panic. Errors in the stored elements are not reported: elements that are too large are read as zero, missing ones become nil, and exactly an empty element makes Deserialize panic.", "quantifier": "every opening and commitment", "why_tests_cant": "universal negative statement over dynamic types", "anchors": ["poly/commitment.go:commitmentOpening.Deserialize,Serialize,CheckOpening"]}
{"id": "C32", "title": "Stable representation of commitments is injective", "statement": "Two commitments (simple or Pedersen) with the same StableRepresentation have the same kind and the same points.", "quantifier": "every pair of commitments of every length", "why_tests_cant": "injectivity over unbounded inputs", "anchors": ["poly/commitment.go:StableRepresentation"]}
{"id": "C33", "title": "Transcript comparison is constant", "statement": "A user expects Compare to order or distinguish transcript operations; it returns 0 for every pair. Commitment Equal also ignores the kind of commitment.", "quantifier": "every pair of transcripts", "why_tests_cant": "universal negative statement", "anchors": ["dealings/transcript_operation.go:Compare", "poly/commitment.go:Equal"]}
{"id": "C34", "title": "MEGa encryption decrypts to the plaintext for every recipient", "statement": "For single and pair encryption: whatever the seed, plaintexts, recipient keys, dealer index and associated data, when encryption succeeds every recipient decrypts its own plaintext with the matching key, and the proof of possession checks.", "quantifier": "every seed, number of recipients, keys, plaintexts, associated data, dealer index", "why_tests_cant": "unbounded numbers of recipients and all keys", "anchors": ["mega/ciphertext.go:EncryptCiphertextSingle,EncryptCiphertextPair,Decrypt,DecryptFromSharedSecret", "mega/mega.go"]}
{"id": "C35", "title": "MEGa error behaviour", "statement": "Encryption fails exactly when numbers of plaintexts and recipients differ or are zero; decryption with an index at or above the number of ciphertexts errors and with a negative index panics; no other index or key makes it panic.", "quantifier": "every ciphertext, index and key", "why_tests_cant": "all index values including negative ones", "anchors": ["mega/ciphertext.go"]}
{"id": "C36", "title": "Dealing creation validates the threshold", "statement": "NewIDkgDealingInternal fails with an error if the threshold is 0 or exceeds the number of receivers; otherwise (positive threshold) it returns a dealing with exactly threshold commitment points and one ciphertext per receiver of the kinds belonging to the share type.", "quantifier": "every share type, threshold, receiver list, seed", "why_tests_cant": "all parameters", "anchors": ["dealings/dealings.go:NewIDkgDealingInternal"]}
{"id": "C37", "title": "Honest dealings verify publicly and privately", "statement": "Whatever the inputs, a dealing made by NewIDkgDealingInternal for a share consistent with the previous transcripts passes PubliclyVerify and every receiver's PrivateVerify.", "quantifier": "every share type, threshold, receivers, seed, associated data, dealer index", "why_tests_cant": "all parameters; tests try n=5,t=2", "anchors": ["dealings/dealings.go:NewIDkgDealingInternal,PubliclyVerify,PrivateVerify"]}
{"id": "C38", "title": "Public verification implies well-formedness", "statement": "If PubliclyVerify accepts, the commitment has exactly the threshold number of points and the kind demanded by the transcript operation, the ciphertext matches in kind and count, its proof of possession checks, and for unmasked resharing the constant term equals the previous transcript's evaluation at the dealer; consequently private verification of an in-range receiver never panics.", "quantifier": "every dealing, adversarial ones included", "why_tests_cant": "adversarial dealings cannot be enumerated", "anchors": ["dealings/dealings.go:PubliclyVerify,PrivateVerify"]}
{"id": "C39", "title": "Public verification can panic or skip checks", "statement": "A user expects PubliclyVerify to return an error on any malformed dealing. A multiplication dealing without proof makes it panic; and if the previous commitment is handed over inside its transcript wrapper the resharing consistency check is skipped.", "quantifier": "every other content of the dealing", "why_tests_cant": "adversarial input", "anchors": ["dealings/dealings.go:PubliclyVerify"]}
{"id": "C40", "title": "Resharing preserves the secret", "statement": "Whenever NewTranscriptInternal accepts dealings for resharing an unmasked transcript, the constant term of the result equals the constant term of the previous commitment; with verified honest dealings resharing a masked transcript gives g^s for the masked secret s.", "quantifier": "every set of verified dealings, every subset above the threshold", "why_tests_cant": "all dealer subsets and polynomials", "anchors": ["dealings/transcript.go:NewTranscriptInternal,CombineCommitmentsViaInterpolation"]}
{"id": "C41", "title": "Combined commitment does not depend on which dealers contributed", "statement": "For resharing transcripts the constant term of the combined commitment is the same for any two sufficiently large sets of honest dealers. For multiplication transcripts the committed value is the same for any two such sets; the commitment point itself is not, because every dealer draws a fresh mask (refuted).", "quantifier": "every pair of dealer subsets", "why_tests_cant": "exponentially many subsets", "anchors": ["dealings/transcript.go:CombineCommitmentsViaInterpolation"]}
{"id": "C42", "title": "Multiplication transcripts commit to the product", "statement": "If every dealer honestly deals the product of its unmasked and masked shares and at least l+r-1 dealers contribute, the combined Pedersen commitment's constant term opens to the product of the two shared secrets.", "quantifier": "every pair of sharings and dealer subset", "why_tests_cant": "all polynomials", "anchors": ["dealings/transcript.go:NewTranscriptInternal", "dealings/dealings.go"]}
{"id": "C43", "title": "Reconstruction of a missing share from openings", "statement": "With at least threshold openings consistent with a dealing's commitment, ReconstructShareFromOpenings succeeds and its result opens the commitment at the requested index; with fewer it errors; for simple commitments the result is the unique share whichever subset is given. An opening of the wrong kind among those given makes it error.", "quantifier": "every dealing, every set of openings, every target index", "why_tests_cant": "exponentially many subsets", "anchors": ["dealings/transcript.go:ReconstructShareFromOpenings"]}
{"id": "C44", "title": "Combined openings always match the transcript", "statement": "Whatever the dealings and openings given (adversarial included), if computing a node's combined opening succeeds the result satisfies CheckOpening of the transcript's combined commitment at the node's index; for honest dealings it succeeds. An opening of a kind other than the transcript's is refused. Interpolating openings of the right kind with fewer dealer indices than openings crashes with an index out of range; spare indices are ignored, and a summation ignores all indices.", "quantifier": "every set of dealings, ciphertexts, openings", "why_tests_cant": "adversarial inputs", "anchors": ["dealings/commitment.go:FromDealings,FromDealingsAndOpenings,CombineOpenings"]}
{"id": "C45", "title": "Complaints are generated exactly for undecryptable dealings", "statement": "GenerateComplaints yields a complaint for precisely the dealings whose DecryptAndCheck fails for that receiver, and errors if there is none.", "quantifier": "every map of dealings, every receiver", "why_tests_cant": "all subsets of corrupted dealings", "anchors": ["complaints/complaints.go:GenerateComplaints"]}
{"id": "C46", "title": "Complaints against bad ciphertexts verify, spurious ones do not", "statement": "A complaint honestly built by a receiver against a dealing verifies iff the receiver's decryption does not open the commitment; and no complaint carrying the true shared secret ever verifies against a dealing whose ciphertext opens correctly.", "quantifier": "every dealing, receiver key, seed", "why_tests_cant": "all dealings including adversarial ones", "anchors": ["complaints/complaints.go:NewComplaintInternal,Verify"]}
{"id": "C47", "title": "Derived public key equals master key plus tweak times G", "statement": "For every derivation path and HMAC function, the key returned by DerivePublicKey is master + tweak*G for the tweak DeriveTweak returns, and derivation along a concatenated path is derivation in two steps as regards accumulated offset.", "quantifier": "every path of every length, every master key, every HMAC", "why_tests_cant": "unbounded paths", "anchors": ["key/key_derivation.go:DeriveTweak,ckdpub", "sign/sign.go:DerivePublicKey"]}
{"id": "C48", "title": "Out-of-range child keys are not skipped", "statement": "A user expects the BIP32 rule that an HMAC half at or above the order (or an infinite child key) leads to the next index. The retry's result is discarded and the invalid child is returned (refuted); outside that event derivation is the BIP32 formula.", "quantifier": "every HMAC function, key, chain key and index", "why_tests_cant": "event of probability 2^-127, never reachable by testing", "anchors": ["key/key_derivation.go:ckdpub"]}
{"id": "C49", "title": "DerivationIndex.Next is big-endian increment", "statement": "Next adds one to the big-endian value, keeps the length unless all bytes are 0xff, when it grows by one byte, and does not modify the argument. The indices NewBip32 makes are the 4-byte big-endian encodings BIP32 prescribes, different index lists give different paths, and Next maps the encoding of n to that of n+1 below 2^32-1.", "quantifier": "every byte string", "why_tests_cant": "carry chains of every length", "anchors": ["key/key_derivation.go:Next,add"]}
{"id": "C50", "title": "Threshold signatures verify as ECDSA", "statement": "Whenever presignature transcripts are consistent (kappa, lambda, key sharings and their products) any set of at least threshold honest signature shares combines to a signature (r,s) accepted by textbook ECDSA verification of the (at most 32-byte) message hash under the derived public key, unless r or s or the masked nonce degenerates to zero.", "quantifier": "every threshold, every set of signers, all sharings, every path, hash and randomness", "why_tests_cant": "all polynomials, subsets and messages", "anchors": ["sign/share.go:NewThresholdEcdsaSigShareInternal", "sign/combined_sig.go:NewThresholdEcdsaCombinedSigInternal", "sign/sign.go:DeriveRho"]}
{"id": "C51", "title": "The signature does not depend on the signer set", "statement": "Any two sets of honest signers of at least the threshold size combine to the same signature bytes.", "quantifier": "every pair of signer sets", "why_tests_cant": "exponentially many subsets", "anchors": ["sign/combined_sig.go:NewThresholdEcdsaCombinedSigInternal"]}
{"id": "C52", "title": "Combined signatures are low-s and non-malleable through negation", "statement": "Of s and -s exactly one is accepted by Verify, for s non-zero, and the combined signature always holds the accepted one.", "quantifier": "every scalar s", "why_tests_cant": "2^256 values of s", "anchors": ["sign/combined_sig.go", "curve/k256_scalar.go:IsHigh"]}
{"id": "C53", "title": "Signature verification implies a valid ECDSA signature", "statement": "If ThresholdEcdsaCombinedSigInternal.Verify accepts, the pair (r,s) satisfies textbook ECDSA verification for the derived key and r is derived from the rerandomised presignature.", "quantifier": "every signature, adversarial ones included", "why_tests_cant": "adversarial inputs", "anchors": ["sign/combined_sig.go:Verify"]}
{"id": "C54", "title": "Signature share verification accepts everything", "statement": "A user relies on ThresholdEcdsaSigShareInternal.Verify to reject bad shares. Every share that the API can build is accepted for every signer index and presignature transcript for which rho derivation succeeds (refuted).", "quantifier": "every share, index and transcript", "why_tests_cant": "universal negative statement; the tests only check honest shares", "anchors": ["sign/share.go:Verify"]}
{"id": "C55", "title": "Sign conversion of long hashes differs from ECDSA", "statement": "Message hashes up to 32 bytes are converted as ECDSA requires; for 33 to 64 bytes the whole string is reduced instead of the leftmost 32 bytes, so signatures do not verify under ECDSA (refuted); above 64 bytes it panics.", "quantifier": "every hash string", "why_tests_cant": "all lengths and contents", "anchors": ["sign/sign.go:ConvertHashToInteger,EcdsaConversion"]}
{"id": "C56", "title": "Degenerate denominators give a zero signature without error", "statement": "If the combined denominator (masked nonce) is zero the combiner returns s = 0 with nil error; such a signature never verifies.", "quantifier": "every share set with zero combined denominator", "why_tests_cant": "probability 2^-256 event", "anchors": ["sign/combined_sig.go:NewThresholdEcdsaCombinedSigInternal"]}
{"id": "C57", "title": "Random number stream is split-invariant and XORs into its buffer", "statement": "Reading n then m bytes yields the same bytes as reading n+m; Uint32 and Uint64 are the big-endian value of the next bytes; FillUint8 XORs the keystream into the buffer (a fresh zero buffer receives it verbatim).", "quantifier": "every key, every sequence of reads", "why_tests_cant": "all read schedules", "anchors": ["rand/chacha20.go"]}
{"id": "C58", "title": "Random scalars are canonical", "statement": "Scalar.Random returns, if it terminates, a scalar whose encoding is the XOR of the 32-byte keystream blocks drawn so far, the first such XOR that is below the order.", "quantifier": "every random stream", "why_tests_cant": "rejection loop over all streams", "anchors": ["curve/scalar.go:Random"]}
{"id": "C59", "title": "A full honest protocol run signs", "statement": "For every number of nodes, threshold and choice of random streams, running key, kappa and lambda generation, resharing, multiplication, signature shares and combination ends in a signature accepted by Verify and by textbook ECDSA, unless a degenerate zero arises.", "quantifier": "every number of nodes and threshold, every randomness", "why_tests_cant": "unbounded protocol parameters", "anchors": ["testutils/signature_protocol_setup.go", "testutils/protocol_round.go", "sign/", "dealings/"]}
{"id": "C60", "title": "Operations do not modify their arguments", "statement": "Polynomial evaluation and arithmetic, Lagrange interpolation and signature combination leave every scalar passed to them unchanged in memory (only freshly allocated scalars or the documented receiver are written).", "quantifier": "every heap, every aliasing of arguments", "why_tests_cant": "aliasing patterns of pointers are unbounded", "anchors": ["poly/poly.go", "poly/lagrange.go", "sign/combined_sig.go"]}
{"id": "C61", "title": "Openings cannot be turned into dealable shares through Secret.From", "statement": "A user expects Secret.From to turn the openings a node holds into shares NewIDkgDealingInternal can deal. False: ToScalarBytes always returns nil, so for every opening the result of ToCommitmentOpeningBytes makes ToCommitmentOpening panic and Secret.From panic or fail. For hand-made byte openings that encode scalars, Secret.From gives dealable shares for masked resharing and products, but for unmasked resharing it returns a struct value for which NewIDkgDealingInternal returns, without error, a dealing with no ciphertext and no commitment, on which PubliclyVerify panics.", "quantifier": "every opening, every pair of byte openings", "why_tests_cant": "needs all dynamic types of openings and shares", "anchors": ["dealings/secret_shares.go:From", "poly/commitment.go:ToCommitmentOpening", "curve/scalar.go:ToScalarBytes", "dealings/dealings.go:NewIDkgDealingInternal"]}
{"id": "C62", "title": "The points form a cyclic group of prime order and the protocol runs in it", "statement": "Point addition on secp256k1 is an abelian group, every point is s*G for exactly one scalar s, scalar multiplication is linear, both generators are curve points, and Serialize, Deserialize, AffineX and HashToPoint behave on curve points as the protocol layers need. In particular a signature accepted by Verify satisfies the ECDSA equation on secp256k1 itself.", "quantifier": "every triple of points, every scalar, every message", "why_tests_cant": "group laws and order concern about 2^256 points", "anchors": ["curve/k256_point.go", "curve/point.go", "curve/k256_scalar.go", "sign/combined_sig.go:Verify"]}
{"id": "C63", "title": "Pointer sharing does not change results", "statement": "The memory-level programs of polynomials, Lagrange interpolation, commitments, key derivation and signing, in which every method writes its receiver in place, have the same outcome (value, error or panic) as the corresponding functions on plain values, for every way in which receiver, arguments and polynomial coefficients share cells; results lie in new cells. RandomWithConstant is the exception: its polynomial keeps the caller's own constant cell.", "quantifier": "every heap, every aliasing of receiver and arguments", "why_tests_cant": "aliasing patterns of pointers are unbounded", "anchors": ["poly/poly.go", "poly/lagrange.go", "poly/commitment.go", "key/key_derivation.go", "sign/sign.go", "sign/share.go", "sign/combined_sig.go", "curve/k256_scalar.go", "curve/k256_point.go"]}
{"id": "C64", "title": "MEGa key encodings and what key verification accepts", "statement": "Public and private MEGa keys round-trip through Serialize and Deserialize. The public key of a secret is the generator added to itself that many times; this is a bijection between scalars and points, with 0 for the identity. GenKeypair takes as private key the first exclusive or of key stream blocks of its seed that is below the order, its public key belongs to it, and every ciphertext made for the public key is decrypted with the private key. Under K256 every accepted key can be serialised; under any other curve number the accepted strings decode to nil keys without an error, and serialising them panics. VerifyMegaPublicKey is meant to accept exactly the encodings of points; it accepts every 33-byte string whose first byte is 2 or 3, and the all-zero string, including strings that encode no point (they decode to the identity), and for an identity key the private key 0 decrypts every dealing ciphertext (refuted, with the exact accepted set).", "quantifier": "every curve number, every byte string, every ciphertext made for such a key", "why_tests_cant": "2^264 strings; universal statement over ciphertexts", "anchors": ["mega/key.go", "curve/k256_point.go:Deserialize"]}
{"id": "C65", "title": "Seeds and oracle strings bind everything that goes into them", "statement": "Two inputs of ExpandMessageXmd (message, domain separator, length) with the same first 32 output bytes are equal, or the two strings fed to SHA-256 at a named step are an explicit collision. Consequently equal seeds come from equal parents and equal domain separators, the separators used in the code for different purposes and different parties are pairwise distinct, equal random oracle strings come from equal sets of named inputs, and the associated data of a complaint proof binds session, receiver, dealer and key. Domain separators above 255 bytes bind only through their hash.", "quantifier": "every message, separator, length, every sequence of oracle inputs, every node index", "why_tests_cant": "injectivity over unbounded strings with reduction to a hash collision", "anchors": ["seed/xmd.go:ExpandMessageXmd", "seed/seed.go:NewSeed", "ro/ro.go:OutputByteString", "complaints/complaints.go:NewComplaintInternal"]}
{"id": "C66", "title": "A seed may be used once: what reuse reveals", "statement": "Two proofs of any of the three kinds created with the same seed and different challenges reveal the witness by an explicit formula; two complaints against the same dealer under the same seed, or one complaint under a known seed, reveal the complainer's private MEGa key (the driver OpenDealings uses a seed computed from public data); two encryptions with the same seed, and two resharing dealings of unmasked shares with the same seed, reveal the differences of plaintexts and of the secrets.", "quantifier": "every seed, witness, statement, associated data, dealing, key", "why_tests_cant": "algebraic consequence for all witnesses; tests use one seed per run", "anchors": ["zk/dlog.go:Create", "zk/equal_opening.go:Create", "zk/product.go:Create", "mega/ciphertext.go:EncryptCiphertextSingle", "dealings/dealings.go:NewIDkgDealingInternal", "complaints/complaints.go:GenerateComplaints", "testutils/dealings.go:OpenDealings"]}
{"id": "C67", "title": "What VerifyCommitmentOpenings checks", "statement": "VerifyCommitmentOpenings accepts exactly when the openings of the commitment's own type interpolate at zero to an opening of the constant term, and accepts every list of at least threshold correct openings. It does not check single openings: from any accepted list another accepted list is obtained in which every opening is wrong (refuted). A simple commitment still wrapped as in a transcript is always rejected.", "quantifier": "every commitment, every list of openings", "why_tests_cant": "forgery over arbitrary lists; universal acceptance condition", "anchors": ["testutils/protocol_round.go:VerifyCommitmentOpenings", "poly/lagrange.go:InterpolateScalar"]}
{"id": "C68", "title": "Random oracle: the exact string hashed and the exact outputs", "statement": "The string hashed by a random oracle is the concatenation, in order of the names, of length, name, type and length-prefixed data of the first well-formed input under each name. OutputScalars is RFC 9380 hash_to_field for the scalar field with domain separator 'dst-secp256k1' (each scalar from its own 48 bytes), an error exactly above 170 scalars; OutputByteString is expand_message_xmd. AddPoints stores its points under names that differ for different names and indices, stops at the first taken or overlong name keeping the points already stored, and the hashed string determines the list of points; AddPoint under 'name[0]' is indistinguishable from AddPoints of one point.", "quantifier": "every sequence of inputs, every count and length, every name, every list of points", "why_tests_cant": "unbounded sequences and strings", "anchors": ["ro/ro.go", "curve/hash_to_curve.go:HashToScalar", "curve/scalar.go:HashToSeveralScalar"]}
{"id": "C69", "title": "Encoding of polynomial commitments", "statement": "Serialize panics on an empty commitment and is otherwise injective in type and points. A simple commitment is decoded back exactly if none of its points is the identity, and is refused otherwise. Round trip of Pedersen commitments is false: Deserialize refuses all of them. Deserialize also accepts commitments that cannot be used: without points, or with null in place of points, the curve type panics (refuted).", "quantifier": "every list of curve points, every CBOR decoder that inverts the encoder", "why_tests_cant": "all lists of points; panics need crafted input", "anchors": ["poly/commitment.go:Serialize", "poly/commitment.go:Deserialize", "curve/k256_point.go:MarshalCBOR", "curve/k256_point.go:UnmarshalCBOR"]}
{"id": "C70", "title": "Text form and compression of encoded points", "statement": "FromStr takes exactly the texts of hexadecimal digits, in either case, that spell a byte string as long as its tag says; it panics on the empty text and reports every other one. Encodings accepted by FromBytes survive ToString and FromStr; encodings made from points do not, because ToString prints the whole buffer (refuted). Compress turns the uncompressed encoding of a curve point into the compressed encoding of the same point if the y-coordinate is below p and of its negative otherwise; Compress, X and Y panic on accepted encodings exactly for single bytes other than 0; FromUnTaggedBytes panics exactly below 32 bytes.", "quantifier": "every byte string, every point", "why_tests_cant": "all byte strings and coordinates; unreduced coordinates are never generated by tests", "anchors": ["curve/encode.go"]}
{"id": "C71", "title": "Protocol runs complete although dealings are corrupted", "statement": "With at least twice the threshold many nodes, any number of corrupted dealings per round and any seed, the setup of the signature protocol succeeds; the drivers' internal checks can panic only at an explicit hash collision or if a corruption value derived from a round seed is zero. Every dealing handed out is publicly valid and unusable for at most threshold many receivers. The bound is needed: one node with a corrupted dealing never completes.", "quantifier": "every number of nodes, threshold, number of corrupted dealings, seed, interpretation of the hash functions, prime order group", "why_tests_cant": "liveness over all seeds and corruption patterns; tests use one random seed each", "anchors": ["testutils/dealings.go", "testutils/test_utils.go:CorruptDealing", "testutils/protocol_round.go", "testutils/signature_protocol_setup.go", "complaints/complaints.go:GenerateComplaints"]}
{"id": "C72", "title": "Dealings and complaints in memory: no argument is written, results share no cell", "statement": "With explicit memory and whatever pointers the arguments share: creating and verifying the zero-knowledge proofs, MEGa encryption and decryption, NewIDkgDealingInternal, PubliclyVerify, PrivateVerify, NewTranscriptInternal, ReconstructShareFromOpenings, combining openings and creating and verifying complaints change no cell that existed before; the cells of their results are new, those of a new proof, ciphertext or dealing pairwise distinct; and they compute exactly the functions on values (same result, error or panic). CorruptDealing writes only the first components of encrypted pairs, and for pairs turns the dealing it is given into the corrupted one; after CorruptDealingForAllRecipients a given dealing with encrypted pairs still verifies publicly but none of the receivers who could read it still can, one with single ciphertexts is unchanged: 'CorruptDealing keeps its argument' is false, and so is 'Clone of a product proof is a copy' (refuted).", "quantifier": "every memory, every assignment of pointers to arguments, every value, seed, index, list of dealings and openings", "why_tests_cant": "aliasing over arbitrary memories; tests pass distinct objects and look at results only", "anchors": ["zk/dlog.go", "zk/equal_opening.go", "zk/product.go", "mega/ciphertext.go", "dealings/dealings.go", "dealings/transcript.go", "dealings/commitment.go", "dealings/secret_shares.go", "complaints/complaints.go", "testutils/test_utils.go:CorruptDealing"]}
{"id": "C73", "title": "Field arithmetic and hashing to the curve in memory", "statement": "With explicit cells for field elements and whatever pointers coincide: every field method writes only its receiver and computes its value also if the receiver is an operand; cmov, sqrtRatio, sswu, the three polynomial helpers, MapToCurve, HashToField and HashToCurveRo change no cell that existed before, in particular none of the thirteen global constants K256C, return new cells and compute exactly the functions on values, so that no sequence of earlier calls influences a call. sswuIsogenySecp256k1 writes its second argument and nothing else: 'the isogeny keeps its arguments' and 'it keeps the global constants for every argument' are false (refuted).", "quantifier": "every memory, every assignment of pointers, every field element, message, domain separator and sequence of calls", "why_tests_cant": "aliasing and damage to global state over arbitrary memories and call sequences; tests only look at results of single calls", "anchors": ["curve/k256_fe.go", "curve/fe.go", "curve/hash_to_curve.go"]}
{"id": "C74", "title": "At most one signature per message, presignature and randomness; bad shares cannot change it", "statement": "For given derivation path, message hash, randomness, key and presignature transcripts CombinedSig.Verify accepts at most one pair (r, s). Whatever shares it was combined from, an accepted signature is the one the honest shares give. If one node alters its numerator (or its denominator), at most two values of it lead to an accepted signature; 'an altered share is always noticed' is false, as exactly one wrong numerator gives the same signature (refuted).", "quantifier": "every path, hash, randomness, transcript, list of shares, threshold, node index, hash function and prime order group", "why_tests_cant": "all 2^256 values of s and all alterations of shares", "anchors": ["sign/combined_sig.go:Verify", "sign/combined_sig.go:NewThresholdEcdsaCombinedSigInternal"]}
{"id": "C75", "title": "Using a presignature twice reveals the private key", "statement": "From two accepted signatures that were made with the same presignature transcript, for whatever messages, paths and randomness, an explicit computation from public values returns the private key, unless the two signatures are linearly dependent equations; with equal r it is enough that the signatures differ. The nonce of a single accepted signature gives the key as well. (The code keeps no record of used presignatures.)", "quantifier": "every key, nonce, pair of messages, paths, randomness and accepted signatures", "why_tests_cant": "a security consequence of call sequences, for all values", "anchors": ["sign/sign.go:DeriveRho", "sign/combined_sig.go:Verify"]}
{"id": "C76", "title": "Masked dealings hide the secret perfectly", "statement": "For Pedersen-committed dealings with threshold t, the commitment together with the openings of any fewer than t nodes is independent of the secret: for any two secrets one fixed translation of the dealer's two polynomials maps every dealing of the first to a dealing of the second with the same view; with t-1 nodes there is exactly one explanation for every secret. The discrete logarithm of H needed for this exists and is not zero on secp256k1. For simple commitments this is false: the commitment determines the polynomial (refuted).", "quantifier": "every threshold, set of node indices, secrets, polynomials, prime order group", "why_tests_cant": "a statement about all alternative executions", "anchors": ["poly/commitment.go:Create", "poly/poly.go:EvaluateAt", "curve/point.go:Pedersen"]}
{"id": "C77", "title": "Malicious dealers cannot change a reshared or multiplied secret without giving away the logarithm of H", "statement": "Take publicly verified dealings of arbitrary dealers that reshare a masked transcript (or multiply two transcripts), whose constant terms and proofs can be answered for two challenges. Then the transcript made of them has the old secret (the product) as its constant term, or one named dealer's data gives the discrete logarithm of H by an explicit formula. Without that alternative the claim is false: with a known logarithm there are accepted dealings of a wrong value (refuted).", "quantifier": "every threshold, set of dealers, dealing, commitments, prime order group", "why_tests_cant": "a soundness statement about adversarial dealings", "anchors": ["dealings/dealings.go:PubliclyVerify", "dealings/transcript.go:NewTranscriptInternal", "zk/equal_opening.go:Verify", "zk/product.go:Verify"]}
{"id": "C78", "title": "The second generator is the hash of a public string", "statement": "The constant in GeneratorH is the compressed encoding of the RFC 9380 hash to the curve of the string h under the domain separator ic-crypto-tecdsa-secp256k1-generator-h, computed with SHA-256 written out from FIPS 180-4; it is a point of the curve other than the identity.", "quantifier": "the one constant; the hash function, the expander, the map and the isogeny are the general ones of C12 and C13", "why_tests_cant": "a test computes both sides with the same code; here the right side is a specification proved equal to the code", "anchors": ["curve/point.go:GeneratorH", "curve/hash_to_curve.go:HashToCurveRo", "curve/point_test.go:TestGeneratorHHasExpectedValue"]}
{"id": "C79", "title": "The real primitives are an instance", "statement": "SHA-256, HMAC-SHA-512 and ChaCha20 written out from their standards, with secp256k1, meet the hypotheses (output lengths, byte ranges, group laws) under which all other properties are proved, so that every property holds for them; in particular an accepted signature is an ECDSA signature on secp256k1. HMAC-SHA-512 is the code of RFC 2104 byte by byte: keys above 128 bytes act through their digest, and zeros at the end of a key do not count. With them the model gives the known answers of the tests in the repository (expander, hash to curve, hash to scalar, wide reduction, seeds, MEGa key pair, random oracle).", "quantifier": "every message, key and stream position", "why_tests_cant": "the instance is established for all inputs, not for vectors", "anchors": ["seed/xmd.go:ExpandMessageXmd", "rand/chacha20.go:NewChaCha20", "key/key_derivation.go:ComputeHMAC", "ro/ro.go:OutputScalars"]}
{"id": "C80", "title": "Which inputs crash a node", "statement": "For PubliclyVerify, PrivateVerify, OpenDealing, complaint Verify, NewTranscriptInternal, ReconstructShareFromOpenings, the making, verifying and combining of signature shares and signature verification, the exact set of arguments on which they panic. A node that verifies with a positive threshold and proper operands can be crashed by a dealing having a commitment and a ciphertext in one way only: a product dealing without its proof ('a bad dealing is refused with an error' is refuted by it). Once all dealings have passed PubliclyVerify nothing that follows panics, whatever openings and complaints other nodes send.", "quantifier": "every dealing, operation, threshold, index, associated data, complaint, list of openings, transcript, hash, list of shares; pointers inside commitments, ciphertexts and proofs are not nil", "why_tests_cant": "panic conditions over all malformed inputs, exactly", "anchors": ["dealings/dealings.go:PubliclyVerify", "dealings/dealings.go:PrivateVerify", "dealings/transcript.go:NewTranscriptInternal", "dealings/transcript.go:ReconstructShareFromOpenings", "dealings/commitment.go:CombineOpenings", "complaints/complaints.go:Verify", "complaints/complaints.go:GenerateComplaints", "sign/share.go", "sign/combined_sig.go", "sign/sign.go:DeriveRho"]}
{"id": "C81", "title": "Resharing any number of times leaves the key and its signatures alone", "statement": "If a transcript comes from another by any number of unmasked resharings, each by its own dealers (honest or not) and with its own threshold, then its constant term is the same; in every epoch enough accepted openings interpolate to the secret of the first; and signature shares, their combination and signature verification give the same results with the new key and presignature transcripts as with the old.", "quantifier": "every chain of accepted transcripts of any length, dealer sets, thresholds, dealings, openings, messages, paths", "why_tests_cant": "chains of any length with adversarial dealings", "anchors": ["dealings/transcript.go:NewTranscriptInternal", "sign/combined_sig.go:Verify", "sign/sign.go:DeriveRho"]}
{"id": "C82", "title": "An adversary who moves from node to node learns nothing about a reshared secret", "statement": "Let a secret be reshared any number of times, and let in each epoch fewer nodes than its threshold be corrupted. The corrupted nodes see their shares of every epoch, the whole polynomials of corrupted dealers (which may be anything of the right length) and the shares every dealer sends to the nodes corrupted next. For any two secrets there are fixed polynomials whose addition maps every run for the first to a run for the second with the same view, injectively. A round in which nobody deviates keeps the secret, and the code's resharing is such a round: the transcript commits to, and receivers hold shares of, the Lagrange combination of the dealt polynomials. (The commitments, which hide unmasked polynomials only computationally, are not part of the view; see C76.)", "quantifier": "every number of epochs, thresholds, dealers, corrupted sets, secrets, runs", "why_tests_cant": "a statement about all alternative executions over unbounded time", "anchors": ["dealings/transcript.go:NewTranscriptInternal", "dealings/commitment.go:CombineOpenings", "dealings/dealings.go:NewIDkgDealingInternal", "poly/lagrange.go:InterpolateScalar"]}
{"id": "C83", "title": "Signature shares reveal nothing about key and nonce beyond the signature", "statement": "Fix the message and the public data. For any two pairs of key and nonce that give the same quotient s (the signature before its sign is normalised) there is a one-to-one correspondence between the polynomials of the masked transcripts lambda, kappa*lambda and key*lambda for the one and for the other under which the commitments, the openings held by any fewer than t nodes, and the signature shares that the code makes for all nodes are the same. Hence everything in that view can be produced from s alone. (The dealings the transcripts were made of, and the unmasked commitments to key and nonce, are not part of the view.)", "quantifier": "every message, path, randomness, transcripts, threshold, set of fewer than t nodes, keys and nonces with non-zero denominator, polynomials, prime order group", "why_tests_cant": "a statement about all alternative executions", "anchors": ["sign/share.go:NewThresholdEcdsaSigShareInternal", "sign/sign.go:DeriveRho", "poly/commitment.go:Create"]}
{"id": "C84", "title": "One honest dealer makes the shared secret unbiased", "statement": "A random transcript commits to the sums of the polynomials and of the masking polynomials committed to by the dealings, whoever dealt them, and the share a receiver assembles is its share of the sum, or two openings of one commitment giving the discrete logarithm of H. If one dealer is honest and the others, with fewer nodes than the threshold, choose what they deal in any way depending on the honest dealer's commitment and on their openings of it, then for any two values of the summed secret a fixed shift maps, injectively and without changing that view, the honest dealer's choices leading to the first to choices leading to the second.", "quantifier": "every threshold, set of dealings, polynomials, adversarial strategy, set of fewer than t nodes, pair of secrets, prime order group", "why_tests_cant": "a statement about all adversarial strategies and all alternative executions", "anchors": ["dealings/transcript.go:NewTranscriptInternal", "dealings/commitment.go:CombineOpenings", "poly/commitment.go:Create"]}
{"id": "C85", "title": "One derived private key gives the master key and all its siblings", "statement": "From the master public key, a derivation path and the private key belonging to the key derived along it, an explicit computation with public values returns the master private key and the private key of every other derivable path.", "quantifier": "every master key, pair of paths, private key, hash function, prime order group", "why_tests_cant": "a consequence of the algebra of derivation for all keys and paths (only non-hardened derivation exists in the code)", "anchors": ["key/key_derivation.go:DeriveTweak", "sign/sign.go:DerivePublicKey"]}
{"id": "C86", "title": "What can run for ever, and that the model's bounds do not matter", "statement": "PubliclyVerify, PrivateVerify, OpenDealing, complaint Verify, NewTranscriptInternal, ReconstructShareFromOpenings, FromDealings and FromDealingsAndOpenings always end. Scalar.Random ends if and only if the exclusive or of some number of the next key stream blocks is below the order; deriving a child key ends if and only if some index from the wanted one onwards gives a valid child; making, verifying and combining signature shares and verifying signatures can fail to end only in key derivation. The bound by which the model cuts off such loops is immaterial: every answer other than 'no answer yet' is the answer under every larger bound, for every function of the model up to the whole protocol run.", "quantifier": "every argument of each function, every bound, hash function, key stream and prime order group", "why_tests_cant": "non-termination cannot be observed by running; independence of the bound is a statement about all bounds", "anchors": ["curve/scalar.go:Random", "key/key_derivation.go:ckdpub", "dealings/dealings.go:PubliclyVerify", "dealings/transcript.go:NewTranscriptInternal", "complaints/complaints.go:Verify", "sign/combined_sig.go", "sign/sign.go:DeriveRho", "testutils/dealings.go:CreateDealings"]}
{"id": "C87", "title": "Dealings, proofs and complaints cannot be replayed in another context", "statement": "If the header of a ciphertext (ephemeral key and proof of possession) occurs in dealings that pass PubliclyVerify for two contexts, the dealer index and the associated data are the same, or two explicit different oracle inputs, computable from what was verified, have the same hash. The same holds for a complaint accepted twice (same dealer, complainer, key, session and ephemeral key) and for the resharing and product proofs (same commitments and session). Needed bounds: indices below 2^32 and associated data of at most 255 bytes; beyond them replay is possible.", "quantifier": "every dealing, complaint or proof, honest or not, every pair of contexts, hash function, prime order group", "why_tests_cant": "a statement about all adversarial dealings and all pairs of contexts; a test replays one honest dealing", "anchors": ["mega/mega.go:VerifyPop", "mega/mega.go:ComputePopBase", "dealings/dealings.go:PubliclyVerify", "complaints/complaints.go:Verify", "zk/dlog.go:HashToChallenge", "zk/equal_opening.go:HashToChallenge", "zk/product.go:HashToChallenge"]}
{"id": "C88", "title": "A signature is accepted for one message, beacon value and derived key only", "statement": "If Verify accepts one signature in two contexts with the same presignature point, the message hash, the beacon value and the key tweak are the same, or one of three things happened that are explicit in the two contexts: two different inputs of the oracle of DeriveRho have the same output; the discrete logarithm of the presignature point is minus the mean of the two oracle outputs; the x-coordinates of the two randomised points differ by exactly the group order.", "quantifier": "every signature, path, hash and beacon value of at most 255 bytes, key and presignature transcripts, hash function, prime order group", "why_tests_cant": "a statement about all pairs of contexts and all forged signatures", "anchors": ["sign/combined_sig.go:Verify", "sign/sign.go:DeriveRho"]}
{"id": "C89", "title": "Ciphertexts are malleable and the dealer is blamed", "statement": "Adding any values to the entry of one receiver in the ciphertext of any dealing changes neither the outcome of PubliclyVerify nor what any other receiver decrypts; a receiver for whom the dealing opened now gets an error, unless the shift commits to zero, and the complaint they make against the dealer is accepted. Nothing in a dealing ties the entries to the dealer, so dealings must be authenticated outside this code.", "quantifier": "every dealing, receiver, shift, operation, context, key, hash function, prime order group", "why_tests_cant": "a statement about all dealings and all changes of them, including what does not change", "anchors": ["mega/ciphertext.go:DecryptAndCheck", "mega/ciphertext.go:DecryptFromSharedSecret", "mega/ciphertext.go:CheckValidity", "dealings/dealings.go:PubliclyVerify", "complaints/complaints.go:NewComplaintInternal", "complaints/complaints.go:Verify"]}
{"id": "C90", "title": "The chain key binds the derivation path and the master key", "statement": "If deriving from two master keys along two paths returns the same chain key, the paths are the same and (for a nonempty path) so are the master keys, or two explicit different calls made in the two derivations agree in the right half of the HMAC, or one explicit call has an all zero right half (the initial chain key).", "quantifier": "every pair of master keys and paths of any length with indices of any bytes, every HMAC function, prime order group", "why_tests_cant": "a statement about all pairs of paths of unbounded length", "anchors": ["key/key_derivation.go:DeriveTweak", "key/key_derivation.go:ckdpub", "sign/sign.go:DerivePublicKey"]}
{"id": "C91", "title": "One wrong opening stops the recovery of a share", "statement": "ReconstructShareFromOpenings uses every opening it is given. If exactly one opening given by value does not match the dealing's commitment, and the wanted share is not among the other openings, it returns an error however many right openings there are. If the caller first drops the openings that do not match the commitment, the share is recovered, and matches, exactly if at least as many remain as the commitment has points.", "quantifier": "every dealing with a simple or Pedersen commitment, every set of openings with distinct node indices, wrong value and wanted index", "why_tests_cant": "a statement about all sets of openings of unbounded size and all wrong values; needs that every Lagrange coefficient is nonzero", "anchors": ["dealings/transcript.go:ReconstructShareFromOpenings", "poly/lagrange.go:AtValue", "poly/commitment.go:ReturnOpeningIfConsistent"]}
{"id": "C92", "title": "Opened dealings give away what was dealt", "statement": "From as many openings of every dealing of a transcript as the threshold, FromDealingsAndOpenings at node index -1 returns, with any or no key, an opening of the transcript's constant term; for resharings this is the secret key. In particular an honest dealer whose dealing was changed on the way for one receiver, and who is blamed for it, loses their share: reconstructing at index -1 from the openings of the changed dealing by the other receivers returns exactly the share (or product of shares) that was dealt.", "quantifier": "every transcript and set of openings; every honest dealing of each kind, tampering, set of at least threshold other receivers, hash function, prime order group", "why_tests_cant": "a statement about all dealings and tamperings and what can be computed from the published openings", "anchors": ["dealings/commitment.go:FromDealingsAndOpenings", "dealings/commitment.go:OpenDealing", "dealings/transcript.go:ReconstructShareFromOpenings", "curve/scalar.go:FromNodeIndex"]}
{"id": "C93", "title": "Checked openings sign, whatever the dealers did", "statement": "Let at least threshold signers hold openings of lambda, kappa * lambda and x * lambda that match the corresponding transcripts, and let the constant terms of these transcripts commit to those products (which C77 gives for verified dealings of malicious dealers). Then the shares they make combine, and the signature, if r and s are not zero, is accepted and is an ECDSA signature under the derived key; or two different openings of one point, named explicitly in terms of the openings held, give the discrete logarithm of H.", "quantifier": "every key, nonce, transcripts, openings and set of signers, path, message hash of at most 32 bytes, beacon value, hash function, prime order group", "why_tests_cant": "a statement about all dealings and all openings, honest or not, that pass the code's checks", "anchors": ["dealings/commitment.go:CombineOpenings", "sign/share.go:NewThresholdEcdsaSigShareInternal", "sign/combined_sig.go:NewThresholdEcdsaCombinedSigInternal", "sign/combined_sig.go:Verify"]}
{"id": "C94", "title": "Rounds keep their secrets under changing thresholds, nodes and dealers", "statement": "Take any sequence of driver calls: a setup, then random rounds, resharings of masked and unmasked rounds, multiplications, changes of the threshold and removals of nodes, in any order, with any number of dealers and of corrupted dealings, going on after failed rounds. Every finished round shares the product of random secrets that its construction says, with a polynomial of the degree its own threshold allows, a constant term that commits to that secret and openings that all match. Two unmasked rounds built to share the same product have the same constant term. A resharing with fewer dealers than the reshared round's threshold, or a multiplication with fewer than the sum of the thresholds minus one, is never finished, whatever the setup's current threshold is.", "quantifier": "all sequences of driver calls, all seeds, thresholds, node counts, dealer counts and corruption counts, all hash oracles and groups of prime order q", "why_tests_cant": "protocol_test.go checks these equalities and failures for four fixed sequences with 4 or 5 nodes and thresholds 2 and 1, with random seeds", "anchors": ["testutils/protocol_test.go:14-110", "testutils/protocol_round.go:44-127", "testutils/protocol_setup.go:44-56", "dealings/transcript.go"]}
{"id": "C95", "title": "Coordinate field elements: encodings, sign, square roots, progenitor", "statement": "For every element a of the coordinate field: AsBytes is the 32-byte big-endian reduced value and FromBytes reads it back; a 32-byte string is accepted exactly if its value is below p and is then the encoding of the result; FromBytes of any other length looks at the last 32 bytes only, so encodings are not unique; FromBytesWide reduces the last 64 bytes. Sign is the parity, and flips under negation of a non-zero element. Sqrt succeeds exactly on squares, with a root that is unique up to sign, and otherwise leaves zero. The progenitor y of a non-zero a satisfies a*y^2 = 1 if a is a square and p-1 otherwise.", "quantifier": "all field elements, all byte strings of any length, all integers as candidate roots", "why_tests_cant": "The field has 2^256 elements; tests see a handful, and whether a non-square can be reported as a square or the sign rule fails for one element cannot be sampled.", "anchors": ["curve/k256_fe.go:35-54", "curve/k256_fe.go:145-179", "curve/fe.go:107-122"]}
{"id": "C96", "title": "Rounds with changing parameters complete exactly when enough dealers take part", "statement": "After any sequence of driver calls (rounds, changed thresholds, removed nodes, failed rounds), if the setup's threshold is positive and fits its nodes (twice the threshold if dealings are corrupted): a random round with any positive number of dealers completes; resharing a finished round, masked or not, completes if the number of dealers asked for, capped by the nodes of that round, reaches that round's threshold, and is otherwise refused with an error; multiplying a masked and an unmasked round completes if the capped number of dealers reaches the sum of the two thresholds minus one and is otherwise refused, provided the masked round has at least as many nodes as the unmasked one. With fewer masked nodes the multiplication panics. The only other outcomes are a rejection loop that goes on forever, and a panic at a hash collision between proofs of possession or a zero scalar drawn for a corruption.", "quantifier": "forall oracles of the right output lengths, prime-order groups, sequences of driver calls, finished rounds, numbers of dealers and of corrupted dealings", "why_tests_cant": "The dynamic tests use a handful of fixed sizes and one seed; they cannot show that no other combination of thresholds, departures and dealers gets stuck, nor that too few dealers are always refused with an error rather than a panic.", "anchors": ["testutils/protocol_round.go:44-127", "testutils/dealings.go:15-147", "testutils/protocol_setup.go:44-56", "testutils/protocol_test.go:14-109", "dealings/transcript.go"]}
{"id": "C97", "title": "How evenly hashes spread over scalars and field elements", "statement": "For every length n up to 64 bytes and every scalar s, exactly floor(256^n/q) byte strings of that length reduce to s, plus one if s < 256^n mod q. So for the 48-byte blocks the random oracle reduces, the numbers of preimages of any two scalars differ by at most one, each being above 2^127; for the 32-byte blocks that key derivation and the message hash reduce, the scalars below 2^256-q have two preimages and all others one. The same count holds for the 48-byte blocks that hashing to the curve reduces to a coordinate.", "quantifier": "forall lengths n <= 64, scalars s, coordinate field elements x", "why_tests_cant": "Tests draw a few values; a bias, or a block length that is too short, can only be seen by counting all preimages.", "anchors": ["curve/k256_scalar.go", "curve/scalar.go", "ro/ro.go", "curve/k256_fe.go", "curve/hash_to_curve.go", "key/key_derivation.go"]}
{"id": "C98", "title": "Unmasked dealings and resharing reveal nothing beyond the public key", "statement": "For fewer nodes than the threshold there is a fixed polynomial e such that z -> z + s*e maps the sharings of zero one-to-one onto the sharings of s, leaves the coalition's openings unchanged, and makes the simple commitment a function of z and s*G. So a coalition's view of an unmasked dealing can be produced by someone who knows only s*G. The same e does it for a whole round that reshares a masked secret x: the coalition's old openings, the commitments of all dealers and its openings of all dealings are functions of x*G and of independent random sharings of zero.", "quantifier": "forall prime-order groups, thresholds, coalitions below the threshold, secrets, dealers' polynomials", "why_tests_cant": "Secrecy is a statement about all secrets and all random choices at once; running the code shows single outcomes.", "anchors": ["poly/commitment.go", "poly/poly.go", "dealings/commitment.go:31-75", "testutils/protocol_round.go:60-102"]}
{"id": "C99", "title": "Random subsets of signature shares sign exactly from the threshold on", "statement": "RandomSubset returns a part of the shares with exactly the wanted number of entries; for a negative number or more than there are it never returns, and for an empty map and a non-zero number it panics. The entries it returns are exactly those at the positions drawn, each the big-endian value of the next four key stream bytes of RandomSeed modulo the number of shares, up to the draw that completes the wanted number. After any finished setup, with any number of corrupted dealings, a subset of the shares that RandomSubset returned makes GenerateSignature fail if it is smaller than the threshold, and otherwise gives the same signature as all shares together, which verifies and is a valid ECDSA signature unless it is degenerate. (This is the test commented out at protocol_test.go:156-168, for all sizes, thresholds, seeds and messages.)", "quantifier": "forall oracles, prime-order groups, finished setups, paths, messages, beacon values, subset sizes and bounds on the number of draws", "why_tests_cant": "The test is commented out, and it would try one seed and ten nodes.", "anchors": ["testutils/protocol_test.go:110-169", "testutils/test_utils.go:83-88", "testutils/signature_protocol_setup.go:83-128", "sign/combined_sig.go:18-66"]}
{"id": "C100", "title": "Publicly valid dealings give every node its share or gather accepted complaints", "statement": "Take any dealings that pass PubliclyVerify, whoever made them and however, and any set of nodes with honest keys. If for every dealing at least threshold of these nodes can read their share of it, then every one of them ends with a share of the transcript: it reads what it can, and for the dealings it cannot read FromDealingsAndOpenings recovers the share from what the others read; the result opens the transcript commitment. If fewer than threshold nodes can read a dealing, then more than (number of nodes - threshold) of them cannot, and each of those gets a complaint about that dealing from GenerateComplaints that Verify accepts (unless the bounded random drawing runs out); nodes that can read it never complain about it. This needs commitments that are not wrapped in a summation or interpolation commitment: wrapping the commitment of a valid dealing changes neither PubliclyVerify, nor what the receivers read, nor the transcript, but every attempt to recover a share of it panics.", "quantifier": "forall oracles, prime-order groups, thresholds, operations, lists of publicly valid dealings (honest or not), node sets and private keys, associated data, complaint seeds", "why_tests_cant": "Tests corrupt one ciphertext of an honest dealing for one receiver and repair it; they cannot try every dealing a malicious dealer may publish, nor every set of readers.", "anchors": ["dealings/commitment.go:19-109", "dealings/transcript.go:59-208", "dealings/dealings.go PubliclyVerify", "complaints/complaints.go GenerateComplaints, Verify", "dealings/combined_commitment.go:12-26"]}
{"id": "C101", "title": "Corrupting a dealing hits exactly the chosen receivers; corrupting it for all leaves it to nobody", "statement": "CorruptDealing on any publicly valid dealing, whoever made it, with different targets in range gives a publicly valid dealing with the same commitment and proof. Receivers that are not targets read from it what they read before; a target that could read its share gets an error instead, unless the random scalar drawn from the seed is zero, in which case nothing changes. CorruptDealingForAllRecipients on a dealing that all nodes can read (and a non-zero scalar) gives a publicly valid dealing that no node can read: every node's complaint against it is accepted, and FromDealings fails for every node and every set of dealings that contains it.", "quantifier": "forall oracles, prime-order groups, operations, publicly valid dealings with an unwrapped commitment, target lists without repetition, 32-byte seeds, nodes and private keys, sets of other dealings", "why_tests_cant": "CorruptDealingForAllRecipients is called by no test, and the test of CorruptDealing uses honest dealings, one seed and few targets.", "anchors": ["testutils/test_utils.go:12-66", "dealings/dealings.go PubliclyVerify, PrivateVerify", "complaints/complaints.go Verify", "dealings/commitment.go:49-62"]}
{"id": "C102", "title": "Seeds made from bytes, streams and generators never coincide", "statement": "FromRandomness always returns a 32-byte seed: the expansion of the next 32 bytes of the stream under its own separator; the stream continues right behind them. If two seeds made by FromBytes, FromRandomness or FromRng are equal, they were made by the same function from the same 32 bytes or input, or two different strings with the same SHA-256 value are named.", "quantifier": "forall hash functions and key streams with the right output lengths, stream keys and positions, input strings", "why_tests_cant": "Separation of the three constructors is a statement about all pairs of inputs; no test calls FromRandomness.", "anchors": ["seed/seed.go:15-39", "rand/chacha20.go:35-41", "seed/xmd.go ExpandMessageXmd"]}
{"id": "C103", "title": "Comparison of Lagrange coefficients decides equality of interpolation", "statement": "Equal on two sets of Lagrange coefficients answers 1 exactly if the lists are the same and 0 exactly if not, also for different lengths. For non-empty lists it answers 1 exactly if the two interpolate every list of values alike, errors included. The constructor refuses exactly the empty list, and coefficients made by it or by AtValue interpolate every list of their length and refuse every other one.", "quantifier": "forall lists of coefficients and lists of values", "why_tests_cant": "The second form ranges over all value vectors.", "anchors": ["poly/lagrange.go:19-42", "poly/lagrange.go:61-72"]}
{"id": "C104", "title": "Malicious dealers in any round cannot make the signers produce a wrong signature", "statement": "Take the four rounds that precede a signature (resharing the masked key, resharing the masked kappa, multiplying kappa by lambda, multiplying the key by lambda), each carried out by arbitrary dealers whose dealings pass the public verification and are combined by NewTranscript. Whenever at least threshold many signers hold openings that pass CheckOpening against the transcripts and make shares with NewSignatureShare, combining these shares succeeds and gives a signature that Verify accepts and that is an ECDSA signature under the key derived from the original masked key, or else one of the rounds, or the openings, exhibit the discrete logarithm of H to the base G.", "quantifier": "all oracles, all groups of order q, all dealers, dealings and transcripts of the four rounds, all thresholds, signers, openings, derivation paths, hashes and randomness; dealers' secrets and second answers to their proofs are arbitrary", "why_tests_cant": "The dealers are not assumed to run the code: any dealing that the checks let through is allowed. A test can only try dealings that somebody thought of, and cannot rule out that another dealing moves the key or the nonce.", "anchors": ["dealings/transcript.go", "dealings/dealings.go", "dealings/commitment.go", "zk/equal_opening.go", "zk/product.go", "sign/share.go", "sign/combined_sig.go"]}
{"id": "C105", "title": "Every derivation is public, also under hardened indices; one derived secret key gives away all others", "statement": "On 32-bit indices for which BIP32's CKDpub derives a child, DerivePublicKey derives the same key and chain code. BIP32 refuses CKDpub for indices from 2^31 on (hardened); the code does not, so hardened indices are not refused. Whatever the path, the tweak is a function of the public key, so the secret key of one derived key determines the master secret and the secret keys of all other paths.", "quantifier": "all oracles and groups, all master keys, indices and paths", "why_tests_cant": "the refusal is an expectation about half of all indices, and the relation between derived keys is one over all pairs of paths", "anchors": ["key/key_derivation.go:ckdpub,DeriveTweak,NewBip32", "sign/sign.go:DerivePublicKey"]}
{"id": "C106", "title": "Curve numbers other than K256", "statement": "EccCurveType is a plain integer that callers pass to most entry points. Under K256 every such function is the one the other properties are about, and the size tables match the bit lengths of the two primes. Any other number has zero sizes, an empty name and the tag 0, so it does not survive the round trip through its tag unless it is 0. Under any other number: drawing a scalar never ends, so GenKeypair and the creation of random and product dealings hang; HashToScalar, OutputScalars, OutputScalar and HashToField return as many nil values as asked for, with a nil error, and a negative number of scalars panics; MapToCurve of such a nil value panics; HashToPoint and GeneratorH panic; PubliclyVerify and PrivateVerify refuse with an error everything they accept under K256; creating, verifying and combining signature shares and verifying signatures never succeed and panic wherever the K256 call succeeds; NewTranscriptInternal succeeds only with nothing to combine, and then returns nil points. CombineOpenings never succeeds and panics wherever the K256 call succeeds. The constants of the coordinate field are those of the curve equation and of RFC 9380 under K256, and nil under any other number. That an unknown number is always reported as an error is false.", "quantifier": "every integer as curve number and all other arguments", "why_tests_cant": "tests always pass K256; one of the outcomes is a loop that no test can observe to be endless", "anchors": ["curve/types.go", "curve/scalar.go", "curve/point.go", "curve/hash_to_curve.go", "mega/key.go", "dealings/dealings.go", "dealings/transcript.go", "sign/sign.go", "sign/share.go", "sign/combined_sig.go"]}
{"id": "C107", "title": "Changing the nodes and the threshold of a setup", "statement": "A new protocol setup accepts any threshold and any number of nodes that is not negative (make panics on negative ones); its associated data are the first 32 bytes of the key stream of its seed, and the node keys are drawn one after the other behind them, each public key being the private key times the generator. After every sequence of RemoveNodes, ModifyThreshold and NextDealingSeed calls, the caller recovering from panics, the threshold is the last one set, the number of nodes is the first number minus the sum of all removals as a Go int, and the nodes listed are the first so many of the original ones; listing them panics exactly if that number lies outside of 0..n. A removal panics exactly if it leads outside of 0..n, and it changes the number of nodes all the same. Removals adding up to zero restore the setup: RemoveNodes with a negative number brings removed nodes and their keys back, so that removal is not final. Removing k nodes gives what a setup of k fewer nodes from the same seed would be. The seed of a round depends only on the seed of the setup and on the number of seeds taken before; seeds of different rounds differ unless two given strings collide under SHA-256 inside the expansion.", "quantifier": "For all seeds, node numbers below 2^63, thresholds, sequences of calls with any integer arguments, hash functions and groups.", "why_tests_cant": "The tests remove nodes once, by two, and change the threshold once. They never remove too many or a negative number, go on after a panic, or compare seeds of rounds.", "anchors": ["testutils/protocol_setup.go:11-68 ProtocolSetup", "seed/seed.go:41-47 Derive, Rng", "mega/key.go:71-83 PublicKey, GeneratePrivateKey"]}
{"id": "C108", "title": "The encodings are standard CBOR and unambiguous", "statement": "MarshalCBOR of scalars and points and Serialize of commitments and openings give one CBOR item each (RFC 8949 section 3, preferred serialization): a byte string of the curve tag and the scalar or compressed point, resp. a map of the three field names in the order of the struct to the curve number, the type and the array of the elements. Items are unambiguous, also in front of other bytes. Pedersen openings are written with the type number of simple ones and two elements; equal bytes of openings mean the same kind and the same scalars; lengths are 35, 36 and 33 + 35 n bytes. Every decoder that reads such items as the standard says reads simple commitments back exactly if no point is the identity, and Deserialize refuses all Pedersen commitments.", "quantifier": "every scalar, point, list of fewer than 2^32 points, opening, and every decoder that reads items as the standard says", "why_tests_cant": "tests encode and decode with the same library, and never look at the bytes", "anchors": ["poly/commitment.go:Serialize", "poly/commitment.go:Deserialize", "curve/k256_point.go:MarshalCBOR", "curve/k256_scalar.go:MarshalCBOR"]}
{"id": "C109", "title": "What the typed inputs of a random oracle bind", "statement": "After any two sequences of AddBytesString, AddPoint, AddScalar, AddUint64 and AddUint32 calls the strings hashed are equal exactly if under every name the oracles hold the same typed value, that is the first value added under that name that can be represented. So values of different types never coincide and outputs of at least 32 bytes agree only for equal values, separators and lengths, or by a collision of the two strings. AddUint64 tells integers apart modulo 2^64, AddUint32 modulo 2^32, and the two methods are not separated from each other: the natural reading that the width is bound is false. Under a free name of proper length each call stores the type, the length in four bytes and the value; points of secp256k1 are stored as SerializeTagged returns them.", "quantifier": "all sequences of typed calls with arbitrary names and values, all separators and output lengths, every group satisfying the laws", "why_tests_cant": "the claim compares every pair of call sequences; the tests hash four fixed sequences", "anchors": ["ro/ro.go:59-93", "ro/ro.go:110-129", "curve/k256_point.go:179-184", "curve/k256_scalar.go:SerializeTagged"]}
{"id": "C110", "title": "The primitives written out are those of the standards", "statement": "A byte string is the SHA-256 (SHA-512) digest of a message, as FIPS 180-4 describes it, exactly if it is the one the model computes; likewise HMAC-SHA-512 as RFC 2104 describes it; and every byte of the ChaCha20 key stream with a zero nonce is the one RFC 8439 describes. The description of SHA-2 gives words bit by bit, the schedule and rounds as sequences, and the constants as bits of square and cube roots of the first primes.", "quantifier": "every message and key shorter than the length fields allow, every key, every position below 2^38", "why_tests_cant": "known answers cover finitely many inputs, and do not say where the constants come from", "anchors": ["seed/xmd.go", "key/key_derivation.go", "rand/chacha20.go"]}
{"id": "C111", "title": "Private verification accepts exactly the shares that match the commitment, and enough acceptances fix one polynomial", "statement": "PrivateVerify accepts a dealing exactly when decryption for that receiver succeeds and the decrypted opening satisfies the commitment equation at the receiver's index; for a publicly verified dealing and an index in range anything else is the error, never a panic. OpenDealing hands over an opening exactly when it is the decrypted one and satisfies that equation. When at least the threshold of receivers accept a publicly verified dealing, whoever made it, there is one polynomial with at most the threshold number of coefficients (two for Pedersen commitments) which the commitment commits to at every point and on which the decrypted shares of all accepting receivers lie; for Pedersen commitments a share off the polynomial gives the discrete logarithm of H.", "quantifier": "all dealings, including maliciously made ones, all keys, indices, associated data and sets of accepting receivers", "why_tests_cant": "Tests deal honestly; a malicious dealer chooses the ciphertexts and the commitment freely, and agreement between receivers is a statement about every such choice.", "anchors": ["dealings/dealings.go:189-195", "dealings/commitment.go:19-22", "mega/ciphertext.go:217-227", "mega/ciphertext.go:330-342", "poly/commitment.go:244-251", "poly/commitment.go:366-375"]}
{"id": "C112", "title": "Random polynomials and the polynomials of dealings are fresh draws", "statement": "Poly.Random returns exactly the wanted number of coefficients, each drawn by Scalar.Random after the previous one, and RandomWithConstant returns the constant followed by one draw fewer; the generator is left where the last draw ended, so polynomials drawn one after the other use disjoint key stream bytes and together are one longer draw. A negative number panics in both, a constant with zero coefficients is the only error. In a dealing the coefficients come from the key stream of the seed derived for polynomials: values then masks for a random dealing, everything after the shared value for a resharing, and the constant of the mask, the other values and the other masks for a product; the commitment is to exactly these coefficients.", "quantifier": "forall oracles, groups, numbers of coefficients, constants, generator states, kinds of shares, seeds, thresholds, receivers", "why_tests_cant": "Tests only check lengths, the constant and round trips; a polynomial with repeated coefficients, or a mask equal to the values, passes all of them.", "anchors": ["poly/poly.go:35-62", "dealings/dealings.go:13-120", "curve/scalar.go:Random"]}
{"id": "C113", "title": "Ephemeral keys and proof nonces come from separately derived seeds", "statement": "Encryption takes the ephemeral secret and the nonce of the proof of possession as the first draws of two seeds derived with their own separators; the ephemeral key is that secret times the generator and the response is secret times challenge plus nonce. A dealing encrypts with the seed derived for encryption. The response of an equal openings proof in a dealing uses one nonce, and those of a product proof two successive nonces, from the seed derived for that proof. The complaints of a receiver, which all prove knowledge of the same private key, take their nonces from seeds derived with the index of the dealer complained about. CreateDealings in the drivers gives the k-th dealer a seed made of the k-th 32 bytes of its key stream, and removing and corrupting dealings leaves commitments, proofs and ephemeral keys as they were dealt.", "quantifier": "forall oracles, groups, kinds of shares, seeds, thresholds, receivers, dealers, associated data and plaintexts", "why_tests_cant": "A nonce equal to the ephemeral secret, a nonce used twice or a fixed ephemeral key passes every round trip and verification test and reveals the secrets.", "anchors": ["mega/ciphertext.go:34-91,236-262", "dealings/dealings.go:60-120", "zk/dlog.go:Create", "zk/equal_opening.go:Create", "zk/product.go:Create", "complaints/complaints.go:22-60", "testutils/dealings.go:86-147"]}
{"id": "C114", "title": "Every encrypted share has its own one-time pad", "statement": "The i-th ciphertext is the i-th plaintext plus the output of the encryption oracle for dealer index, receiver index i, associated data, key of receiver i, ephemeral key, and the product of the ephemeral secret and that key; for pairs the two parts are padded with the first and the second output. The ephemeral secret is the draw of C113. Decryption from a shared secret returns a value exactly if the ciphertext at the index is that value plus the pad for the shared secret, for all ciphertexts.", "quantifier": "forall oracles, prime-order groups, seeds, plaintexts, receivers, indices, associated data, ephemeral keys, shared secrets and ciphertexts", "why_tests_cant": "If both sides forget an input of the oracle, or pad both parts of a pair with the same output, every round trip still succeeds while plaintexts leak.", "anchors": ["mega/mega.go:16-30", "mega/ciphertext.go:65-91,200-209,236-262,288-300"]}
{"id": "C115", "title": "Rotations, constants and padding of the primitives", "statement": "The rotations of ChaCha20, SHA-256 and SHA-512 turn words bit by bit. The round constants and initial values of SHA-256 and SHA-512 are the first 32 resp. 64 bits of the fractional parts of the cube roots of the first 64 resp. 80 primes and of the square roots of the first eight. Padding fills whole blocks, keeps the message in front, adds at most one block besides the fixed part, and no padded message below the length limit is the tail of the padding of another one.", "quantifier": "every word, every rotation, every constant, every message (for the last claim below 2^64 resp. 2^128 bits)", "why_tests_cant": "A wrong digit in a constant or a wrong pad length shows only in digests of certain lengths; injectivity of padding is a statement about pairs of messages.", "anchors": ["seed/xmd.go:4", "key/key_derivation.go:112-128", "rand/chacha20.go:12-21"]}
{"id": "C116", "title": "Key, nonce and blinding factor come from rounds of their own", "statement": "In every signing setup that completes, the key goes back to a random round with the seed for number 0, the nonce to one with the seed for number 1 and the blinding factor to one with the seed for number 2; key and nonce are the resharings (rounds 3 and 4) of exactly these openings, and the products of rounds 5 and 6 multiply the openings of the key and of the nonce by those of the blinding factor, node by node. In every round each dealing is made by its dealer from the share of that dealer and from its own 32 bytes of the key stream of the seed of the round, and the transcript is the one of these dealings.", "quantifier": "forall oracles, groups, encodings, numbers of nodes, thresholds, numbers of corrupted dealings and seeds", "why_tests_cant": "If the nonce is taken from the round of the key, every signature still verifies while each one reveals the key.", "anchors": ["testutils/signature_protocol_setup.go:31-69", "testutils/protocol_round.go:44-127", "testutils/protocol_setup.go:44-48", "testutils/dealings.go:86-147"]}
