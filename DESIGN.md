# Design of the formal model

Target: the Go package tree in `/repo` (threshold ECDSA on secp256k1).
Prover: Coq/Rocq 8.16.1, standard library only.

## Style of the model

* Every modelled Go function is a total Gallina function.  A Go call that may
  fail returns `res A` with the constructors `Ok a`, `Err` (a Go `error`),
  `Panic` (run-time panic: nil dereference, slice bounds, failed type
  assertion) and, where the Go code can loop for ever, `Diverge` (fuel
  exhausted).
* Bytes are `Z` with the predicate `0 <= b < 256`; byte strings are `list Z`.
* Go `int`/`NodeIndex` is `Z`; conversions to `uint64`/`uint32` are explicit
  reductions modulo 2^64 / 2^32.
* Scalars are the concrete field of integers modulo the secp256k1 group order
  `q`, coordinates the field modulo `p`.  The primality of `q` and `p` is
  proved inside Coq (Pocklington certificates), not assumed.
* Interface values with several dynamic types (openings, commitments,
  proofs, ciphertexts, shares) are inductive types with one constructor per
  dynamic type the code can meet, so failed or skipped type switches are visible.
* The protocol layers (polynomial commitments and upwards) are written over a
  record of group operations and are proved for every group satisfying the
  vector-space laws over the scalar field; the record is instantiated (a) by a
  small exponent group and (b) by the secp256k1 curve itself, with the group
  laws, and the fact that the group has order q, proved in Coq.
* Hash functions: theorems are quantified over the hash/HMAC function, or are
  about the byte string given to the hash.

## Trusted base

* The Coq kernel (and the VM for `vm_compute`).
* What `Print Assumptions` lists for each theorem: nothing.  Every theorem and
  every example named `Cnn_...` is "Closed under the global context" (see the
  end of this file).
* That the Gallina definitions say what the Go text says; each definition
  cites the file and lines it transcribes and states its simplifications.
* External Go libraries, modelled by their documented contracts and not by
  their source (it is not available here): kryptology field/point arithmetic
  (`native.Field`, `native.EllipticPoint`), `golang.org/x/crypto/chacha20`,
  `crypto/sha256`, `crypto/hmac`, `fxamacker/cbor`, `tidwall/btree`.

Not modelled: constant-time behaviour, memory allocation failure, concurrency
(the code has none), error message texts, Go maps' pointer identity except in
the aliasing model of C60, C63, C72 and C73.  Curve numbers other than K256 are a parameter only in
`ModelCurve` (C106); the other files fix the number to K256.

## Properties

| id | how it is modelled and proved |
|----|-------------------------------|
| C01-C03 | `Scalar` model over bytes; big-endian arithmetic by induction on the string |
| C04-C07 | `ModelSecp`: encoder/decoder over affine coordinates, `SpecSecp`: curve equation and SEC 1 form; square roots via Fermat for p = 3 mod 4 |
| C08 | CBOR byte-string header model on top of the codec |
| C09 | uncompressed decoder model: accepted set characterised, off-curve witness |
| C10, C11 | double-and-add loop invariant over the bits; wrap-around arithmetic modulo 2^64 |
| C12 | SSWU, sqrt_ratio and isogeny as field programs; Euler criterion, `field` identities, constants by `vm_compute` |
| C13 | xmd loop against an independent RFC 9380 definition, any hash |
| C14-C16 | oracle state = list sorted by name; insertion commutes; prefix-free encoding |
| C17 | oracle input as function of associated data: constant above 255 bytes, injective below |
| C18 | from C15: name sets differ |
| C19-C22 | Sigma protocols over an abstract vector space, algebraic identities |
| C23-C26 | coefficient lists; invariant of Newton interpolation; counting and the zero test in `PropPolyZero` |
| C27, C28 | root counting for polynomial functions over a field; the coefficients at zero in `PropLagrangeZero` |
| C29-C33 | commitments over an abstract vector space; dynamic types explicit |
| C34, C35 | MEGa over abstract group and arbitrary key-derivation hash |
| C36-C39 | dealings with explicit dynamic types and nil values |
| C40-C44 | transcripts, linearity plus C27; index lists of the wrong length in `PropIndices` |
| C45, C46 | complaints |
| C47-C49 | key derivation with arbitrary HMAC; carry propagation by induction |
| C50-C56 | signing against a separate textbook ECDSA specification |
| C57, C58 | keystream as a function from position to byte |
| C59 | `ModelProtocol` transcribes the drivers in testutils (round creation with corrupted dealings, verification, transcript, opening, key setup, presignature, shares, combination).  `ProofProtocol`: an invariant on setups (keys and points match one polynomial per sharing) kept by every round, whatever the number of corrupted dealings.  `ProofRun`: with no corruption every honest round finishes; the only other outcomes are `Diverge` (the rejection sampler never accepts, a matter of the keystream) and the panic that needs a collision of two proof-of-possession challenges, which the theorem states as the existential `pop_collision`.  The example runs the whole protocol for one node |
| C60 | `ModelHeap`, `ModelHeapSign`: the same functions with explicit cells, every method writing its receiver; `ProofFrame` computes for each program which cells it may write, without any assumption on the pointers |
| C63 | `ProofHeap`, `ProofHeapSign`: a refinement relation between the memory-level programs and the functions on values, with freshness of results |
| C62 | `ProofCurve` (group law via complete addition formulas), `ProofOrder` (order by a checked addition chain and counting), `ProofSecp` (instance of the group class) |
| C64 | `ModelMegaKey`: key (de)serialisation on top of the point and scalar codecs; GenKeypair (`ModelMega`) and the public key of a secret; accepted strings characterised, ciphertexts to the identity key opened with private key 0 |
| C65 | `PropSeed`: injectivity of every string layer; where a hash intervenes the conclusion names the two colliding strings (a bare "there is a collision" would be true by counting) |
| C66 | `PropReuse`: two responses under one nonce give the witness; ciphertexts under one ephemeral key differ by the plaintexts |
| C67 | `PropOpenings`: interpolation at zero is linear, so adding t*x_i to every opening keeps the value at zero |
| C68 | `PropOutput`: RFC 9380 hash_to_field over the scalar field and the sorted table of inputs as independent specifications; `ModelRoPoints`: AddPoints |
| C69 | `ModelCommitCbor`: the CBOR bytes of commitments; theorems hold for every decoder that inverts the encoder on its range, one such decoder is given |
| C70 | `ModelEncode`: the rest of encode.go; `PropHexText` says which texts FromStr takes |
| C71 | runs with corrupted dealings (`ProofCorrupt`); the exceptional cases name the round seed whose corruption draw is zero, or the two colliding strings |
| C72 | `ModelHeapDeal`: proofs, encryption, dealings, transcripts, openings, complaints and CorruptDealing with explicit cells; `ProofFrameDeal` (cells written), `ProofHeapAlloc` (new cells are distinct), `ProofHeapZk`, `ProofHeapMega`, `ProofHeapDeal`, `ProofHeapCorrupt` (refinement to the functions on values), `PropHeapCorruptAll` (with C101: the original after corruption for all) |
| C73 | `ModelHeapH2C`: field elements as cells, the constants K256C as thirteen global cells; `ProofFrameH2C` (cells written), `ProofHeapH2C` runs each straight-line program symbolically on a memory followed by the cells it has made |
| C74 | `SpecPresig`, `PropPresig`: the accepted point is s⁻¹ times a fixed point, and equal x-coordinates mean equal up to sign (`affx_inj`); shares as polynomials through their values, two lists that differ at one node interpolate to different values at zero |
| C75 | `PropPresig`: the equation s(k + delta) = ±(e + r(x + tweak)) behind every accepted signature (`affx_zero` excludes the identity as rerandomised presignature); two of them solved for x |
| C76 | `PropHiding`: a polynomial that vanishes at the nodes and not at zero, and its multiple by -1/log H, translate one sharing into another |
| C77 | `SpecMalicious`, `PropMalicious`: special soundness of the two proofs combined with interpolation over the dealers; the logarithm is a formula in one dealer's values, because "there is a logarithm" is true of every cyclic group |
| C78 | `ProofCert`: the specification of hashing to the curve checked from literal roots and inverses, with multiplications only; uniqueness (C12) carries the result over to the model |
| C79 | `ModelHashes` (FIPS 180-4, RFC 2104, RFC 8439), `ProofHashes`; the known answers in `PropConcrete` are tests of the model, evaluated when the file is compiled (`Check (eq_refl <: ...)`), with `ProofFast` for scalar multiplication. `PropHmac` specifies HMAC by the bytes of its key blocks; ChaCha20 and the SHA-2 compression functions have no specification besides the model and the known answers |
| C80 | `SpecPanic`: conditions on the shape of the arguments; both directions by inverting every `bind` (`ProofPanic`) |
| C81 | `SpecEpoch.later`: reflexive and transitive closure of accepted unmasked resharings; C40 by induction, openings by interpolation in the exponent |
| C82 | `SpecEpoch`: runs of dealt polynomials and the adversary's view as data; the translation is built round by round from `sharing_exists` (C28); group elements are not in the view |
| C83 | the correspondence adds multiples of one polynomial that is 1 at zero and 0 at the corrupted nodes; equality of views by C76's lemmas, of shares by computing `new_share` |
| C84 | shift of C83 by a polynomial that is zero at the corrupted nodes, so that the adversary, seeing the same view, deals the same; the code's side by `new_transcript_shape` and the opening of a commitment being unique or giving log H |
| C85 | subtraction of the tweak, which `derive_tweak` computes from public data |
| C86 | one monotonicity lemma (`settles`) and one termination lemma (`halts`) per function, composed along `bind`; divergence of the two loops from C58 and `ckdpub_outcome` |
| C87 | two accepting verifications recompute the same challenge; either the oracle states have equal input strings, and injectivity of the encoding (C15, C17) gives equal contexts, or the strings are the clash; without the bounds refuted by a dealing that verifies for every hash |
| C88 | equal r means equal x-coordinates up to the order, hence equal or opposite points, hence equal oracle outputs or the logarithm; then injectivity of the oracle's encoding |
| C89 | `tampered`: one entry of the list differs by a shift; decryption is additive in the entry, the check is additive in the opening; C46 for the complaint |
| C90 | induction on both paths from the end; the input of the last call determines index, key and chain key before it |
| C91 | the Lagrange coefficient of a node vanishes only at the other nodes, so the interpolated point is off by a nonzero multiple of the error |
| C92 | index -1 has abscissa 0; soundness of combined openings (C44) and interpolation of the dealt polynomials, openings of a changed dealing by C89 |
| C93 | the first threshold openings determine polynomials that the commitment commits to; every other opening and the constant term agree with them or give log H; then C50 |
| C94 | SpecDrivers (sequences of calls), ProofDynamic, PropDynamic: an invariant over all sequences of calls; different node counts and thresholds of the inputs |
| C95 | Euler's criterion for p = 3 mod 4; the byte lemmas of the scalars at the other modulus; statements over integers modulo p (`PropField`) |
| C96 | ProofDynamicRun, PropDynamicRun: every driver call after any sequence of calls completes or is refused according to the number of dealers; multiplying with fewer masked nodes panics |
| C97 | PropBias: counts of preimages of wide reduction, by listing them |
| C98 | PropFeldman: a one-to-one translation between sharings of zero and of s; commitments computed from s*G |
| C99 | ModelSubset, PropSubset, PropSubsetExact: invariant of the drawing loop; the entries after m draws as a set, and lists in key order are equal when they have the same entries; composition of C59 and C51 |
| C100 | composition of C38, C44, C45, C46 for arbitrary verified dealings (`PropDelivery`); Spec = who can read what (`read_by`, `openings_of`, `left_out`, `handed_to`); the restriction to bare commitments is shown necessary by `C100_wrapped_commitments_refuted` |
| C101 | `ModelCorruptAll`; a receiver's decryption depends on its own entry only, the entry is shifted by the scalar (C89), a shifted opening passes only if the scalar is zero |
| C102 | `ModelCorruptAll` (FromRandomness on the ChaCha20 stream; kyber's random.Bytes is taken to be XORKeyStream on a zero buffer), C65 for the separators |
| C103 | `ModelCorruptAll.lagrange_equal`; unit vectors separate different coefficient lists |
| C104 | `PropActive`; composition of C77 (each round) with C93 (checked openings sign); the forks are the usual rewinding witnesses of special soundness |
| C105 | `PropHardened`; C47, C49 with BIP32's CKDpub as Spec |
| C106 | `ModelCurve`: the functions again with the curve number as a parameter and nil interface values as `None`; equal to the K256 models at 1, and case analysis for every other number |
| C107 | `ModelSetup`, `PropSetup`. The key slices with their arrays and capacities, Go int arithmetic for the node and round counters, states behind recovered panics. `C107_agrees_with_the_drivers` ties it to the value model of `ModelProtocol`; `PropDriverCalls` states the claim for that model by itself (calls that succeed) |
| C108 | `SpecCbor` gives items and their encoding as an inductive relation from RFC 8949; `ModelCommitCbor` writes the bytes. Prefix freeness by mutual induction on derivations; a decoder for all such items is built as an example. That cbor.Marshal writes structs in field order with shortest headers is trusted |
| C109 | `ModelRo.add_*`, `ModelGroup.add_point`; typed calls are mapped to raw ones and their encodings shown injective on top of C15 and C65; `PropTagged` gives the stored bytes |
| C110 | `SpecHash` states the standards independently of `ModelHashes`; `ProofHashWords` (bits), `ProofHashSha` (existence and uniqueness, constants by primality and integer roots), `ProofHashChacha` (array updates against a list). These are library functions, not code of the repository: that the Go libraries implement the standards stays an assumption |
| C111 | exactness of private_verify against the commitment equation written with spec_geval; agreement of all accepting receivers on one committed polynomial by interpolation of the first threshold shares |
| C112 | PropPolyRandom, PropDealRandom: the draws as a relation on the key stream, C58 for one draw, inversion of the dealing |
| C113 | PropNonces, PropDealers: inversion of encryption, of the dealing, of the complaints and of the driver's loops, with the draws of C112 |
| C114 | PropPads: specification of encryption from C34 with the oracle outputs of C68 and the draws of C113 |
| C115 | PropWords: bits of shifts; integer roots compared by cubing; padding from its last bytes backwards. The primitives stand behind library calls, so this is about the instance of C79 and not about code in /repo |
| C116 | PropRounds: the setup taken apart round by round, with C113_dealers for the dealings; seeds of different rounds differ by C107 |
| C61 | `ModelSecret`: conversion of openings between representations, with value and pointer types kept apart |

No property is declared inexpressible.  No property is partial.  A property
whose natural reading is false of the code is stated as a `..._refuted` theorem
(with a witness, or for all inputs), next to theorems saying exactly what holds.

## What is modelled, file by file

| Go file | model | not modelled |
|---------|-------|--------------|
| curve/k256_scalar.go, curve/scalar.go | `ModelScalar`, `ModelSecret` (ToScalar), `ModelSecp` (CBOR) | montgomery limbs: a scalar is its value modulo q |
| curve/k256_point.go, curve/point.go | `ModelSecp` (codecs), `ModelGroup` (operations as a class), `ProofSecp` (the instance on the curve) | projective coordinates: a point is its affine value |
| curve/k256_fe.go, curve/fe.go | `ModelH2C`, `ModelSecp`; memory level: `ModelHeapH2C` | limbs |
| curve/hash_to_curve.go, curve/hash2curve.go | `ModelH2C`, `ModelRo` (scalars); memory level: `ModelHeapH2C` | - |
| curve/encode.go | `ModelSecp`, `ModelEncode` | error texts |
| curve/types.go | `ModelCurve` (all curve numbers, here and in the functions that take one); inlined elsewhere | - |
| seed/*.go, ro/ro.go, rand/chacha20.go | `ModelXmd`, `ModelRo`, `ModelRoPoints`, `ModelCorruptAll` (FromRandomness) | SHA-256, HMAC-SHA-512 and ChaCha20 themselves (class `Oracles`: arbitrary functions with the right output lengths; `ModelHashes` writes out the real ones from their standards, an instance by C79, except that the block counter of ChaCha20 wraps after 2^38 bytes where x/crypto panics) |
| poly/poly.go, poly/lagrange.go | `ModelPoly`, `ModelCorruptAll` (Equal); memory level: `ModelHeap` | - |
| poly/commitment.go | `ModelCommit`, `ModelCommitCbor`; memory level: `ModelHeapSign` | CBOR of anything but commitments, points, scalars |
| zk/*.go | `ModelZk`; memory level: `ModelHeapDeal` (with the Clone methods) | - |
| mega/*.go | `ModelMega`, `ModelMegaKey`; memory level: `ModelHeapDeal` | - |
| dealings/*.go | `ModelDealing`, `ModelSecret`; memory level: `ModelHeapDeal` | - |
| complaints/complaints.go | `ModelComplaint`; memory level: `ModelHeapDeal` | - |
| key/key_derivation.go | `ModelKey` | key/ecdsa.go (empty) |
| sign/*.go | `ModelSign`; memory level: `ModelHeapSign` | - |
| testutils/*.go | `ModelProtocol`, `ModelSetup`, `ModelCorruptAll`, `ModelSubset` | TestPublicDealingVerification is part of the drivers' checks |

Common simplifications, stated again at each definition: values of pointer type
inside structures the code itself builds are non-nil; Go `int` arithmetic does
not overflow except where a conversion is written; the iteration order of
`btree.Map` is ascending key order; `rand_fuel` bounds the rejection sampler and
the driver's "until enough different indices" loops, with `Diverge` for running
out; every theorem holds for all values of it, and no other answer depends on it
(C86).

## What the theorems found

Defects and surprises of the code that are theorems here:

* Scalar decoding ignores all but the last 32 bytes of longer strings (C02).
* AddUint32 and AddUint64 of a random oracle write the same eight bytes under the
  same type, so the width of an integer input is not bound (C109).
* CombineOpenings crashes when it is given fewer dealer indices than openings (C44).
* A curve number other than K256 is refused only by the checks of dealings: key
  generation and random dealings never end, hashing returns nil scalars without
  an error, and signing and signature verification panic (C106).
* RemoveNodes with a negative number brings removed nodes and their keys back,
  and a removal that panics has already changed the number of nodes (C107).
* Point decoding maps x-coordinates off the curve to the identity and reduces
  x >= p (C05); tagged decoding never works (C06); SerializeUncompressed panics
  (C07); the identity does not survive CBOR (C08); uncompressed decoding does not
  check the curve (C09).
* Associated data above 255 bytes is not bound by any proof (C17), so dealings of
  such sessions can be replayed, as can random dealings between dealers whose
  indices agree modulo 2^32 (C87).
* Hardened BIP32 indices are derived like any other, from the public key (C105).
* Ciphertext entries are not authenticated: a relay can spoil a dealing for one
  receiver and the honest dealer is blamed (C89).
* One wrong opening stops ReconstructShareFromOpenings although enough right
  ones are present; callers have to filter (C91).
* Opening a dealing publishes the dealer's share, and a relay can have an honest
  dealer's dealing opened (C89, C92).
* Poly.MulScalar multiplies by its receiver (C24); Interpolate fails on legal
  samples (C26); commitments truncate long polynomials (C30); decoded openings
  are unusable, and damaged ones are decoded without an error (C31); transcript comparison is constant (C33).
* A negative threshold panics (C36); PubliclyVerify panics on a product dealing
  without proof and skips the check for a wrapped previous commitment (C39); the
  product transcript's constant-term point depends on the set of dealers (C41).
* Complaint verification ignores the proof of possession (C46).
* ckdpub returns the invalid child instead of the next one (C48).
* Signature share verification accepts every share the API builds and rejects
  correct pointer shares (C54); hashes of 33 to 64 bytes are not converted as in
  ECDSA (C55); zero denominators give s = 0 without an error (C56).
* RandomWithConstant keeps the caller's pointer (C60).
* CorruptDealing damages the pair dealing it is given, and Clone of a product
  proof returns the same cells (C72); no other function of `ModelHeapDeal`
  writes a cell of its arguments.
* sswuIsogenySecp256k1 overwrites the y it is given (C73); its only caller passes
  a new cell.
* Nothing stops a presignature from being used twice, and two signatures from it
  give the private key (C75); shares are not checked one by one, but an accepted
  signature is unique (C74).
* Openings converted by Secret.From cannot be dealt (C61).
* VerifyMegaPublicKey accepts strings that encode no point (C64).
* The driver derives complaint seeds from public data, which reveals private
  keys (C66); VerifyCommitmentOpenings does not check single openings (C67).
* A dealer who wraps the commitment of a dealing in a summation commitment passes
  every check, but recovering a share of that dealing panics (C100).
* Pedersen commitments never decode and decoded commitments may panic (C69);
  text forms of point encodings do not decode and Compress may negate (C70).
* Multiplying by a masked round made after nodes left panics in the driver (C96).

## How statements are kept honest

* Specifications (`Spec*.v`) are written without model helpers: RFC 9380
  expand_message_xmd and hash_to_field, SEC 1 encodings, textbook ECDSA, BIP32,
  polynomial functions, vector spaces, memory cells.
* Every hypothesis of a theorem is met by an `Example` in the same file.
* "There is a hash collision" is never a conclusion (it is true by counting):
  conclusions name the two strings.
* `seeded/LOG.jsonl` records wrong programs tried against the theorems (the
  model edited in a scratch copy and rebuilt).  How to read an entry:
  * Without `quick`, everything was rebuilt and broken proofs were admitted one
    by one, so `theorems_failed` is the set that really depends on them.
  * With `quick`, the run stopped at the first failing proof, and
    `theorems_failed` lists the theorems whose proofs use it.
  * A failing proof script shows that the theorem notices the edit.  It does not
    by itself show that the theorem has become false.
  * `claimed_property_failed` says whether a theorem of the property named in
    `claim` is among the failures.  Where it is false, the number in `claim` may
    just be the wrong one, or the property may not notice the edit.
  * C60, C63, C72 and C73 compare the memory model with the value model, so they
    fail on any edit of one of the two.  An entry where only these failed says
    nothing about the claimed property.  Early quick runs stopped there; entries
    ending in `-rerun` repeat them without stopping there.

## Assumptions

`Print Assumptions` on all theorems and examples `Cnn_...` (the command follows
every theorem in the `Prop*.v` files, so the list is in the build output):
"Closed under the global context" each time.  No axiom of the standard library
is used either.  `coqchk -o` lists the seven `Coq.ssr.ssrunder.Under_rel`
constants; they are module parameters of a standard library file loaded by other
standard library files and no theorem depends on them.
