# Design

Formal model of taurusgroup/frost-ed25519 (Go) in Rocq/Coq 8.16.1, and proofs of the properties in `properties.jsonl`.

## Approach

The Go code is transcribed function by function to Gallina functions that return an *outcome*
(`Ret v`, `Fail err`, `Panics why`), so that Go errors and run-time panics are visible results.
Each definition cites the file and lines it models.  Nothing is extracted or run; `/repo` is only read.

Conventions:

* bytes are `Coq.Init.Byte.byte`; integers are `Z`; `uint16` arithmetic is reduced explicitly mod 2^16;
* Go maps keyed by `party.ID` are stdpp `gmap`s; the iteration order of `range` over a map is an explicit
  argument (a schedule), so theorems hold for every order;
* a `State` is a record; one call made under its mutex (`HandleMessage`, `ProcessAll`, the timer callback)
  is one atomic step; a *history* is any finite list of such calls with any arguments; a panic ends the history;
* randomness is an argument (an arbitrary stream of 64-byte reads);
* SHA-512 is an arbitrary function `list byte -> list byte` with 64-byte results; no property uses anything else of it (`Sha512.v` defines the real one and instantiates the main results with it);
* scalars are integers mod q = 2^252+27742317777372353535851937790883648493 (primality is proved, by Pocklington);
* the ristretto group: the protocol is modelled over a record of group operations with a record of laws.
  A concrete instance (twisted Edwards curve over p = 2^255-19 with the encode/decode/equality functions of
  pkg/ristretto) discharges the laws; a small instance (scalars themselves) gives fast concrete examples.

Specifications are in separate files (`Spec_*.v`), written without the model's helpers: plain polynomials as coefficient
lists with `sum a_i x^i`, plain set/list predicates, plain descriptions of byte layouts.

## Files

Mathematics (no code of /repo): `ZField.v` (integers mod a prime), `Primes.v` (Pocklington; p and q are prime),
`PolyAlg.v` (roots, interpolation), `Fp.v` (field of the curve, square roots), `Edwards.v` (the curve and its group, cyclic of
order 8q), `EdPoint.v` (extended coordinates), `EdEven.v` (even points).

Model (definitions transcribed from the code, some with basic facts):

| file | models |
|---|---|
| `Go.v`, `Bytes.v` | outcomes; bytes, little/big-endian integers |
| `Scalar.v` | pkg/internal/scalar, and the Scalar of filippo.io/edwards25519 |
| `Group.v` | the interface of the ristretto group used by the protocol, and its laws; SHA-512 as an arbitrary function |
| `Sha512.v`, `Properties_Sha512.v` | SHA-512 from FIPS 180-4; C01, C03 and C31 with the concrete group and hash, nothing left open |
| `Ristretto.v` | pkg/ristretto/ristretto.go over `Fp.v`/`EdPoint.v` |
| `Ed25519.v` | crypto/ed25519.Verify |
| `Party.v` | pkg/frost/party |
| `Poly.v`, `Zk.v` | pkg/internal/polynomial, pkg/internal/zk |
| `Eddsa.v` | pkg/eddsa, JSON at the level of decoded fields |
| `Json.v` | the JSON texts: the parts of encoding/json that are used, strconv.Atoi, main of both commands from the arguments |
| `Text.v` | MarshalText/UnmarshalText of ID and Element, with strconv and base64 |
| `ErrText.v` | the error texts of pkg/state |
| `Messages.v` | pkg/messages |
| `State.v` | pkg/state |
| `Keygen.v`, `Sign.v` | pkg/frost/keygen, pkg/frost/sign, pkg/frost/frost.go |
| `Helpers.v`, `Cmd.v` | pkg/helpers, cmd/keygen, cmd/signer |
| `Loops.v` | the message loops of example/main.go and test/internal/communication (handler, channel, udp) |
| `Example.v` | `main` of example/main.go, with what its two message loops meet as a parameter |
| `Harness.v` | the test program test/frosted.go; what udp.go makes of a datagram |
| `Slices.v` | slices over shared arrays: BytesAppend, MarshalBinary, CheckFROSTMarshaler, the buffer of computeRhos, the in-place queue, IDSlice.Copy |
| `RistrettoTests.v` | the remaining operations of pkg/ristretto/ristretto.go (MultiScalarMult, VarTimeMultiScalarMult, VarTimeDoubleScalarBaseMult, Set, String) and ristretto_test.go with its tables as parameters |
| `Frosted.v` | the whole of test/frosted.go (FROSTestUDP, FROSTestChannel, main) as one function of what the goroutines made of the States; the UDP communicators: local_constructors.go NewUDPCommunicatorMap, udp.go AddPeer, Start (size of the buffer), Send. Addresses of sockets are arbitrary; opening a socket does not fail |
| `RandFail.v` | crypto/rand returning errors: scalar.go:14-17 and polynomial.go:27-30 panicking inside GenerateMessages of the rounds 0 of keygen and sign, what the round has assigned by then, and the State a caller has if it recovers. Everywhere else reads do not fail |
| `Recover.v` | state.go:135-191 ProcessAll with a caller that recovers when a call of ProcessMessage panics: the State keeps what the calls before the panic have changed, in the round and in the stored messages (keygen/round2.go:25-26). Panics of GenerateMessages are not recovered from here |
| `Tests.v` | the test functions of the repository (all `*_test.go` except those of ristretto and the benchmark, and test/common.go), party.RandID |
| `Inplace.v` | the decoders as functions of their receiver, with what they leave behind on an error |
| `Lin.v` | the methods of `State` as programs of single accesses, several goroutines, the mutex, timer expiries at any moment, readers without the mutex |
| `Net.v` | n States and an arbitrary network |
| `Conc.v` | the lock-free reads of a State, memory access by memory access, in the Go memory model |
| `Heap.v` | keygen with the pointers that are written after a message was returned or received |
| `Alias.v` | signing with writes to the slices the caller passed to NewSignState |

Specifications, written without the model's helpers: `Spec_Poly`, `Spec_Group`, `Spec_Wire`, `Spec_State`, `Spec_Keygen`,
`Spec_Sign`, `Spec_SignRun`, `Spec_Public`, `Spec_Text`, `Spec_Json` (RFC 8259), `Spec_Live`, `Spec_Ristretto` (RFC 9496), `Spec_Ed25519` (RFC 8032).

Proofs: `PolyFacts`, `CodecFacts`, `StateFacts`, `RoundFacts`, `KeygenFacts`, `KeygenRun`, `SignFacts`, `SignRun`, `Lift` (from rounds
to histories), `Progress`, `NetProgress`, `NetLive`, `Lockstep`, `LoopsFacts`, `RistrettoFacts`, `RistrettoDecode`, `RistrettoMap`, `RistrettoGroup` (the laws of
`Group.v` hold for the concrete group), `JsonFacts`, `HeapFacts`, `HeapSim`, `HeapFrame`, `HeapWorld`.

Final theorems with examples and Print Assumptions: `Properties_*.v`.  `ToyGroup.v`/`ToyRuns.v` are a small group and executions
in it, used only for examples and for the witnesses of `_refuted` theorems.

## Plan per property

* C01 invariant over all histories of the sign State; the last check before setting Output is Verify.
* C02 n-party network model; invariant relating every stored/queued/sent message to the honest party's deterministic content; algebra (Lagrange). `Properties_ZeroNonce.v` drops the assumption that nonces are not 0 (C02, C09).
* C03 model of crypto/ed25519 Verify on the concrete curve; the coset-representative computation of BytesEd25519 is shown independent of torsion.
* C04 same network model for keygen.
* C05 Lagrange interpolation (reconstruction); for secrecy, construction of a polynomial through any t points and any value at 0.
* C06 invariant over all histories; the degree-mismatch error is ignored in round 1, so expected `_refuted` plus the true part (when degrees match).
* C07 completeness proved; the challenge is the constant 0 because of `h.Sum(buffer)`, so binding is expected `_refuted`.
* C08 algebra of Exponent evaluation.
* C09 adversarial network model with consistent broadcast; equivocation case `_refuted`.
* C10 transcription of round 2; algebra.
* C11 case analysis against an independent acceptance predicate.
* C12 expected `_refuted` (a later-round message arriving after the sender's current-round message is rejected); the part that holds: messages arriving before the sender's current-round message are queued and delivered.
* C13-C16 invariants over all histories. C16 is expected to fail for queued messages.
* C17 timer events are ordinary steps; crash of keygen before the first ProcessAll is expected `_refuted`.
* C18 invariant.
* C19 decoder totality; crash by a header-only message expected `_refuted`.
* C20-C23 codec proofs by induction; C21 and C23 expected partly refuted (swallowed body errors, degree 0xFFFF).
* C24 arithmetic. C25 algebra over the field Fq. C26 binary search invariant. C27 induction.
* C28, C29, C30 transcription and algebra; JSON at the level of decoded fields. C46 lifts this to texts: parser against the grammar, printer, round trips.
* C31 lock-step composition of the n States, for all n.
* C32, C33, C42 concrete curve.
* C34 heap model of the pointers involved. Expected `_refuted`, plus the messages for which it holds.
* C35, C36 case analysis; ID 0 / duplicate IDs and too few signers expected `_refuted`.
* C37 format arguments as data; expected `_refuted`.
* C38 rogue-key run as a witness; expected `_refuted`.
* C39 small-step model of finish/reportError against reader steps, under sequential consistency and in the Go memory model.
* C40 decimal and base64 codecs (the texts the base64 decoder accepts are characterised exactly). C41 injectivity of concatenations of fixed-size encodings.
* C43 labelled traces of the network; a sweep moves every party from round k to k+1; existence of a sweep from absence of crashes.
* C44 invariant over histories, case analysis of the errors of each round. C45 counting residues below 2^512.
* C47 the example's loop by induction over its events; the Handlers by an invariant relating what a party sent, what is on its way and what was handled. Expected partly `_refuted`.
* C48 invariants of all histories of two States compared; algebra of the share check. Without a broadcast channel expected `_refuted`.
* C49 counting invariant of all histories, generic in the round; a flooding peer is expected to give `_refuted` without a bound on what it sends.
* C50 round numbering plus the queue invariant; after an abort expected `_refuted`, since reportError erases the round only.
* C51 (Alias.v) histories with writes to the slices the caller passed; expected `_refuted`, with what holds depending on the time of the write.
* C52 uniqueness of S for given key, message and R, at the level of group elements, of bytes, and for crypto/ed25519 with arbitrary keys; the identity as key is the expected exception.
* C53 what happens with too few signers, which NewSignState admits (C36): an exact condition on the key, and that no honest party is blamed.
* C54 replay of messages between sessions: for signing the relation a foreign share must satisfy; for keygen expected `_refuted` for all sizes (headers have no session identifier).
* C55 the same calls under two orders of all map iterations: messages, status, error text and output agree; who is blamed among several faulty senders, and error versus panic, may depend on the order (`_refuted`).
* C56 the interleaving of different senders' deliveries is irrelevant to answers, messages, status, error text and output.
* C57 explicit simulator for a party's keygen messages; control flow independent of its randomness.
* C58 explicit simulator for a signer's messages with a hash programmed at two points.
* C59 recovery of the key share from three sessions with the same nonces.
* C60 the test program and the UDP transport.
* C61 slices over shared arrays: BytesAppend, the reused buffer, the in-place queue.
* C62 the repository's unit tests, for all draws and parameters (`Tests.v`).
* C63 the decoders as functions of the receiver (`Inplace.v`), related to the values used elsewhere.
* C64 the methods as programs of single accesses (`Lin.v`); expiries are moved before Stop's call or after it.
* C65 goroutines, channels with capacity, WaitGroup and shutdown (`Transport.v`); a simulation by the Handlers of `Loops.v`, and a count of the messages of each pair of parties.
* C66 one signing session under a hash function characterised by its two answers; programming for one session after the other leaves the earlier ones intact; C57 and C08 give the public key share from the commitments.
* C67 subtract the two equations; existing facts about finished runs (C48's view) and Lagrange interpolation (C25).
* C68 rep lemmas of EdPoint.v by induction on the slices; Permutation for the order.
* C69 induction over the loops of the constructor; the peers of a communicator as the other communicators' addresses; with the codec round trip and C60_udp_keygen / C60_udp_sign for the delivery.
* C70 a source of reads that may fail, and what the round has assigned by the read that fails; histories with such a source refine those of State.v as long as no read fails; the State left behind by a failure has no message to process and accepts none.
* C71 ProcessAll with a caller that recovers, keeping what the calls of ProcessMessage before the panic have changed; the message that caused the panic is never removed, so that each later pass ends at it or at an error before it.
* C72 two runs with different draws in lock step (the relation of C57_control_flow), in which the sums of commitments, the secrets and the outputs differ as the two polynomials do; then the first read is a bijection onto scalars up to C45.

## Trusted base

* Coq's kernel (8.16.1) and the virtual machine used by `vm_compute`.
* `Print Assumptions` says "Closed under the global context" for every theorem listed in MANIFEST.json: no axiom is used.
  (coqchk lists the parameters of the opaque module `ssr.ssrunder`, loaded through stdpp; no theorem uses them.)
* stdpp is used for finite maps and lists.
* The transcription: that the Gallina definitions say what the cited lines of Go say.
* Dependencies, not in /repo and modelled from their documented behaviour:
  * filippo.io/edwards25519 v1.0.0-rc.1: `Scalar` is the integers mod q; `field.Element` the integers mod p with canonical `Bytes`,
    `SetBytes` ignoring the top bit, `SqrtRatio` as in the package; `Point` in extended coordinates with its addition, subtraction,
    negation formulas; `ScalarMult`, `ScalarBaseMult`, `VarTimeDoubleScalarBaseMult` are taken to compute the multiple of the point
    (by double-and-add over the same addition), not the package's table-based algorithms;
  * crypto/sha512: any function with 64-byte results, with FIPS 180-4's as an instance; crypto/ed25519.Verify: as in `Ed25519.v`;
  * crypto/rand: an arbitrary stream of full 64-byte reads (C45 also looks at short reads); a read error, on which the code panics, is modelled in `RandFail.v` only;
  * strconv.ParseUint/FormatUint, encoding/base64.StdEncoding: as in `Text.v`; encoding/binary, bytes, sort, hash.Hash.Sum: inline;
  * encoding/json (Go 1.15 and later): `Json.v` has the scanner, string and number literals, the depth limit, the two output layouts, the order of
    map keys, case-insensitive field names, and the decoding of ints, byte slices, ID-keyed maps, Unmarshalers and null. The text of an error
    is not modelled, only that there is one; output strings needing an escape do not occur (proved);
  * time.AfterFunc/Reset/Stop: a deadline and a count of started callbacks, which run at any later moment.

Functions of /repo without a definition of their own, because they are the identity, a field access or a constant in the model: `BaseRound.SelfID`,
`PartyIDs` (record fields) and `ProcessMessage` (round 0: `ROk`), `state.NewError` (`RErr`), `NewPublicKeyFromPoint` and `PublicKey.Equal` (a public key is
its element, compared by `geqb`), `Exponent.Copy` (values are not shared in the pure model; `Heap.v` is where sharing matters), the `Size` methods of
the parts of a message (inside `msg_Size`), of Signature and Schnorr (64) and of Polynomial, `ristretto.NewScalar` (0), `ID.String` (inside
`MarshalText`), `FROSTestUDP` and `FROSTestChannel` (both are `FROSTest`), `usage` of both commands (prints). `TestRistrettoRandomRoundtrip` is empty.

What is not modelled: the benchmark of exponent_test.go and the printing of the tests; the network below the UDP sockets, apart from the reordering in `Loops.v` and the arrivals at one socket in `Transport.v`; `Channel.Incoming` returning nil after shutdown;
printing and file access
of the commands (the file system is a map from names to contents); timing and memory-erasure behaviour of the Go runtime; data races other than those of `Conc.v`; pointer sharing other than
that of `Heap.v` and `Alias.v` (for instance a caller that changes the secret share or the Public it passed while NewSignState runs).

Concurrency: apart from `Conc.v` and `Lin.v`, a call is one atomic step. That this is what the mutex of `State` gives for HandleMessage, ProcessAll
and the timer callback is C64, proved from `Lin.v`, where a call is a program of single accesses. `Lin.v` trusts that sync.Mutex excludes, that
memory is sequentially consistent (`Conc.v` has the Go memory model, for the readers), that a method of Round is one access (nothing but the
holder of the mutex has the round), and that time.Timer's Stop and Reset are atomic against its expiry.

## Testing the theorems

`seeded/LOG.jsonl` records edits of the model that imitate bugs, or that repair one. `failed` lists the lemmas whose scripts broke; most runs stop at
the first. `theorems_failed` lists the theorems of the properties that use one of these lemmas, so it is what no longer compiles as it stands,
not what was shown to be false: a script can break although its statement still holds. An id ending in `b` is a second look at the edit of the same
id (`c` a third): run again after a theorem was added or tightened, or (`equivalent`, or a `note`) found not to change the meaning.

`vectors/vectors.txt` runs the test vectors of `/repo/pkg/ristretto/ristretto_test.go` and of RFC 8032 on the model; it is not part of the build
(tests, not proofs), and was used to check the transcription of the curve, the encoding, the map and the verification.
