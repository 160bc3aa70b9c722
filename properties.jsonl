{"id": "C01", "title": "A finished signing run yields a valid signature", "statement": "If a State created by NewSignState finishes and Err() is nil, then Output.Signature is non-nil and PublicKey.Verify(message, Output.Signature) is true for the group key and message given to NewSignState; if it finishes with an error, Output.Signature is nil.", "quantifier": "every signer set, secret share, public data, message, randomness, map iteration order and every sequence of HandleMessage/ProcessAll/timeout events with arbitrary (malicious) messages", "why_tests_cant": "the peers' messages and their order are adversarial; tests run only honest lock-step runs", "anchors": ["pkg/frost/frost.go:NewSignState", "pkg/frost/sign/round2.go:GenerateMessages", "pkg/eddsa/public_key.go:Verify", "pkg/state/state.go:ProcessAll"]}
{"id": "C02", "title": "Honest signing is correct under every schedule", "statement": "When all signers are honest, hold shares of one degree-t sharing and number at least t+1, no signer ever aborts except by timeout or, naming it, because another signer drew a nonce that is exactly 0 (its commitment is refused); every signer that finishes without error outputs the same signature (R, S), which is the Schnorr signature r + c*s under the group secret.", "quantifier": "every signer subset, threshold, sharing polynomial, nonces, message, and every interleaving of deliveries (reordering, duplication, loss) and ProcessAll calls", "why_tests_cant": "schedules and subsets are unbounded; tests use one lock-step schedule", "anchors": ["pkg/frost/sign/round0.go", "pkg/frost/sign/round1.go", "pkg/frost/sign/round2.go", "pkg/state/state.go"]}
{"id": "C03", "title": "Signatures and keys are compatible with standard Ed25519", "statement": "PublicKey.Verify(m, sig) is true exactly when the RFC 8032 / crypto/ed25519 verification of sig.ToEd25519() under PublicKey.ToEd25519() succeeds.", "quantifier": "every group key element, every message, every (R, S) and every hash function", "why_tests_cant": "tests try a few random keys; the cofactor makes rare points (torsion) decisive", "anchors": ["pkg/eddsa/public_key.go:Verify,ToEd25519", "pkg/eddsa/signature.go:ToEd25519,ComputeChallenge", "pkg/ristretto/ristretto.go:BytesEd25519"]}
{"id": "C04", "title": "Honest key generation is correct and agrees", "statement": "When all parties are honest no party aborts except by timeout, and every party that finishes outputs the same Public (party list, threshold, group key, all public shares) and a SecretKey whose public part is the Public share stored under its ID; the group key is the public key of the sum of the dealt secrets.", "quantifier": "every party set, threshold, randomness and every schedule of deliveries and ProcessAll calls; where signers finish or nobody is blamed, nonces that are not exactly 0 (C02 says what happens with a nonce 0)", "why_tests_cant": "schedules, sizes and randomness are unbounded", "anchors": ["pkg/frost/keygen/round0.go", "pkg/frost/keygen/round1.go", "pkg/frost/keygen/round2.go", "pkg/state/state.go"]}
{"id": "C05", "title": "Any t+1 shares determine the key, and t shares are consistent with every key", "statement": "Interpolating the secret shares of any set of at least t+1 distinct parties with the Lagrange coefficients gives the group secret; for any t shares and any candidate secret there is a sharing polynomial of degree t consistent with both.", "quantifier": "every polynomial, every subset of parties of the given size, every candidate secret", "why_tests_cant": "secrecy is a for-all/exists statement over the whole field; reconstruction ranges over all subsets", "anchors": ["pkg/frost/party/id.go:Lagrange", "pkg/internal/polynomial/polynomial.go", "pkg/helpers/keys.go:GenerateSecrets"]}
{"id": "C06", "title": "Keygen output is internally consistent even against malicious peers", "statement": "If a keygen State finishes without error then SecretKey.Public equals Public.Shares[self], and Public.Shares / GroupKey are evaluations of one degree-threshold polynomial.", "quantifier": "every sequence of calls with arbitrary messages from the other parties", "why_tests_cant": "adversarial messages (wrong degree, forged proofs) are not sampled by tests", "anchors": ["pkg/frost/keygen/round1.go:ProcessMessage", "pkg/frost/keygen/round2.go:ProcessMessage,GenerateMessages", "pkg/internal/polynomial/exponent.go:Add"]}
{"id": "C07", "title": "The Schnorr proof in KeyGen1 proves possession of the secret", "statement": "A proof made with the secret verifies for its (ID, context, public) statement; and a verifying proof is bound to its statement: Verify accepts (S, R) only if S is the hash of ID, context, public and [R]B-[S]public.", "quantifier": "every ID, context, public element, proof and hash function", "why_tests_cant": "soundness is about all forged inputs", "anchors": ["pkg/internal/zk/schnorr.go:NewSchnorrProof,Verify,challenge"]}
{"id": "C08", "title": "A received key share is accepted exactly when it matches the sender's commitments", "statement": "In keygen round 2 a share from j is accepted iff [share]B equals j's committed polynomial evaluated at our ID; otherwise the run aborts blaming j. A share computed from the committed polynomial is always accepted.", "quantifier": "every polynomial, ID and share", "why_tests_cant": "all polynomials and IDs; equality of group elements", "anchors": ["pkg/frost/keygen/round2.go:ProcessMessage", "pkg/internal/polynomial/exponent.go:Evaluate"]}
{"id": "C09", "title": "Errors never blame an honest party", "statement": "If all messages attributed to party j were produced by an honest j (and broadcasts are consistent), no State aborts with Error.PartyID = j, unless in signing a nonce drawn by j was exactly 0.", "quantifier": "every behaviour of the other parties, every schedule", "why_tests_cant": "ranges over all adversaries", "anchors": ["pkg/state/error.go", "pkg/frost/keygen/round1.go", "pkg/frost/keygen/round2.go", "pkg/frost/sign/round1.go", "pkg/frost/sign/round2.go"]}
{"id": "C10", "title": "An invalid signature share is attributed to its sender", "statement": "In signing round 2 the share z_j is accepted iff [z_j]B = R_j + [c]lambda_j A_j; a rejected share aborts the run with Error.PartyID = j; if every share is accepted and our own share is consistent the final signature verifies.", "quantifier": "every share, commitment list, signer set and message", "why_tests_cant": "all adversarial shares", "anchors": ["pkg/frost/sign/round2.go:ProcessMessage,GenerateMessages"]}
{"id": "C11", "title": "HandleMessage stores exactly the messages its contract allows", "statement": "HandleMessage changes the State only for a message of an accepted type, from another participant, addressed to us or broadcast, not yet received for this round, on an unfinished State; every other message leaves the State unchanged (with an error, or nil for our own / misaddressed messages).", "quantifier": "every State reachable by any history and every message", "why_tests_cant": "all histories", "anchors": ["pkg/state/state.go:HandleMessage"]}
{"id": "C12", "title": "A valid message for a later round is queued, not lost", "statement": "A message of a later round from a participant that arrives early is accepted (nil error) and is delivered to the round it belongs to, so every delivery order of the honest messages lets the protocol finish.", "quantifier": "every delivery order of the messages of an honest run", "why_tests_cant": "depends on interleavings the lock-step tests never produce", "anchors": ["pkg/state/state.go:HandleMessage,ProcessAll"]}
{"id": "C13", "title": "Rounds advance monotonically and finishing is final", "statement": "Along any history the round number never decreases, ProcessAll emits messages at most once per round, once IsFinished is true it stays true, Err() and the Output never change again, Done is closed exactly when finished and never closed twice, and no further messages are emitted.", "quantifier": "every history of HandleMessage/ProcessAll/timeout events", "why_tests_cant": "unbounded histories", "anchors": ["pkg/state/state.go"]}
{"id": "C14", "title": "A signing State uses its nonces for at most one signature share", "statement": "A sign State emits at most one Sign1 and at most one Sign2 message in its life, and the Sign2 share is computed from the nonces committed to in that Sign1.", "quantifier": "every history of events and every adversarial message", "why_tests_cant": "nonce reuse would need a particular history; it leaks the key", "anchors": ["pkg/frost/sign/round0.go", "pkg/frost/sign/round1.go", "pkg/state/state.go:ProcessAll"]}
{"id": "C15", "title": "A round is processed only when every other party's message is in", "statement": "ProcessAll advances the round only if exactly one message of the current type from every other participant is stored, and then each of them is processed exactly once; otherwise it changes nothing and returns no messages.", "quantifier": "every reachable State and map iteration order", "why_tests_cant": "unbounded histories", "anchors": ["pkg/state/state.go:ProcessAll"]}
{"id": "C16", "title": "Duplicates cannot replace an accepted message", "statement": "Once a message from party j for some round has been accepted, later messages from j for that round are rejected and the accepted one is the one processed.", "quantifier": "every history", "why_tests_cant": "depends on delivery order and duplication", "anchors": ["pkg/state/state.go:HandleMessage,ProcessAll"]}
{"id": "C17", "title": "Timeouts abort cleanly", "statement": "With a positive timeout, a State that accepts no message for that long aborts with Error.PartyID 0; a timeout never affects a finished State, never replaces an earlier error, and never crashes the process.", "quantifier": "every history and every time at which the timer fires", "why_tests_cant": "timer races and firing times are unbounded", "anchors": ["pkg/state/state.go:newTimer,ackMessage,reportError,finish", "pkg/frost/keygen/base.go:Reset"]}
{"id": "C18", "title": "Secrets are erased when a run ends", "statement": "When a State is finished (success or abort) its round no longer holds the secret share, nonces, polynomial or partial signatures: all are zero.", "quantifier": "every history that finishes", "why_tests_cant": "every abort point", "anchors": ["pkg/frost/keygen/base.go:Reset", "pkg/frost/sign/base.go:Reset", "pkg/frost/sign/party.go:Reset"]}
{"id": "C19", "title": "No byte string received from the network can crash a party", "statement": "For every byte string, Message.UnmarshalBinary does not panic, and if it returns nil the message can be passed to HandleMessage and ProcessAll without a panic.", "quantifier": "every byte string, every State and round", "why_tests_cant": "all malformed inputs", "anchors": ["pkg/messages/messages.go:UnmarshalBinary", "pkg/frost/keygen/round1.go:ProcessMessage", "pkg/internal/polynomial/exponent.go:UnmarshalBinary,Constant"]}
{"id": "C20", "title": "Messages survive the wire unchanged", "statement": "For every message built by the New* constructors with valid IDs, UnmarshalBinary(MarshalBinary(m)) succeeds and gives a message Equal to m; Size() is the encoded length; the encoding is injective up to Equal.", "quantifier": "every message of the four types, of any polynomial length", "why_tests_cant": "all values and sizes", "anchors": ["pkg/messages/*.go"]}
{"id": "C21", "title": "Unmarshalling reports malformed data", "statement": "If Message.UnmarshalBinary returns nil then re-marshalling the result gives back exactly the input bytes (only canonical encodings are accepted, nothing is ignored).", "quantifier": "every byte string and every prior content of the receiver", "why_tests_cant": "all byte strings", "anchors": ["pkg/messages/messages.go:UnmarshalBinary", "pkg/messages/header.go:UnmarshalBinary"]}
{"id": "C22", "title": "Message headers obey the addressing rules in both directions", "statement": "A header is encoded or decoded successfully only if From is non-zero, the type is one of the four protocol types, To is zero for the three broadcast types and non-zero for KeyGen2; every such header round-trips.", "quantifier": "every header and every byte string", "why_tests_cant": "all 2^40 headers", "anchors": ["pkg/messages/header.go"]}
{"id": "C23", "title": "Commitment polynomials survive the wire and are never empty", "statement": "Exponent encoding round-trips for every polynomial with 1 to 65535 coefficients, decoding accepts only canonical encodings of the announced length, and never yields a polynomial without a constant term.", "quantifier": "every coefficient list and every byte string", "why_tests_cant": "length field wrap-around at 65535", "anchors": ["pkg/internal/polynomial/exponent.go:UnmarshalBinary,BytesAppend,Degree"]}
{"id": "C24", "title": "Party IDs embed faithfully into bytes and scalars", "statement": "ID.Bytes/FromBytes round-trip, ID.Scalar never panics and is injective, and it is zero only for ID 0.", "quantifier": "every uint16", "why_tests_cant": "exhaustive only over IDs, but the scalar claim is modulo a 253-bit prime", "anchors": ["pkg/frost/party/id.go"]}
{"id": "C25", "title": "Lagrange coefficients interpolate at zero", "statement": "For a list of distinct non-zero IDs, Lagrange succeeds for each member, the coefficients sum to 1, and for every polynomial of degree below the list's length the weighted sum of its values is its value at 0; Lagrange fails exactly for ID 0 or a non-member, the zero-denominator error being unreachable.", "quantifier": "every ID list and polynomial", "why_tests_cant": "all sets and polynomials", "anchors": ["pkg/frost/party/id.go:Lagrange"]}
{"id": "C26", "title": "IDSlice behaves as a sorted set of IDs", "statement": "NewIDSlice returns a sorted permutation of its argument; on a sorted slice Contains is membership, IsSubsetOf is inclusion, Equal is equality; Contains never indexes out of range on any slice.", "quantifier": "every slice of IDs", "why_tests_cant": "all slices and sizes; binary search boundaries", "anchors": ["pkg/frost/party/idslice.go"]}
{"id": "C27", "title": "Polynomials in the exponent mirror scalar polynomials", "statement": "Evaluate by Horner equals the sum of a_i x^i and panics exactly at 0; Exponent evaluation of the committed polynomial equals [f(x)]B; the three evaluation algorithms agree; Add and Sum commute with evaluation and fail exactly on different lengths, leaving the receiver unchanged.", "quantifier": "every polynomial and point", "why_tests_cant": "all degrees and values", "anchors": ["pkg/internal/polynomial/polynomial.go", "pkg/internal/polynomial/exponent.go"]}
{"id": "C28", "title": "Signature and SecretShare binary encodings are exact", "statement": "Signature and SecretShare round-trip through MarshalBinary/UnmarshalBinary; UnmarshalBinary accepts exactly the canonical strings of the right length; a decoded SecretShare has Public = [Secret]B.", "quantifier": "every value and byte string", "why_tests_cant": "all byte strings", "anchors": ["pkg/eddsa/signature.go", "pkg/eddsa/secret_share.go"]}
{"id": "C29", "title": "Public data is self-consistent and survives JSON", "statement": "NewPublic computes the interpolated group key and rejects thresholds >= N; the JSON form of a Public decodes to an Equal Public; decoding rejects a group key that does not match the shares.", "quantifier": "every share map and threshold", "why_tests_cant": "all maps and thresholds, uint16 wrap-around", "anchors": ["pkg/eddsa/public.go"]}
{"id": "C30", "title": "Dealer helpers produce a correct sharing", "statement": "GenerateSecrets returns shares of the returned secret at degree threshold, GeneratePublic gives the matching Public with group key [secret]B, NewPartySlice(n) returns 1..n and terminates.", "quantifier": "every set, threshold, randomness and n; where signers finish or nobody is blamed, nonces that are not exactly 0 (C02 says what happens with a nonce 0)", "why_tests_cant": "all sizes including the uint16 maximum", "anchors": ["pkg/helpers/keys.go", "pkg/helpers/parties.go"]}
{"id": "C31", "title": "The keygen and signer command flows succeed", "statement": "For all 0 < t < n <= 100 and all randomness the command-line keygen flow (lock-step PartyRoutine) finishes without error for every party, and the signer flow on its output produces a signature that verifies.", "quantifier": "every t, n, randomness, message and map iteration order", "why_tests_cant": "all parameters and randomness", "anchors": ["cmd/keygen/keygen.go", "cmd/signer/signer.go", "pkg/helpers/parties.go:PartyRoutine"]}
{"id": "C32", "title": "Ristretto encoding is a canonical injective encoding", "statement": "SetCanonicalBytes(e.Bytes()) succeeds and is Equal to e; SetCanonicalBytes accepts b only if the result encodes back to b; Equal(e1,e2)=1 iff e1.Bytes()=e2.Bytes().", "quantifier": "every group element and byte string", "why_tests_cant": "2^252 elements, all byte strings", "anchors": ["pkg/ristretto/ristretto.go:Bytes,SetCanonicalBytes,Equal"]}
{"id": "C33", "title": "Element arithmetic is a prime-order group modulo Equal", "statement": "Equal is an equivalence relation, Add/Negate/ScalarMult respect it, the elements form a commutative group of order q with generator B and scalar multiplication is a module action.", "quantifier": "every element and scalar", "why_tests_cant": "all elements; torsion representatives", "anchors": ["pkg/ristretto/ristretto.go", "filippo.io/edwards25519 (dependency)"]}
{"id": "C34", "title": "Returned messages are stable snapshots", "statement": "The content of a message returned by ProcessAll does not change through later calls on any State, and a message given to HandleMessage is not modified afterwards.", "quantifier": "every later history on any State", "why_tests_cant": "aliasing shows only under particular call orders", "anchors": ["pkg/frost/keygen/round0.go:GenerateMessages", "pkg/frost/keygen/round1.go:ProcessMessage", "pkg/frost/keygen/base.go:Reset", "pkg/messages/keygen1.go:NewKeyGen1"]}
{"id": "C35", "title": "NewKeygenState validates its parameters", "statement": "NewKeygenState succeeds exactly for 1 <= threshold <= N-1, self among the parties, and valid (non-zero, distinct) party IDs; a State it returns can run without panicking.", "quantifier": "every ID list, self ID and threshold", "why_tests_cant": "all lists and the uint16 corner cases", "anchors": ["pkg/frost/frost.go:NewKeygenState", "pkg/frost/keygen/base.go:NewRound", "pkg/state/base_round.go"]}
{"id": "C36", "title": "NewSignState validates its parameters", "statement": "NewSignState fails if the share's owner is not a signer, a signer is not a key holder, or an ID is 0, and requires at least threshold+1 signers.", "quantifier": "every ID list, share and Public", "why_tests_cant": "all lists", "anchors": ["pkg/frost/frost.go:NewSignState", "pkg/frost/sign/base.go:NewRound"]}
{"id": "C37", "title": "Error texts name the right round and culprit", "statement": "The error returned by HandleMessage states the State's own ID, its current round number and the sender as culprit in the positions its text announces.", "quantifier": "every State and rejected message", "why_tests_cant": "needs states where the round number and sender differ, in every position", "anchors": ["pkg/state/state.go:wrapError"]}
{"id": "C38", "title": "No single party can choose the group key", "statement": "A party that sends its KeyGen1 after seeing the others' cannot force the group key to a value whose secret it knows without the honest parties aborting.", "quantifier": "every adversarial choice of commitments, proof and shares", "why_tests_cant": "for-all over adversary strategies", "anchors": ["pkg/frost/keygen/round1.go:ProcessMessage", "pkg/internal/zk/schnorr.go"]}
{"id": "C39", "title": "Lock-free readers see a consistent end state", "statement": "A goroutine that observes the State finished through Done, IsFinished or WaitForError then reads the final error and the complete Output.", "quantifier": "every interleaving of reader steps with the steps of ProcessAll / timeout", "why_tests_cant": "all interleavings", "anchors": ["pkg/state/state.go:finish,reportError,WaitForError,IsFinished,Err"]}
{"id": "C40", "title": "Text encodings of IDs and elements round-trip", "statement": "ID.MarshalText/UnmarshalText round-trip, UnmarshalText accepts only decimal texts of values below 65536; Element.MarshalText/UnmarshalText round-trip.", "quantifier": "every ID, element and text", "why_tests_cant": "all texts", "anchors": ["pkg/frost/party/id.go:MarshalText,UnmarshalText", "pkg/ristretto/ristretto.go:MarshalText,UnmarshalText"]}
{"id": "C41", "title": "Binding-factor and challenge inputs are unambiguous", "statement": "The byte strings hashed for the binding factors determine the party ID, message digest and the full ordered list of (ID, D, E); the challenge input determines R, the group key and the message; the Schnorr input determines ID, context, public and commitment.", "quantifier": "every signer list, commitment list and message", "why_tests_cant": "injectivity is a statement about all pairs", "anchors": ["pkg/frost/sign/round1.go:computeRhos", "pkg/eddsa/signature.go:ComputeChallenge", "pkg/internal/zk/schnorr.go:challenge"]}
{"id": "C42", "title": "Hashing to the group always yields a valid element", "statement": "Element.SetUniformBytes never panics on 64 bytes, rejects every other length leaving an error, and yields a valid group element depending only on the two 255-bit halves mod p.", "quantifier": "every byte string", "why_tests_cant": "the internal panic is reachable only if some field element breaks the curve equation", "anchors": ["pkg/ristretto/ristretto.go:SetUniformBytes,mapToPoint"]}
{"id": "C43", "title": "Redelivery always completes a run that nobody has given up", "statement": "From every configuration reachable by honest parties in which messages may have been lost, duplicated, reordered or looped back, three rounds of delivering everything sent so far followed by ProcessAll at every party bring every party to the end unless somebody has aborted: signing with a signature valid for the group key, key generation with consistent outputs. In particular no reachable configuration without timeouts is a deadlock: a finishing continuation exists.", "quantifier": "every reachable network configuration, every set of parties, every order and interleaving of redelivery; where signers finish or nobody is blamed, nonces that are not exactly 0 (C02 says what happens with a nonce 0)", "why_tests_cant": "deadlock freedom is about all reachable configurations; tests run one lossless schedule", "anchors": ["pkg/state/state.go:HandleMessage,ProcessAll", "pkg/frost/keygen/round1.go", "pkg/frost/sign/round1.go"]}
{"id": "C44", "title": "An aborted run says why, where and who", "statement": "The error of an aborted State records the round in which it stopped; its reason is one of the fixed texts of that protocol, each of which occurs only in its own round; the party named is another participant for the reasons that blame one and 0 otherwise; and the printed text determines all three.", "quantifier": "every history of a keygen or sign State", "why_tests_cant": "all abort points, rounds and culprits", "anchors": ["pkg/state/error.go", "pkg/state/state.go:reportError", "pkg/frost/keygen/round1.go:ProcessMessage", "pkg/frost/keygen/round2.go:ProcessMessage", "pkg/frost/sign/round1.go:ProcessMessage", "pkg/frost/sign/round2.go"]}
{"id": "C45", "title": "Random scalars, group secret and key shares are near-uniform", "statement": "Every scalar is produced by the quotient of 2^512 by q of the 64-byte reads, or by one more; the same holds for the group's secret and each secret share as a function of the first read of any one party, whatever the other parties drew. This needs full reads: the code ignores the number of bytes read, and short reads miss scalars.", "quantifier": "every scalar, every party, all randomness of the others", "why_tests_cant": "a counting statement over 2^512 strings", "anchors": ["pkg/internal/scalar/scalar.go:SetScalarRandom", "pkg/frost/keygen/round0.go", "pkg/internal/polynomial/polynomial.go:NewPolynomial"]}
{"id": "C46", "title": "JSON texts of shares, public data and key files are read back as written, and exactly JSON is read", "statement": "The decoder accepts exactly the texts of the JSON grammar (nesting at most 10000) and reads the value they denote; SecretShare and Public marshal to the documented texts, with map members sorted by key text, and unmarshal to equal values; the text cmd/keygen writes is read by cmd/signer as the same keys; the share decoder never panics; white space, member order, unknown members and letter case of names do not matter.", "quantifier": "every share, Public, file and byte string", "why_tests_cant": "all texts and all values; tests decode what they have just encoded", "anchors": ["pkg/eddsa/secret_share.go:MarshalJSON,UnmarshalJSON", "pkg/eddsa/public.go:MarshalJSON,UnmarshalJSON", "cmd/keygen/keygen.go:main", "cmd/signer/signer.go:main"]}
{"id": "C47", "title": "The message loops shown with the library complete the protocol", "statement": "Parties that run the loop of example/main.go, or the Handlers of test/internal/communication over lossless transports, finish key generation with consistent keys and signing with a valid signature; executions are finite and the channel buffers suffice.", "quantifier": "every number of parties and every interleaving of deliveries; where signers finish or nobody is blamed, nonces that are not exactly 0 (C02 says what happens with a nonce 0)", "why_tests_cant": "tests run a few schedules; example/main.go has no transport and was never run", "anchors": ["example/main.go:MessageRoutine", "test/internal/communication/handler.go:HandleMessage", "test/internal/communication/channel.go", "test/internal/communication/udp.go", "test/internal/communication/local_constructors.go", "pkg/state/state.go:HandleMessage,ProcessAll"]}
{"id": "C48", "title": "Honest parties that finish agree, provided everybody received the same broadcasts", "statement": "Two honest signers that hold the same commitments of all signers (the first-round broadcasts) and finish without error output the same signature; honest parties of a key generation that hold the same commitment vectors and finish without error output the same group key and public shares, and their secret shares lie on one polynomial, so that they can sign together. The library has no broadcast channel of its own: a sender that sends different first-round messages to different parties must be noticed.", "quantifier": "every execution, any misbehaviour of the other parties; where signers finish or nobody is blamed, nonces that are not exactly 0 (C02 says what happens with a nonce 0)", "why_tests_cant": "the misbehaviour ranges over all messages; tests only run honest parties", "anchors": ["pkg/frost/sign/round1.go:ProcessMessage,GenerateMessages", "pkg/frost/sign/round2.go", "pkg/frost/keygen/round1.go:ProcessMessage", "pkg/frost/keygen/round2.go"]}
{"id": "C49", "title": "A State uses bounded memory and ends in bounded time whatever its peers send", "statement": "The messages a State stores and queues are bounded in terms of the number of parties, whatever arrives; and with a timer that fires on time, a State ends within a bounded time whatever its peers send.", "quantifier": "every history of a keygen or sign State", "why_tests_cant": "a flooding peer may send arbitrarily many messages, timed arbitrarily", "anchors": ["pkg/state/state.go:HandleMessage,ProcessAll", "pkg/state/state.go:timer.ackMessage"]}
{"id": "C50", "title": "A finished State keeps no received messages", "statement": "When a State is done it no longer holds any message it received: neither stored nor queued. In key generation those messages contain the secret shares dealt to this party, which the end of the protocol is meant to erase.", "quantifier": "every history of a keygen or sign State", "why_tests_cant": "all ways of finishing, successful or not, at all points of the run", "anchors": ["pkg/state/state.go:ProcessAll,finish,reportError", "pkg/frost/keygen/round2.go:ProcessMessage"]}
{"id": "C51", "title": "A signing State signs the message it was given", "statement": "What NewSignState was given is what is signed: what the caller later does with the slices it passed (message and party IDs) does not influence the State, in particular the output is a signature of the message passed, no honest party is blamed and nothing crashes because of it.", "quantifier": "every history of calls interleaved with writes to the caller's buffers", "why_tests_cant": "the writes may come between any two calls; tests never reuse a buffer", "anchors": ["pkg/frost/sign/base.go:NewRound,Reset", "pkg/frost/sign/round1.go:GenerateMessages", "pkg/frost/sign/round2.go:GenerateMessages", "pkg/state/base_round.go:NewBaseRound"]}
{"id": "C52", "title": "A signature cannot be turned into another one, nor moved to another message or key", "statement": "For every key, message and first half R exactly one second half S is accepted: nobody can change the bytes of a valid signature after R so that it stays valid, for this library's Verify and for crypto/ed25519. A signature valid for two messages under the same key shows equal challenges; one valid under two keys shows [c]Y = [c']Y'.", "quantifier": "every key, message and byte string", "why_tests_cant": "all byte strings, in particular non-canonical scalars and keys of small order", "anchors": ["pkg/eddsa/public_key.go:Verify", "pkg/eddsa/signature.go:UnmarshalBinary"]}
{"id": "C53", "title": "Signers whose shares do not determine the key get no signature, and nobody is blamed", "statement": "NewSignState accepts any set of key holders. A run outputs a signature only if the weighted public shares of its signers add up to the group key or the challenge is 0; otherwise it ends with 'full signature is invalid', naming nobody. k signers of a key of degree at least k satisfy the condition for exactly one value of the k-th coefficient, given the others; as many signers as the threshold, exactly if the leading coefficient is 0.", "quantifier": "every signer set, key, message and history of calls; where signers finish or nobody is blamed, nonces that are not exactly 0 (C02 says what happens with a nonce 0)", "why_tests_cant": "all subsets and all keys; the exceptional keys have negligible density", "anchors": ["pkg/frost/sign/base.go:NewRound", "pkg/frost/sign/round2.go:GenerateMessages", "pkg/frost/party/id.go:Lagrange"]}
{"id": "C54", "title": "Messages are bound to their session", "statement": "A State does not act on messages that were sent in another run of the protocol: a key generation does not finish, and no party is blamed, because of replayed messages of parties that take no part. A signing run fed with a share of another run finishes only if that share satisfies the equation of this run.", "quantifier": "all pairs of sessions, any signer sets, messages and randomness", "why_tests_cant": "needs two sessions and all ways of mixing their messages; tests run sessions in isolation", "anchors": ["pkg/messages/header.go:Header", "pkg/state/state.go:HandleMessage", "pkg/frost/keygen/round1.go:ProcessMessage", "pkg/frost/keygen/round2.go:ProcessMessage", "pkg/frost/sign/round2.go:ProcessMessage"]}
{"id": "C55", "title": "Go's map iteration order does not influence the outcome", "statement": "Running the same calls on the same State with any two orders of Go's map iterations gives the same messages, the same pending state, the same finished flag, the same error round and text (and the same culprit) and the same output; a run that succeeds in one order does not fail or panic in another.", "quantifier": "all histories of calls, all messages, all pairs of iteration orders of every map, all party sets", "why_tests_cant": "Go randomises map iteration; a test sees one order per run and cannot force two orders of one execution", "anchors": ["pkg/state/state.go:ProcessAll", "pkg/frost/keygen/round1.go:ProcessMessage", "pkg/frost/keygen/round2.go:ProcessMessage", "pkg/frost/sign/round1.go:GenerateMessages", "pkg/frost/sign/round2.go:GenerateMessages"]}
{"id": "C56", "title": "Delivery order of different senders does not influence the outcome", "statement": "If between the other calls each sender's messages are handed to HandleMessage in the same order, then the interleaving of the senders (also across rounds, through the queue), the times of the calls and the map iteration orders change neither the answers HandleMessage gives to a sender, nor the messages generated, the status, the round and text of the error, nor the output.", "quantifier": "all histories of both protocols in which no timeout expires (or timeouts are disabled), all interleavings, all messages", "why_tests_cant": "the number of interleavings is exponential; tests deliver in one fixed order", "anchors": ["pkg/state/state.go:HandleMessage", "pkg/state/state.go:ProcessAll"]}
{"id": "C57", "title": "Key generation discloses nothing about a party's polynomial beyond its public commitment", "statement": "Everything that any t parties can read of the messages of another party during key generation is, byte for byte, a function (an explicit simulator) of the public element [f(0)]B, of the t shares addressed to them and of a proof nonce independent of f; these inputs are free (each value occurs, for exactly one polynomial). Whether and when a party sends, the headers and sizes of its messages, the errors it reports and whether it finishes do not depend on its randomness at all.", "quantifier": "all party lists, thresholds, randomness, coalitions of at most t parties and all histories (arbitrary messages from the others)", "why_tests_cant": "secrecy is a statement about all polynomials that fit the observed messages, not about one run", "anchors": ["pkg/frost/keygen/round0.go:GenerateMessages", "pkg/frost/keygen/round1.go:GenerateMessages", "pkg/frost/keygen/round1.go:ProcessMessage", "pkg/frost/keygen/round2.go:ProcessMessage", "pkg/internal/zk/schnorr.go:NewSchnorrProof"]}
{"id": "C58", "title": "A signature share discloses nothing about the key share (programmable hash)", "statement": "The two messages a signer sends are, byte for byte, those of an explicit simulator that is given the public key share instead of the secret one and chooses the share z, the second nonce and the hash values at two inputs (its binding factor and the challenge); every choice corresponds to exactly one pair of nonces, which some random source yields, and the programmed function is a hash function that differs from the given one at those two inputs only.", "quantifier": "all groups with the laws of the abstract group, hash functions, signer lists, key shares, messages, histories in which each peer commits once, and all choices of the simulator for which the two programmed inputs are not among the other hash inputs", "why_tests_cant": "zero knowledge is a statement about all key shares that fit an observed transcript", "anchors": ["pkg/frost/sign/round0.go:GenerateMessages", "pkg/frost/sign/round1.go:computeRhos", "pkg/frost/sign/round1.go:GenerateMessages", "pkg/eddsa/signature.go:ComputeChallenge"]}
{"id": "C59", "title": "What repeated or known nonces give away", "statement": "If the random source of a signer yields the same two scalars in three signing sessions, its key share is a rational function (given explicitly) of what an observer of the sessions knows, unless a determinant of public values vanishes; one session suffices if the nonces are known; two sessions with the same unknown nonces do not, since every key share fits them.", "quantifier": "all sessions: any signer lists containing the signer, messages, group keys, commitments of the others and histories", "why_tests_cant": "the claim is about all runs with a repeating random source, and its last part about all key shares", "anchors": ["pkg/frost/sign/round0.go:GenerateMessages", "pkg/frost/sign/round1.go:GenerateMessages", "pkg/internal/scalar/scalar.go:SetScalarRandom"]}
{"id": "C60", "title": "The project's own end-to-end test program", "statement": "For 0 < T < N the test program test/frosted.go makes a Handler for every party; if its key generation returns, it returns the one shared key of the dealers' polynomials or the error of a party that timed out; if DoSign reports success every signer has a signature that both verifiers accept, whoever else is on the network, and over a network of the honest parties it reports failure only after a timeout; over the Channel transport it succeeds whenever no Handler refuses a message, always for two parties; T = 0 and T >= N are refused; the UDP buffer holds every message of a run and no datagram can crash the receiver or change a State without a proper header.", "quantifier": "all N, T, random sources, networks that lose, repeat and reorder, orders of iterating over the maps of Handlers, datagrams; where signers finish or nobody is blamed, nonces that are not exactly 0 (C02 says what happens with a nonce 0)", "why_tests_cant": "the program runs three sizes with one random source and one schedule each", "anchors": ["test/frosted.go:Setup", "test/frosted.go:DoKeygen", "test/frosted.go:DoSign", "test/frosted.go:FROSTestChannel", "test/frosted.go:FROSTestUDP", "test/internal/communication/udp.go:Start", "test/internal/communication/local_constructors.go:NewUDPCommunicatorMap"]}
{"id": "C61", "title": "Byte strings and lists built in shared memory", "statement": "Over Go's slices (array, offset, length, capacity; append writes in place while there is room): BytesAppend of a header, body, message or signature appends exactly the documented bytes and changes nothing else that was visible; MarshalBinary allocates once, exactly Size() bytes; CheckFROSTMarshaler accepts every message built and every signature; the binding factors computed in one reused buffer are those of the definition, for every capacity and growth; compacting the queue in its own array gives the messages of other types in order; NewIDSlice and Copy leave the given list alone; h.Sum on a 64-byte buffer gives 128 bytes; two results appended to one slice share memory exactly when there is room behind it.", "quantifier": "all heaps, slices, capacities, growth policies of append, messages, queues, lists of signers", "why_tests_cant": "aliasing only shows with particular capacities; tests pass nil or exact buffers", "anchors": ["pkg/messages/messages.go:BytesAppend", "pkg/messages/messages.go:MarshalBinary", "pkg/messages/marshalling.go:CheckFROSTMarshaler", "pkg/messages/header.go:BytesAppend", "pkg/internal/polynomial/exponent.go:BytesAppend", "pkg/internal/zk/schnorr.go:BytesAppend", "pkg/eddsa/signature.go:BytesAppend", "pkg/frost/sign/round1.go:computeRhos", "pkg/state/state.go:ProcessAll", "pkg/frost/party/idslice.go:NewIDSlice", "pkg/frost/party/idslice.go:Copy"]}
{"id": "C62", "title": "What the unit tests check, for all inputs", "statement": "Every test function of the repository, as a function of its parameters and of its random draws, passes for all of them: the scalar, ID, Lagrange, polynomial and exponent tests for all degrees below 65535, indices and tables; the Schnorr test for all secrets and nonces (and it would pass for any challenge function, so it cannot see a broken one); the message and header tests; the share and public-key JSON and binary tests; the signature tests against crypto/ed25519; TestPrivateKey_ToEd25519 exactly for the key of RFC 8032; TestKeygen for all 0 < T < N < 65535; TestSign for all 0 <= T < N < 65535 and non-zero nonces. The draws for which a test fails or crashes are exactly described; TestKeyGen2_MarshalBinary should pass for all draws.", "quantifier": "all values returned by the random sources, all parameters in place of the constants, all schedules and map orders", "why_tests_cant": "a test run samples one value of each draw and one choice of the constants", "anchors": ["pkg/internal/scalar/scalar_test.go:TestNewScalarUInt32", "pkg/frost/party/id.go:RandID", "pkg/frost/party/id_test.go:TestID_Lagrange", "pkg/frost/party/id_test.go:TestFromBytes", "pkg/internal/polynomial/exponent_test.go:TestSum", "pkg/internal/polynomial/exponent_test.go:TestExponent_Evaluate", "pkg/internal/polynomial/polynomial_test.go:TestPolynomial_Evaluate", "pkg/internal/zk/schnorr_test.go:TestSchnorrProof", "pkg/messages/keygen1_test.go:TestKeyGen1_MarshalBinary", "pkg/messages/keygen2_test.go:TestKeyGen2_MarshalBinary", "pkg/messages/header_test.go:TestHeader_UnmarshalBinary", "pkg/eddsa/public_test.go:TestShares_GroupKey", "pkg/eddsa/public_test.go:TestShares_MarshalJSON", "pkg/eddsa/signature_test.go:TestSignature_Verify", "pkg/eddsa/public_key_test.go:TestPrivateKey_ToEd25519", "test/keygen_test.go:TestKeygen", "test/keygen_test.go:ValidateSecrets", "test/sign_test.go:TestSign", "test/common.go:setupParties"]}
{"id": "C63", "title": "Decoding into a receiver", "statement": "A decoder that returns no error leaves in its receiver the value decoded, whatever the receiver held; a decoder that returns an error leaves the receiver as it was, so that a receiver used for a sequence of inputs holds the last one that could be decoded. Message.UnmarshalBinary never lets a half-decoded body into a message.", "quantifier": "all receivers, all byte strings, all sequences of inputs", "why_tests_cant": "tests decode valid data into fresh variables", "anchors": ["pkg/eddsa/signature.go:UnmarshalBinary", "pkg/eddsa/secret_share.go:UnmarshalBinary", "pkg/eddsa/secret_share.go:UnmarshalJSON", "pkg/eddsa/public.go:UnmarshalJSON", "pkg/eddsa/public_key.go:UnmarshalJSON", "pkg/internal/zk/schnorr.go:UnmarshalBinary", "pkg/internal/polynomial/exponent.go:UnmarshalBinary", "pkg/messages/messages.go:UnmarshalBinary", "pkg/messages/keygen1.go:UnmarshalBinary", "pkg/messages/sign1.go:UnmarshalBinary", "pkg/ristretto/ristretto.go:SetCanonicalBytes", "pkg/frost/party/id.go:UnmarshalText"]}
{"id": "C64", "title": "Calls from several goroutines take effect one at a time", "statement": "Any number of goroutines may call HandleMessage and ProcessAll of one State while its timer expires at any moment and others read IsFinished and Err without the mutex. Whenever the mutex is free, the state, the answers and the messages given out are those of the calls made one after the other, in the order in which they got the mutex, each goroutine's own order kept, with the expiries between calls. A panic happens only where a sequence of calls panics. During a call the readers see the values from before it, those after it, or the final error with the earlier 'unfinished'; once 'finished' is seen it stays and the error no longer changes. No call waits for ever for the holder of the mutex.", "quantifier": "all initial states, all numbers of goroutines and sequences of calls, all interleavings of single accesses, all expiry times, all rounds (Round implementations)", "why_tests_cant": "the race detector and tests see few of the interleavings", "anchors": ["pkg/state/state.go:HandleMessage", "pkg/state/state.go:ProcessAll", "pkg/state/state.go:NewBaseState", "pkg/state/state.go:finish", "pkg/state/state.go:reportError", "pkg/state/state.go:ackMessage", "pkg/state/state.go:stopTimer", "pkg/state/state.go:IsFinished", "pkg/state/state.go:Err"]}
{"id": "C65", "title": "The test transports neither crash nor block an honest protocol", "statement": "When honest parties run key generation or signing with the Handlers over the Channel transport - goroutines for each Handler, for each byte channel, for the WaitGroup, and the test program that waits for the States and then shuts the communicators down - no goroutine ever sends on a closed channel, no execution has more than 8n^2 + 6n + 3 steps, the bounded buffers never block it for ever, and seen from the Handlers it is an execution over unbounded channels. It ends with all goroutines returned, all channels empty and everybody holding the key or a valid signature, unless a Handler refused a message, which cannot happen between two parties. The UDP transport shuts down without a crash when no datagram is waiting.", "quantifier": "all party sets, thresholds, random draws, messages, all interleavings of the goroutines' single channel operations, all orders of map iteration; where signers finish or nobody is blamed, nonces that are not exactly 0 (C02 says what happens with a nonce 0)", "why_tests_cant": "a deadlock or a send on a closed channel needs a rare interleaving", "anchors": ["test/internal/communication/channel.go:Send", "test/internal/communication/channel.go:Done", "test/internal/communication/channel.go:waitForFinish", "test/internal/communication/channel.go:handleByteChan", "test/internal/communication/local_constructors.go:NewChannelCommunicatorMap", "test/internal/communication/handler.go:HandleMessage", "test/internal/communication/handler.go:ProcessAll", "test/internal/communication/udp.go:Start", "test/internal/communication/udp.go:Done", "test/frosted.go:DoKeygen", "test/frosted.go:DoSign", "test/frosted.go:destroyCommMap"]}
{"id": "C66", "title": "Key generation and all signing sessions together disclose nothing about a key share (programmable hash)", "statement": "Everything that t parties read of another party during a key generation and any number of later signing sessions with the resulting key share - whatever the others send, as long as each sender commits consistently within a session - is, byte for byte, written by one simulator without the secret: from [f(0)]B, the t shares addressed to them, a proof nonce, the commitments received, and for each session a freely chosen share, second nonce and two hash values; one hash function, programmed at two points per session, has all these answers, and each choice corresponds to exactly one pair of nonces.", "quantifier": "all party sets, thresholds, randomness, histories, numbers of sessions, signer sets, messages and hash functions for which no programmed point was used as an input before", "why_tests_cant": "an adversary may combine what it sees in many sessions; a test sees single runs", "anchors": ["pkg/frost/keygen/round0.go:GenerateMessages", "pkg/frost/keygen/round1.go:GenerateMessages", "pkg/frost/keygen/round2.go:ProcessMessage", "pkg/frost/sign/base.go:NewRound", "pkg/frost/sign/round0.go:GenerateMessages", "pkg/frost/sign/round1.go:GenerateMessages"]}
{"id": "C67", "title": "Whoever answers two challenges for one nonce knows the secret", "statement": "Two signatures with the same first half and different challenges give the secret key: for this library's Verify under any two hash functions and messages, for crypto/ed25519 at byte level, and for a forger run twice with a hash function changed only at the challenge of its own forgery. Two signature shares of a party accepted in two runs with the same nonce point and different weighted challenges give its key share; the logarithms of as many key shares as the polynomial has coefficients give the group's secret.", "quantifier": "all keys, messages, hash functions, forgers, runs, signer sets and polynomials", "why_tests_cant": "a statement about all programs that produce signatures", "anchors": ["pkg/eddsa/public_key.go:Verify", "pkg/eddsa/signature.go:ComputeChallenge", "pkg/frost/sign/round2.go:ProcessMessage", "pkg/frost/party/id.go:Lagrange"]}
{"id": "C68", "title": "Sums of multiples in the ristretto package", "statement": "MultiScalarMult and VarTimeMultiScalarMult return the sum of the multiples for all slices of the same length, whatever the order of the pairs and the representatives of the elements, and panic exactly if the lengths differ. VarTimeDoubleScalarBaseMult(a, A, b) is the sum of the multiples of A and of the generator. String distinguishes exactly the elements that Equal distinguishes.", "quantifier": "all slices of scalars and valid elements", "why_tests_cant": "tests try a few short slices", "anchors": ["pkg/ristretto/ristretto.go:MultiScalarMult", "pkg/ristretto/ristretto.go:VarTimeMultiScalarMult", "pkg/ristretto/ristretto.go:VarTimeDoubleScalarBaseMult", "pkg/ristretto/ristretto.go:String"]}
{"id": "C69", "title": "The UDP communicators connect every party with every other", "statement": "NewUDPCommunicatorMap gives every ID a communicator whose peers are exactly the other IDs at the addresses of their sockets, with a reader started on a buffer for all of them. Send writes a broadcast once to everybody else and another message to the party it names, returns an error for an ID that is nobody's, and after a write that fails has written exactly the beginning. What a party of a key generation or a signature sends arrives, whole, at those it is meant for.", "quantifier": "all ID lists (with repetitions), all orders of map iteration, all messages, all patterns of failing writes", "why_tests_cant": "tests use a few consecutive IDs on one machine and never a write that fails", "anchors": ["test/internal/communication/local_constructors.go:NewUDPCommunicatorMap", "test/internal/communication/udp.go:AddPeer", "test/internal/communication/udp.go:Send", "test/internal/communication/udp.go:Start"]}
{"id": "C70", "title": "A random source that fails stops the party before it has said anything", "statement": "crypto/rand may return an error, on which the code panics. This happens only in the call of ProcessAll that opens the protocol, and exactly when one of its first T+2 reads (key generation) or two reads (signing) fails. A caller that recovers has a party that never sends a message, has no key and no signature, whatever it receives and however often ProcessAll is called again, with a working source or not; it ends at most by its timeout, which erases its secrets and crashes nothing. As long as no read fails, the party is one with some stream of random values, so that everything else proved here is true of it.", "quantifier": "all sequences of calls and of sources that fail at any reads, all sets of parties, all thresholds, all messages received", "why_tests_cant": "no test has a source that fails", "anchors": ["pkg/internal/scalar/scalar.go:SetScalarRandom", "pkg/internal/polynomial/polynomial.go:NewPolynomial", "pkg/frost/keygen/round0.go:GenerateMessages", "pkg/frost/sign/round0.go:GenerateMessages", "pkg/state/state.go:ProcessAll", "pkg/frost/keygen/base.go:Reset"]}
{"id": "C71", "title": "Recovering from a crash of ProcessAll gains and reveals nothing", "statement": "A stored message without the body of its round makes ProcessAll panic, and the panic leaves the mutex unlocked. A caller that recovers and goes on has a State that stays in its round, sends no further message and never gets a key or a signature, whatever it receives afterwards; no later call panics beyond recovery. It can only end with an error: its timeout, or an error that the crashed State would have reported for one of the messages it had stored, and with its secrets erased.", "quantifier": "all histories of calls before and after the crash, all iteration orders of Go's maps, all messages received, all sets of parties and thresholds", "why_tests_cant": "no test stores such a message, and no test recovers", "anchors": ["pkg/state/state.go:ProcessAll", "pkg/state/state.go:HandleMessage", "pkg/frost/keygen/round1.go:ProcessMessage", "pkg/frost/keygen/round2.go:ProcessMessage", "pkg/frost/sign/round1.go:ProcessMessage", "pkg/frost/sign/round2.go:ProcessMessage"]}
{"id": "C72", "title": "Messages that do not depend on a party's draws cannot influence the key", "statement": "If the messages that reach a party during key generation do not depend on what it draws, then whether it finishes does not depend on its draws either; and if it finishes, the group key, the public share of each party and its own secret share are as near to uniform as one draw of 64 bytes: every value is reached by the same number of first reads, or one more. With two different draws the results differ exactly as the two polynomials do.", "quantifier": "all messages, valid or not, in all orders, all histories of calls, all sets of parties and thresholds, every value of the key", "why_tests_cant": "distributions over 2^512 reads cannot be sampled, and the tests have honest parties only", "anchors": ["pkg/frost/keygen/round0.go:GenerateMessages", "pkg/frost/keygen/round1.go:ProcessMessage", "pkg/frost/keygen/round2.go:ProcessMessage", "pkg/frost/keygen/round2.go:GenerateMessages", "pkg/internal/scalar/scalar.go:SetScalarRandom", "pkg/state/state.go:ProcessAll"]}
