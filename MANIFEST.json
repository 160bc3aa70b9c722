{
 "claims": [
  {
   "property": "C01",
   "status": "proved",
   "theorems": [
    "C01_standard",
    "C01_sha512",
    "C01_success",
    "C01_no_output_otherwise",
    "C01_signature"
   ],
   "note": "For every party list, share, message, set of peers' messages and call order; also in the form of the Schnorr equation with R and S as sums over the signers."
  },
  {
   "property": "C02",
   "status": "proved",
   "theorems": [
    "C02_honest",
    "C02_no_crash",
    "C02_completes",
    "C02_every_nonce",
    "C02_zero_stops",
    "C02_zero_names"
   ],
   "note": "For every network behaviour (loss, reordering, duplication, any interleaving of calls) and every map iteration order; C02_every_nonce is for all nonces: the only error beside the timeout names another signer with a nonce 0; C02_zero_stops and C02_zero_names say what such a nonce does to the others. For nonces different from 0: C02_honest, and an execution in which all signers finish exists (C02_completes)."
  },
  {
   "property": "C03",
   "status": "proved",
   "theorems": [
    "C03_go",
    "C03_all_signatures",
    "C03_rfc_strict",
    "C03_rfc",
    "C03_key",
    "C03_key_injective",
    "C03_sha512"
   ],
   "note": "Equality with the model of crypto/ed25519.Verify and equivalence with RFC 8032 verification (with and without cofactor), for every key, message, signature and hash function with 64-byte output; every standard signature under an exported key is an export. The dependency (field and point formulas, SqrtRatio) is modelled in Fp.v, EdPoint.v, Ed25519.v."
  },
  {
   "property": "C04",
   "status": "proved",
   "theorems": [
    "C04_honest",
    "C04_degree",
    "C04_agree",
    "C04_no_crash",
    "C04_completes",
    "C04_then_sign"
   ],
   "note": "For every network behaviour; shares are F(i) of the sum F of the dealt polynomials, all parties agree, an execution in which all finish exists, and signing with the outputs yields valid signatures."
  },
  {
   "property": "C05",
   "status": "proved",
   "theorems": [
    "C05_reconstruction",
    "C05_uniqueness",
    "C05_perfect_secrecy",
    "C05_any_secret_possible"
   ],
   "note": "Reconstruction from any t+1 shares, uniqueness, and perfect secrecy as a bijection between sharings that preserves t shares."
  },
  {
   "property": "C06",
   "status": "partial",
   "theorems": [
    "C06_no_output_otherwise",
    "C06_public",
    "C06_secret_partial",
    "C06_exact",
    "C06_refuted"
   ],
   "note": "Refuted: a commitment of the wrong degree is accepted but not added (keygen/round1.go drops the error of Add), so the secret share does not match the public one. Proved: the public data always lies on one polynomial of the right degree; the secret matches if all commitments have threshold+1 coefficients, and in general if and only if the dropped commitments sum to the identity at the own ID."
  },
  {
   "property": "C07",
   "status": "partial",
   "theorems": [
    "C07_complete",
    "C07_proof_exists",
    "C07_accepts_everything",
    "C07_refuted",
    "C07_sent",
    "C07_checked"
   ],
   "note": "Refuted: the challenge is computed from 128 bytes, which SetUniformBytes refuses, so it is always 0 and (0,R) proves everything (proved as an equivalence). Completeness is proved."
  },
  {
   "property": "C08",
   "status": "proved",
   "theorems": [
    "C08_check",
    "C08_honest_share",
    "C08_sent",
    "C08_secret",
    "C08_blame"
   ],
   "note": "The test itself, what is sent, what the secret is made of, and who is blamed, for arbitrary peers."
  },
  {
   "property": "C09",
   "status": "proved",
   "theorems": [
    "C09_sign_blame",
    "C09_keygen_blame",
    "C09_sign_every_nonce"
   ],
   "note": "C09_sign_blame for nonces of j different from 0, C09_sign_every_nonce for all (with C02_zero_names: a party with a nonce 0 is named). Signing under consistent broadcast (needed: signers with different views would blame each other); key generation without that assumption."
  },
  {
   "property": "C10",
   "status": "proved",
   "theorems": [
    "C10_blame",
    "C10_round2",
    "C10_complete"
   ],
   "note": "For duplicate-free uint16 party lists and every history: which shares are accepted, who is blamed, and that the final test cannot fail when our share and the public shares are consistent."
  },
  {
   "property": "C11",
   "status": "proved",
   "theorems": [
    "C11_accepts",
    "C11_only_acceptable",
    "C11_rejects"
   ],
   "note": "Exact characterisation of accepted, rejected and silently dropped messages, for every Round implementation and every sorted party list."
  },
  {
   "property": "C12",
   "status": "partial",
   "theorems": [
    "C12_queued_partial",
    "C12_kept_partial",
    "C12_early_rejected",
    "C12_refuted",
    "C12_round0_refuted"
   ],
   "note": "Refuted: state.go:110 refuses a later-round message once the sender's current message is stored, and every message before the first ProcessAll; a run of three honest parties with FIFO delivery deadlocks. Proved: if the sender's current message is not stored yet, the later message is queued, kept, and becomes the stored message of its round."
  },
  {
   "property": "C13",
   "status": "proved",
   "theorems": [
    "C13_round_monotone",
    "C13_final",
    "C13_emits_once_per_round",
    "C13_closed_iff_done",
    "C13_no_double_close",
    "C13_protocols"
   ],
   "note": "For every Round implementation and history; instantiated at key generation and signing."
  },
  {
   "property": "C14",
   "status": "proved",
   "theorems": [
    "C14_at_most_one",
    "C14_same_nonces"
   ],
   "note": "At most one Sign1 and one Sign2 for any parameters; the Sign2 share is the FROST formula over the nonces of the Sign1."
  },
  {
   "property": "C15",
   "status": "proved",
   "theorems": [
    "C15_all_in",
    "C15_missing",
    "C15_progress"
   ],
   "note": "For duplicate-free party lists containing self with fewer than 65536 entries, every history and every map iteration order."
  },
  {
   "property": "C16",
   "status": "partial",
   "theorems": [
    "C16_last",
    "C16_current_partial",
    "C16_refuted"
   ],
   "note": "Refuted for queued messages (the last one wins). Proved for messages of the current round; C16_last says for all histories which messages are kept: the queue is the accepted messages of later rounds in order, and what is stored for a peer is the last accepted message of that round."
  },
  {
   "property": "C17",
   "status": "partial",
   "theorems": [
    "C17_keygen_exact",
    "C17_disabled",
    "C17_disabled_keygen",
    "C17_disabled_sign",
    "C17_aborts",
    "C17_not_early",
    "C17_not_started",
    "C17_finished",
    "C17_first_error_wins",
    "C17_crash_partial",
    "C17_sign_no_crash",
    "C17_refuted"
   ],
   "note": "Refuted: a keygen State crashes if the timeout fires before the first ProcessAll (keygen/base.go:70). Proved: abort after the timeout, never earlier, no effect after the end, first error wins, signing never crashes; exactly: the callback crashes a reachable keygen State iff it is pending and not done and in round 0 (before the first ProcessAll). With a timeout of 0 or less nothing depends on the clock and no timeout is ever reported (C17_disabled*)."
  },
  {
   "property": "C18",
   "status": "proved",
   "theorems": [
    "C18_keygen",
    "C18_polynomial",
    "C18_sign"
   ],
   "note": "For signing and key generation, every history; the erased values are the round's fields (copies made by the Go runtime are not modelled)."
  },
  {
   "property": "C19",
   "status": "partial",
   "theorems": [
    "C19_decode_never_panics",
    "C19_sign_exact",
    "C19_keygen_exact",
    "C19_keygen_partial",
    "C19_empty_commitment_refuted",
    "C19_sign_partial",
    "C19_refuted"
   ],
   "note": "Refuted: a 5-byte message without body crashes any ProcessAll, and 71 bytes with an empty commitment crash keygen. Proved: decoding never panics, and messages with a body (and, for keygen, a non-empty commitment) never crash a State; exactly: some order of ProcessAll crashes a reachable State iff it is not done, has all messages of the round, and one of them lacks its body (or, for KeyGen1, has an empty commitment)."
  },
  {
   "property": "C20",
   "status": "proved",
   "theorems": [
    "C20_round_trip",
    "C20_layout",
    "C20_injective"
   ],
   "note": "Round trip, exact byte layout, size, injectivity; for all four message types, for every group satisfying the laws."
  },
  {
   "property": "C21",
   "status": "partial",
   "theorems": [
    "C21_fresh_receiver_partial",
    "C21_any_receiver_partial",
    "C21_accepts_partial",
    "C21_refuted",
    "C21_stale_body_refuted"
   ],
   "note": "Refuted as stated: Message.UnmarshalBinary drops body decoding errors (messages.go:87-123). Proved: into a fresh receiver, either the input is the exact encoding of the result or the result has no body; into any receiver the result is that one laid over the receiver (C21_any_receiver_partial), and the decoder accepts exactly the inputs that start with a valid header (C21_accepts_partial)."
  },
  {
   "property": "C22",
   "status": "proved",
   "theorems": [
    "C22_encode",
    "C22_decode",
    "C22_decode_iff",
    "C22_round_trip",
    "C22_decode_canonical"
   ],
   "note": ""
  },
  {
   "property": "C23",
   "status": "partial",
   "theorems": [
    "C23_round_trip",
    "C23_layout",
    "C23_canonical",
    "C23_nonempty_partial",
    "C23_nonempty_refuted",
    "C23_no_panic"
   ],
   "note": "Round trip, layout and canonicity proved; 'never empty' is refuted by the two bytes ff ff (degree+1 wraps), which is proved to be the only exception."
  },
  {
   "property": "C24",
   "status": "proved",
   "theorems": [
    "C24_bytes_round_trip",
    "C24_bytes_canonical",
    "C24_bytes_short",
    "C24_bytes_big_endian",
    "C24_scalar",
    "C24_scalar_injective",
    "C24_scalar_zero"
   ],
   "note": ""
  },
  {
   "property": "C25",
   "status": "proved",
   "theorems": [
    "C25_lagrange_value",
    "C25_lagrange_error",
    "C25_interpolation_at_zero",
    "C25_coefficients_sum_to_one"
   ],
   "note": ""
  },
  {
   "property": "C26",
   "status": "proved",
   "theorems": [
    "C26_NewIDSlice",
    "C26_NewIDSlice_unique",
    "C26_Contains",
    "C26_Contains_safe",
    "C26_IsSubsetOf",
    "C26_Equal",
    "C26_N"
   ],
   "note": ""
  },
  {
   "property": "C27",
   "status": "proved",
   "theorems": [
    "C27_evaluate",
    "C27_new_polynomial",
    "C27_exponent_evaluate",
    "C27_exponent_evaluate_zero",
    "C27_commitment",
    "C27_add",
    "C27_sum",
    "C27_evaluate_multi"
   ],
   "note": ""
  },
  {
   "property": "C28",
   "status": "proved",
   "theorems": [
    "C28_signature_round_trip",
    "C28_signature_decode",
    "C28_share_round_trip",
    "C28_share_decode",
    "C28_share_equal",
    "C28_signature_equal",
    "C28_schnorr"
   ],
   "note": ""
  },
  {
   "property": "C29",
   "status": "partial",
   "theorems": [
    "C29_NewPublic",
    "C29_group_key",
    "C29_threshold_65535_refuted",
    "C29_zero_id_refuted",
    "C29_Equal",
    "C29_json_decode",
    "C29_json_round_trip",
    "C29_json_round_trip_new",
    "C29_json_round_trip_keygen",
    "C29_json_wrong_key",
    "C29_json_threshold_refuted",
    "C29_json_missing_key_refuted",
    "C29_json_null_share_refuted",
    "C29_share_json_round_trip",
    "C29_share_json_decode",
    "C29_share_json_id_refuted"
   ],
   "note": "Proved: NewPublic accepts exactly threshold < N for usable share maps and computes the interpolated key; Equal; JSON round trip; a wrong group key is rejected. Refuted: threshold 65535 and ID 0 are accepted or mishandled, JSON does not check the threshold, a missing group key or a null share crashes or is accepted, SecretShare JSON does not check the ID."
  },
  {
   "property": "C30",
   "status": "partial",
   "theorems": [
    "C30_slice",
    "C30_set",
    "C30_slice_max_refuted",
    "C30_secrets",
    "C30_public",
    "C30_threshold",
    "C30_zero_id",
    "C30_duplicates_refuted",
    "C30_then_sign"
   ],
   "note": "Proved: the dealer of helpers.GenerateSecrets/GeneratePublic deals consistent shares for every ID list without duplicates and threshold below its size, GenerateSet n is 1..n, and dealt keys sign. Refuted: NewPartySlice never ends for n = 65535, and duplicate IDs silently shrink the dealt set."
  },
  {
   "property": "C31",
   "status": "partial",
   "theorems": [
    "C31_wait",
    "C31_keygen",
    "C31_file",
    "C31_signer_partial",
    "C31_flow_partial",
    "C31_usage",
    "C31_zero_threshold",
    "C31_threshold_wrap_refuted",
    "C31_negative_refuted",
    "C31_no_party_refuted",
    "C31_other_ids_refuted",
    "C31_verifier",
    "C31_wrong_owner_refuted",
    "C31_zero_nonce_refuted",
    "C31_routine",
    "C31_routine_fails",
    "C31_signer",
    "C31_flow",
    "C31_printed",
    "C31_keygen_usage",
    "C31_main_partial",
    "C31_main",
    "C31_printed_rfc",
    "C31_owners",
    "C31_owners_once",
    "C31_places",
    "C31_places_iff",
    "C31_sha512"
   ],
   "note": "Proved over the concrete group with the model of crypto/ed25519.Verify: the keygen command succeeds for all 0 < t < n <= 100, randomness and map orders, its file can be read back, and the signer command on it prints a valid signature (C31_flow, C31_signer; the _partial versions are for any group and any verifier). C31_sha512 is the closed statement with SHA-512. C31_main goes from the command-line arguments through the text of the file to the signature; C31_printed_rfc: whatever the file contains, a printed signature is a valid Ed25519 signature under its group key. The nonces are assumed non-zero, and this cannot be dropped (C31_zero_nonce_refuted: a zero nonce makes the signer command fail). Refuted for other arguments: negative n hangs, n = 0 crashes, t is truncated to 16 bits, and the signer crashes on key files whose IDs are not 1..n; it does not check whose share is filed under an ID (C31_wrong_owner_refuted: a witness, the share of 2 filed under 1 too); C31_owners, C31_owners_once: it prints a signature only if the shares filed under 1..n are those of 1..n, each once, in whatever order; C31_places_iff: with shares true to the ID they carry it prints one exactly then. C31_wait: what WaitForError tells about any reachable State."
  },
  {
   "property": "C32",
   "status": "proved",
   "theorems": [
    "C32_encoding",
    "C32_encoding_unique",
    "C32_round_trip",
    "C32_canonical",
    "C32_total",
    "C32_accepts",
    "C32_equal",
    "C32_equal_spec"
   ],
   "note": "For the transcription of ristretto.go over the concrete curve, every valid element and every byte string; encoding also characterised independently (RFC 9496)."
  },
  {
   "property": "C33",
   "status": "proved",
   "theorems": [
    "C33_curve",
    "C33_operations",
    "C33_closed",
    "C33_curve_group",
    "C33_structure",
    "C33_equivalence",
    "C33_congruence",
    "C33_module",
    "C33_prime_order",
    "C33_instance"
   ],
   "note": "For the transcription of ristretto.go over the concrete curve: group laws of the curve proved, its structure Z/q x Z/8 proved (p, q primality by Pocklington certificates), ScalarMult modelled as a multiple of the point."
  },
  {
   "property": "C34",
   "status": "partial",
   "theorems": [
    "C34_values",
    "C34_unchanged",
    "C34_keygen2",
    "C34_keygen1",
    "C34_received",
    "C34_network",
    "C34_keygen1_refuted",
    "C34_received_refuted",
    "C34_in_process_refuted"
   ],
   "note": "false as stated: C34_keygen1_refuted (returned KeyGen1 content becomes the sum, then zeros), C34_received_refuted, C34_in_process_refuted (two honest parties sharing message objects abort); proved: exactly when content is stable (C34_unchanged, C34_keygen1, C34_keygen2, C34_network, C34_received), and that over a network sharing does not influence any State (C34_values). Sign messages hold copies and are values in the model"
  },
  {
   "property": "C35",
   "status": "partial",
   "theorems": [
    "C35_runs_partial",
    "C35_accepts_iff",
    "C35_duplicates_refuted",
    "C35_exact",
    "C35_zero_refuted",
    "C35_zero_id_refuted"
   ],
   "note": "Refuted: ID 0 is accepted and crashes ProcessAll, and no party of a list with 0 ever sends a share or gets a key (proved for every such list); repeated IDs are accepted and the State waits for ever (proved for every such list). Proved: the exact verdict on every sorted list; for valid sorted ID lists the accepted parameters are the right ones and the State runs without panic."
  },
  {
   "property": "C36",
   "status": "partial",
   "theorems": [
    "C36_rejects_partial",
    "C36_accepts",
    "C36_exact",
    "C36_duplicates_refuted",
    "C36_refuted",
    "C36_missing_share_refuted"
   ],
   "note": "Refuted: the threshold is not checked (round/sign base.go NewRound), a missing public share panics, and repeated signers are accepted and the State then waits for ever (proved for every such list). Proved: the exact verdict (State, error or crash) on every pair of sorted lists."
  },
  {
   "property": "C37",
   "status": "partial",
   "theorems": [
    "C37_party_partial",
    "C37_swapped",
    "C37_refuted"
   ],
   "note": "Refuted: state.go:60-65 passes culprit and round number in each other's place, which is proved for every error; the party is right."
  },
  {
   "property": "C38",
   "status": "partial",
   "theorems": [
    "C38_refuted",
    "C38_contribution_known_partial",
    "C38_any_size_refuted"
   ],
   "note": "Refuted for every set of parties and threshold when at most t of them are honest (C38_any_size_refuted), for all honest randomness and every target key: the rogue chooses the group key and knows its secret, because the proof of knowledge covers only what the prover claims at the time it is made and commitments are not fixed beforehand; C38_refuted is the n=2, t=1 instance. Proved: shares accepted by t+1 honest parties determine the contribution."
  },
  {
   "property": "C39",
   "status": "partial",
   "theorems": [
    "C39_interleavings",
    "C39_done",
    "C39_final",
    "C39_no_panic",
    "C39_wakes",
    "C39_wait_refuted",
    "C39_is_finished_refuted"
   ],
   "note": "Proved for every number of goroutines, every calls and interleaving under sequential consistency; under the Go memory model proved for readers that receive from Done (also inside WaitForError). Refuted under the Go memory model for IsFinished and the fast path of WaitForError, which read s.done without the mutex: an aborted run is reported as nil. Fields other than done, err and the output are not in this model."
  },
  {
   "property": "C40",
   "status": "proved",
   "theorems": [
    "C40_base64_accepts",
    "C40_element_text",
    "C40_id_accepts",
    "C40_id_total",
    "C40_id_marshal",
    "C40_id_round_trip",
    "C40_id_injective",
    "C40_id_zeros",
    "C40_base64",
    "C40_base64_spec",
    "C40_element_round_trip",
    "C40_element_marshal",
    "C40_element_accepts",
    "C40_element_total",
    "C40_element_equal",
    "C40_element_newlines"
   ],
   "note": "For every ID, element and text; strconv and base64 are modelled. Texts are not unique (leading zeros, line breaks), which is proved too. Base64 output is characterised against RFC 4648."
  },
  {
   "property": "C41",
   "status": "proved",
   "theorems": [
    "C41_challenge_input",
    "C41_schnorr_input",
    "C41_binding_input"
   ],
   "note": "Injectivity of the three hash inputs; the binding-factor input determines the message's digest."
  },
  {
   "property": "C42",
   "status": "proved",
   "theorems": [
    "C42_map",
    "C42_uniform",
    "C42_length",
    "C42_map_unique",
    "C42_halves"
   ],
   "note": "mapToPoint never panics, its output is characterised by an independent functional specification of the RFC 9496 map, for every input."
  },
  {
   "property": "C43",
   "status": "proved",
   "theorems": [
    "C43_sign",
    "C43_sign_never_stuck",
    "C43_keygen",
    "C43_keygen_never_stuck"
   ],
   "note": "C43_sign, C43_keygen: after three sweeps everybody that did not abort is finished; C43_*_never_stuck: a continuation exists in which all finish. The party list is sorted, as every list NewIDSlice returns is. Honest parties, the network of Net.v; the examples show that two sweeps are not enough."
  },
  {
   "property": "C44",
   "status": "proved",
   "theorems": [
    "C44_round",
    "C44_keygen",
    "C44_sign",
    "C44_text"
   ],
   "note": "C44_round for any round type; C44_keygen, C44_sign: the complete list of reasons; C44_text: the text of Error() is injective."
  },
  {
   "property": "C45",
   "status": "proved",
   "theorems": [
    "C45_near_uniform",
    "C45_key",
    "C45_full_read",
    "C45_short_read",
    "C45_short_read_missed"
   ],
   "note": "counting over all 64-byte strings. C45_short_read and C45_short_read_missed state what happens when Reader.Read returns fewer bytes without an error, which the code does not check."
  },
  {
   "property": "C46",
   "status": "partial",
   "theorems": [
    "C46_grammar",
    "C46_unambiguous",
    "C46_printed",
    "C46_print_parse",
    "C46_map_members",
    "C46_share_text",
    "C46_share_round_trip",
    "C46_public_text",
    "C46_public_round_trip",
    "C46_file",
    "C46_key_file",
    "C46_Atoi",
    "C46_layout",
    "C46_rejects",
    "C46_share_total",
    "C46_share_members",
    "C46_byte_array",
    "C46_field_names",
    "C46_null_number",
    "C46_null_element",
    "C46_null_secret",
    "C46_no_secret_refuted",
    "C46_missing_id_refuted",
    "C46_missing_public_refuted",
    "C46_file_kinds",
    "C46_null_share_refuted"
   ],
   "note": "Proved: the parser is sound and complete for the grammar (C46_grammar), printed texts parse back in both layouts, exact texts and round trips of shares, Public and key files, strconv.Atoi, exactly which keys name a field (C46_field_names). Refuted: a share text without id is accepted with ID 0, a null share crashes the decoder of Public, a file without Shares crashes the signer."
  },
  {
   "property": "C47",
   "status": "partial",
   "theorems": [
    "C47_main_refuted",
    "C47_main_timeout_refuted",
    "C47_main_clock",
    "C47_main_never_fails",
    "C47_main_sound",
    "C47_example_keygen_refuted",
    "C47_example_crash_refuted",
    "C47_example_sign_refuted",
    "C47_handler_keygen",
    "C47_two_keygen",
    "C47_keygen_ends",
    "C47_keygen_capacity",
    "C47_handler_sign",
    "C47_two_sign",
    "C47_sign_ends",
    "C47_sign_capacity",
    "C47_handler_three_refuted",
    "C47_reorder_refuted"
   ],
   "note": "Proved for all executions: over order-preserving channels the Handlers finish with the right outputs if no Handler refuses a message while running, always so for two parties; executions have at most 2n^2 steps, no step blocks, and the buffers suffice. Refuted: a party running the loop of example/main.go never starts, whatever others send, and crashes at its keygen timeout; with three parties a lossless run of the Handlers can get stuck; with reordering even two parties can, without any refused message. main of the example never reaches its end on others' messages; if it does (own messages returned), its signature verifies."
  },
  {
   "property": "C48",
   "status": "partial",
   "theorems": [
    "C48_sign_agree",
    "C48_sign_relation",
    "C48_keygen_agree",
    "C48_then_sign",
    "C48_equivocation_refuted",
    "C48_blame_refuted"
   ],
   "note": "Proved: agreement of any two honest finishers under equal first-round messages (C48_sign_agree, C48_keygen_agree, C48_then_sign) and the equation a finishing signer's shares satisfy without that premise (C48_sign_relation). Refuted without it: one equivocating dealer makes all others finish without error with different group keys, split in any way it likes (C48_equivocation_refuted); an equivocating signer makes one honest signer blame another (C48_blame_refuted)."
  },
  {
   "property": "C49",
   "status": "partial",
   "theorems": [
    "C49_memory",
    "C49_ends",
    "C49_flood",
    "C49_protocols",
    "C49_unbounded_refuted"
   ],
   "note": "Proved: if every peer sends at most k messages, at most k(n-1) are accepted, stored and queued (C49_memory), and a punctual timer ends the State after at most k(n-1)+1 timeouts (C49_ends). Refuted without a bound on what a peer sends: one peer alone makes the queue arbitrarily long and postpones the deadline arbitrarily (C49_unbounded_refuted)."
  },
  {
   "property": "C50",
   "status": "partial",
   "theorems": [
    "C50_keygen",
    "C50_sign",
    "C50_keygen_abort",
    "C50_sign_abort",
    "C50_abort_refuted"
   ],
   "note": "Proved for success in both protocols (C50_keygen, C50_sign). Refuted for aborts: after a timeout in the last round of key generation the State still holds the secret shares sent to it (C50_abort_refuted); exactly what an abort keeps is C50_keygen_abort (everything) and C50_sign_abort."
  },
  {
   "property": "C51",
   "status": "partial",
   "theorems": [
    "C51_before",
    "C51_after",
    "C51_output",
    "C51_changed",
    "C51_given_refuted",
    "C51_blame_refuted",
    "C51_ids_refuted"
   ],
   "note": "Proved for all histories with writes to the message buffer: before the share is sent a write amounts to having passed the new content (C51_before), after the end it has no effect (C51_after), the output is valid for the content at the end (C51_output), and a change in between makes the run fail unless two challenges are equal or the group key is the identity (C51_changed). Refuted as stated, since the slices are kept by reference: the message signed is not the one given (C51_given_refuted), an honest party is blamed (C51_blame_refuted), overwriting the ID slice crashes the State (C51_ids_refuted)."
  },
  {
   "property": "C52",
   "status": "partial",
   "theorems": [
    "C52_unique",
    "C52_bytes",
    "C52_message",
    "C52_key",
    "C52_identity_refuted",
    "C52_standard"
   ],
   "note": "Proved for this library's Verify (C52_unique, C52_bytes, C52_message, C52_key) and, at the byte level and for every 32-byte key, for crypto/ed25519 (C52_standard). Refuted for the identity as group key, which neither key generation nor Verify excludes: one signature is valid for all messages (C52_identity_refuted)."
  },
  {
   "property": "C53",
   "status": "proved",
   "theorems": [
    "C53_enough",
    "C53_one_value",
    "C53_threshold",
    "C53_success",
    "C53_failure",
    "C53_can_sign",
    "C53_too_few",
    "C53_nobody_blamed"
   ],
   "note": "C53_success/C53_failure give the condition for every history; C53_one_value, C53_threshold and C53_enough say for which keys it holds; C53_nobody_blamed covers runs with honest peers. The last case of C53_example shows that the exception is real: with leading coefficient 0 fewer than threshold+1 signers do sign."
  },
  {
   "property": "C54",
   "status": "partial",
   "theorems": [
    "C54_sign_relation",
    "C54_keygen_refuted",
    "C54_sign_refuted"
   ],
   "note": "Proved: the equation relating the two sessions when a signing State finishes with a share of another one (C54_sign_relation). Refuted: headers carry no session identifier, so for every size and randomness a new keygen State fed with an old session's messages finishes without error although nobody else takes part (C54_keygen_refuted, which also says when the resulting key is the old one), and a replayed signature share makes an honest absent party be blamed (C54_sign_refuted)."
  },
  {
   "property": "C55",
   "status": "partial",
   "theorems": [
    "C55_sign",
    "C55_keygen",
    "C55_sign_total",
    "C55_keygen_total",
    "C55_culprit_refuted",
    "C55_panic_refuted"
   ],
   "note": "Proved for both protocols and all histories (C55_sign, C55_keygen), with all orders returning when messages have bodies (C55_sign_total, C55_keygen_total). Refuted: with two faulty senders the order decides which of them is blamed (C55_culprit_refuted), and with a message without body next to a faulty one it decides between an error and a panic (C55_panic_refuted)."
  },
  {
   "property": "C56",
   "status": "proved",
   "theorems": [
    "C56_answers",
    "C56_sign",
    "C56_keygen",
    "C56_sender_order_needed"
   ],
   "note": "C56_answers, C56_sign, C56_keygen. C56_sender_order_needed shows that one sender's own order does matter (the first commitments count). Timeouts are excluded, since the times of accepted messages decide whether one expires."
  },
  {
   "property": "C57",
   "status": "proved",
   "theorems": [
    "C57_simulation",
    "C57_fewer",
    "C57_inputs",
    "C57_control_flow"
   ],
   "note": "C57_simulation (wire bytes equal to the simulator's), C57_fewer (smaller coalitions), C57_inputs (the simulator's inputs range freely, one polynomial each), C57_control_flow (non-interference; needs no hypothesis on the party list). The proof part is trivial to simulate because the code's challenge is always 0 (C07_refuted)."
  },
  {
   "property": "C58",
   "status": "proved",
   "theorems": [
    "C58_simulation",
    "C58_inputs",
    "C58_programmed"
   ],
   "note": "C58_simulation, C58_inputs, C58_programmed. Static form: the others' commitments are a function fixed before the simulator's choice (an adversary who adapts its commitments to ours needs the rewinding/forking argument of the FROST paper, which is a probabilistic statement outside this model). N1 (the message is not the binding-factor input) and N2 (the challenge input is not a binding-factor input) exclude hash inputs that would be programmed twice."
  },
  {
   "property": "C59",
   "status": "proved",
   "theorems": [
    "C59_equation",
    "C59_recover",
    "C59_known_nonces",
    "C59_two_are_not_enough"
   ],
   "note": "C59_equation (the share in terms of public values), C59_recover, C59_known_nonces, C59_two_are_not_enough; C59_example recovers the toy key share from three runs. The nonces come from the random source alone (no message or key is mixed in), so a restored snapshot of a machine meets the hypothesis."
  },
  {
   "property": "C60",
   "status": "partial",
   "theorems": [
    "C60_test",
    "C60_test_no_timeout",
    "C60_test_channel",
    "C60_test_rejects",
    "C60_main",
    "C60_setup",
    "C60_keygen_handlers",
    "C60_keygen",
    "C60_channel_keygen",
    "C60_sign_handlers",
    "C60_sign",
    "C60_channel_sign",
    "C60_sound",
    "C60_notices",
    "C60_verdict",
    "C60_rejects",
    "C60_empty_refuted",
    "C60_udp_keygen",
    "C60_udp_sign",
    "C60_udp_exact",
    "C60_udp_any",
    "C60_udp_malformed"
   ],
   "note": "C60_setup, C60_keygen_handlers, C60_keygen, C60_channel_keygen, C60_sign_handlers, C60_sign, C60_channel_sign, C60_sound, C60_notices, C60_rejects, C60_udp_keygen, C60_udp_sign, C60_udp_any, C60_udp_malformed; the whole program: C60_test, C60_test_channel, C60_test_no_timeout, C60_test_rejects, C60_main. Partial because of C60_empty_refuted: with no parties DoKeygen reports success without a key and DoSign dereferences nil. crypto/ed25519.Verify is a parameter; C60_sign and C60_channel_sign assume it accepts what Verify accepts for the message. The sockets, goroutines and the printing in main are not modelled; a datagram is a list of bytes. C60_example_two and C60_example_three run the whole test in the toy group."
  },
  {
   "property": "C61",
   "status": "proved",
   "theorems": [
    "C61_append",
    "C61_header",
    "C61_bodies",
    "C61_message",
    "C61_marshal",
    "C61_marshal_any",
    "C61_size",
    "C61_marshal_parts",
    "C61_marshal_header",
    "C61_checker",
    "C61_checker_signature",
    "C61_checker_sound",
    "C61_queue",
    "C61_queue_state",
    "C61_ids",
    "C61_rhos",
    "C61_rhos_buffer",
    "C61_sum",
    "C61_shared"
   ],
   "note": "C61_append, C61_header, C61_bodies, C61_message, C61_marshal, C61_marshal_any, C61_marshal_parts, C61_marshal_header, C61_checker, C61_checker_signature, C61_checker_sound, C61_queue, C61_queue_state, C61_ids, C61_rhos, C61_rhos_buffer (one allocation exactly up to 992 signers: the uint16 size wraps beyond), C61_sum, C61_shared. The slices that Bytes() of scalars and group elements return are values; the garbage collector is not modelled. Examples C61_example_*."
  },
  {
   "property": "C62",
   "status": "partial",
   "theorems": [
    "C62_Basepoint",
    "C62_SmallMultiples",
    "C62_BadEncodings",
    "C62_Uniform",
    "C62_Equivalent",
    "C62_MarshalElement",
    "C62_ElementSet",
    "C62_ScalarSet",
    "C62_Constant",
    "C62_Constants",
    "C62_RandID",
    "C62_SetScalarUInt32",
    "C62_NewScalarUInt32",
    "C62_FromBytes",
    "C62_MarshalText",
    "C62_UnmarshalText",
    "C62_Lagrange",
    "C62_Lagrange_empty",
    "C62_Polynomial_Evaluate",
    "C62_Exponent_Evaluate",
    "C62_Exponent_Evaluate_max",
    "C62_Sum",
    "C62_Sum_empty",
    "C62_SchnorrProof",
    "C62_schnorr_blind",
    "C62_schnorr_with",
    "C62_KeyGen1",
    "C62_KeyGen2_refuted",
    "C62_Sign1",
    "C62_Sign2",
    "C62_Header",
    "C62_SecretShare",
    "C62_Shares_GroupKey",
    "C62_Shares_JSON",
    "C62_Signature_Verify",
    "C62_Signature_Encode",
    "C62_CompareOutput",
    "C62_CompareOutput_any",
    "C62_ValidateSecrets",
    "C62_Keygen",
    "C62_Keygen_bad",
    "C62_setup",
    "C62_Sign",
    "C62_Sign_bad",
    "C62_Signature_Verify_go",
    "C62_Sign_go",
    "C62_PrivateKey"
   ],
   "note": "Proved: C62_RandID, C62_NewScalarUInt32, C62_FromBytes, C62_MarshalText, C62_UnmarshalText, C62_Lagrange, C62_Polynomial_Evaluate, C62_Exponent_Evaluate, C62_Sum, C62_SchnorrProof, C62_schnorr_blind, C62_schnorr_with, C62_KeyGen1, C62_Sign1, C62_Sign2, C62_Header, C62_SecretShare, C62_Shares_GroupKey, C62_Shares_JSON, C62_Signature_Verify, C62_Signature_Encode, C62_PrivateKey, C62_Signature_Verify_go, C62_Sign_go, C62_CompareOutput, C62_CompareOutput_any, C62_ValidateSecrets (the helpers accept exactly what they should), C62_Keygen, C62_Keygen_bad, C62_setup, C62_Sign, C62_Sign_bad, C62_Lagrange_empty, C62_Sum_empty, C62_Exponent_Evaluate_max, and the tests of the ristretto package for all tables (C62_Basepoint, C62_SmallMultiples, C62_BadEncodings, C62_Uniform, C62_Equivalent, C62_MarshalElement, C62_ElementSet, C62_ScalarSet, C62_Constant, C62_Constants). Refuted: C62_KeyGen2_refuted (IDs drawn with rand.Uint32, not RandID: the test fails when one of them is 0 modulo 2^16). Printing, timing and the benchmark are left out; the ristretto tables of multiples and uniform bytes are evaluated outside the build (vectors/vectors.txt)."
  },
  {
   "property": "C63",
   "status": "partial",
   "theorems": [
    "C63_success",
    "C63_message",
    "C63_atomic",
    "C63_runs",
    "C63_signature",
    "C63_schnorr",
    "C63_sign1",
    "C63_share",
    "C63_share_json",
    "C63_exponent",
    "C63_keygen1",
    "C63_public_key_null_refuted",
    "C63_public_key",
    "C63_atomic_refuted",
    "C63_atomic_ristretto_refuted"
   ],
   "note": "Proved: C63_success (all decoders but PublicKey.UnmarshalJSON of null), C63_message, C63_atomic and C63_runs (elements, scalars, headers, messages, IDs, KeyGen2, Sign2, public keys, Public), and for the others exactly what a failing call leaves: C63_signature, C63_schnorr, C63_sign1, C63_share, C63_share_json, C63_exponent, C63_keygen1. Refuted: C63_atomic_refuted, C63_atomic_ristretto_refuted (Signature, SecretShare, Schnorr, Sign1, Exponent and KeyGen1 are partly overwritten by a rejected input; a SecretShare then has a foreign ID, an Exponent nil coefficients), C63_public_key_null_refuted (null is accepted and changes nothing)."
  },
  {
   "property": "C64",
   "status": "proved",
   "theorems": [
    "C64_linearizable",
    "C64_history",
    "C64_during",
    "C64_finished_final",
    "C64_crash",
    "C64_no_crash",
    "C64_call_ends",
    "C64_complete",
    "C64_sign"
   ],
   "note": "Proved in the model of `Lin.v`, where the methods are programs of single accesses: C64_linearizable, C64_history (the link to the histories of State.v, so all theorems about `run` hold under all interleavings), C64_during, C64_finished_final, C64_crash, C64_no_crash, C64_call_ends, C64_complete (every sequence of calls is an interleaving), C64_sign (signing: one share, valid signature). C64_mutex_needed shows that without the mutex a message would be lost. Memory is sequentially consistent here (Conc.v, C39, has the Go memory model); a method of Round is one access."
  },
  {
   "property": "C65",
   "status": "partial",
   "theorems": [
    "C65_closing",
    "C65_keygen_no_panic",
    "C65_keygen_ends",
    "C65_keygen_halts",
    "C65_keygen_good",
    "C65_keygen_two",
    "C65_keygen_refines",
    "C65_sign_no_panic",
    "C65_sign_ends",
    "C65_sign_halts",
    "C65_sign_good",
    "C65_sign_two",
    "C65_sign_refines",
    "C65_hang_refuted",
    "C65_udp_refuted",
    "C65_udp_late_refuted",
    "C65_udp_safe",
    "C65_udp_reads"
   ],
   "note": "Proved for the Channel transport (C65_keygen_*, C65_sign_*: no_panic, ends, halts, good, two, refines; C65_closing: when which channel is closed). Refuted: with three parties the test program can wait for ever (C65_hang_refuted: the refusal of C47_handler_three_refuted is reached by the goroutines with their bounded channels); UDP's Done makes the program crash whenever a datagram is waiting or comes between its two calls (C65_udp_refuted, C65_udp_late_refuted). C65_udp_safe and C65_udp_reads say when it does not. Loss and reordering by the network are in C47."
  },
  {
   "property": "C66",
   "status": "proved",
   "theorems": [
    "C66_programmed",
    "C66_session",
    "C66_inputs",
    "C66_life"
   ],
   "note": "C66_programmed (one hash function with all answers, equal to the given one elsewhere), C66_session (a session under any hash function with the chosen answers), C66_inputs (exactly one pair of nonces per choice), C66_life (key generation and all sessions together). The condition that no programmed point was an input before (fresh) fails only if digests or random elements collide. C66_example: party 1 of three and two sessions in the toy group."
  },
  {
   "property": "C67",
   "status": "proved",
   "theorems": [
    "C67_extract",
    "C67_signatures",
    "C67_forger",
    "C67_shares",
    "C67_group",
    "C67_standard"
   ],
   "note": "C67_extract, C67_signatures, C67_forger, C67_shares, C67_group, C67_standard. The forger is a function of the hash function; how often it answers for the same nonce (the forking lemma's probability) is not part of the model. C59 has the case of repeated nonces with unknown binding factors."
  },
  {
   "property": "C68",
   "status": "proved",
   "theorems": [
    "C68_sum",
    "C68_valid",
    "C68_mismatch",
    "C68_mismatch_vartime",
    "C68_order",
    "C68_equal",
    "C68_double",
    "C68_double_sum",
    "C68_string"
   ],
   "note": "C68_sum, C68_valid, C68_mismatch, C68_mismatch_vartime, C68_order, C68_equal, C68_double, C68_double_sum, C68_string on the concrete curve. The dependency's multi-scalar algorithm is modelled by its result, a sum."
  },
  {
   "property": "C69",
   "status": "proved",
   "theorems": [
    "C69_map",
    "C69_send",
    "C69_write_error",
    "C69_keygen",
    "C69_sign",
    "C69_gives_up"
   ],
   "note": "C69_map, C69_send, C69_write_error, C69_keygen, C69_sign; C69_gives_up for the 1.5 seconds of Timeout. The addresses of the sockets are arbitrary, resolving the text of a socket's address is assumed to give it back, and a socket that cannot be opened is not modelled."
  },
  {
   "property": "C70",
   "status": "partial",
   "theorems": [
    "C70_sign_refines",
    "C70_keygen_refines",
    "C70_sign_silent",
    "C70_keygen_silent",
    "C70_keygen_timeout",
    "C70_keygen_when",
    "C70_sign_when",
    "C70_sign_left",
    "C70_keygen_left",
    "C70_crash_refuted"
   ],
   "note": "C70_sign_when and C70_keygen_when (which calls fail), C70_sign_refines and C70_keygen_refines, C70_sign_silent, C70_keygen_silent, C70_keygen_timeout. Not true of key generation (C70_crash_refuted): if a read before that of the proof's nonce fails, Reset has no polynomial to erase, and the timeout crashes the process (C70_keygen_timeout says exactly when)."
  },
  {
   "property": "C71",
   "status": "partial",
   "theorems": [
    "C71_sign",
    "C71_sign_total",
    "C71_keygen",
    "C71_keygen_total",
    "C71_blame_refuted"
   ],
   "note": "C71_sign and C71_sign_total prove it for signing; C71_keygen and C71_keygen_total prove it for key generation but for the party that is blamed: keygen/round2.go erases the share in the stored message once it has added it, so that a second call after a recovered crash finds the share zero and blames a party whose message was right (C71_blame_refuted)."
  },
  {
   "property": "C72",
   "status": "proved",
   "theorems": [
    "C72_shift",
    "C72_fair"
   ],
   "note": "C72_shift (two draws in the same history) and C72_fair. The premise cannot be dropped: C38 shows the rogue that answers to a commitment it has seen."
  }
 ]
}