(** The texts of the errors of pkg/state, byte by byte.  Definitions only. *)
From Coq Require Import ZArith List String.
From Coq.Strings Require Import Byte.
From Verif Require Import ZField Primes Bytes Scalar Go Group Text State.
Import ListNotations.
Local Open Scope Z_scope.

Notation str := list_byte_of_string.

(** state/error.go:26-28 Error: fmt.Sprintf("party %d: round %d: %s", ...).  %d of a non-negative integer is its decimal form. *)
Definition Error_text (e : PError) : list byte :=
  str "party " ++ FormatUint (pe_PartyID e) ++ str ": round " ++ FormatUint (pe_RoundNumber e) ++ str ": " ++ str (pe_text e).

(** state/state.go:60-65 wrapError: "party %d, round %d: %w" or "party %d, round %d, culprit %d: %w" *)
Definition wrapError_text (w : WrappedError) : list byte :=
  str "party " ++ FormatUint (we_party w) ++ str ", round " ++ FormatUint (we_round w) ++
  match we_culprit w with Some c => str ", culprit " ++ FormatUint c | None => [] end ++ str ": " ++ str (we_text w).
