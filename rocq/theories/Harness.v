(** The test program test/frosted.go and what UDP adds to the transport (test/internal/communication/udp.go). *)
From Coq Require Import ZArith Lia List Bool String.
From Coq.Strings Require Import Byte.
From stdpp Require Import base gmap list.
From Verif Require Import ZField Primes Bytes Scalar Go Group Party Poly Zk Eddsa Messages State Keygen Sign Cmd Loops.
Import ListNotations.
Local Open Scope Z_scope.

Section Harness.
  Context `{Gr : group_ops} `{Hf : hash_fn}.

  (** frosted.go:13-22 Setup.  party.Size and party.ID are 16 bits wide; [copy] into T+1 zeros. *)
  Definition Setup (N T : Z) : list byte * list ID * list ID :=
    let keygenIDs := map (fun k => u16 (42 + Z.of_nat k)) (seq 0 (Z.to_nat N)) in
    let count := Z.to_nat (u16 (T + 1)) in
    (list_byte_of_string "hello", keygenIDs, firstn count keygenIDs ++ repeat 0 (count - List.length keygenIDs)).

  (** frosted.go:26-32 with handler.go:68-83 NewKeyGenHandler: the States of all Handlers, or the error of the first that has none.  The
      goroutines that run the Handlers are the subject of Loops.v. *)
  Definition keygen_handlers (rg : ID -> rng) (now : ID -> Z) (timeout : Z) (T : Z) (keygenIDs : list ID) : outcome (gmap ID (State kround)) :=
    ofold (fun (acc : gmap ID (State kround)) id =>
      let* s := NewKeygenState (rg id) (now id) timeout id (NewIDSlice keygenIDs) T in Ret (<[id := s]> acc)) ∅ keygenIDs.
  (** state.go:249-254 WaitForError: blocks (None) until the State is done. *)
  Definition wait_error {R} (s : State R) : option (option PError) := if st_done s then Some (st_err s) else None.
  (** frosted.go:34-43: [order] is the iteration order of the map of Handlers, [fin] what has become of their States.  None: blocks for ever. *)
  Fixpoint collect_keygen (order : list ID) (fin : ID -> State kround) (public : option Public) (secrets : gmap ID (option SecretShare))
    : option (outcome (option Public * gmap ID (option SecretShare))) :=
    match order with
    | [] => Some (Ret (public, secrets))
    | id :: order' =>
      match wait_error (fin id) with
      | None => None
      | Some (Some _) => Some (Fail "keygen")
      | Some None => collect_keygen order' fin (ko_Public (kg_output (fin id))) (<[id := ko_SecretKey (kg_output (fin id))]> secrets)
      end
    end.

  (** frosted.go:47-55 with handler.go:85-100 NewSignHandler.  Both the key data and a share may be nil. *)
  Definition sign_handlers (rg : ID -> rng) (now : ID -> Z) (timeout : Z) (signIDs : list ID) (shares : option Public) (secrets : gmap ID (option SecretShare))
      (message : list byte) : outcome (gmap ID (State sround)) :=
    match shares with
    | None => Panics "nil Public"
    | Some public =>
      ofold (fun (acc : gmap ID (State sround)) id =>
        match secrets !! id with
        | Some (Some sk) => let* s := NewSignState (rg id) (now id) timeout (NewIDSlice signIDs) sk public message in Ret (<[id := s]> acc)
        | _ => Panics "nil SecretShare"
        end) ∅ signIDs
    end.
  (** frosted.go:57-73: the number of failures.  A signature that is nil counts as none. *)
  Fixpoint count_failures (edv : list byte -> list byte -> list byte -> bool) (groupKey : G) (message : list byte) (order : list ID) (fin : ID -> State sround) (failures : Z) : option Z :=
    match order with
    | [] => Some failures
    | id :: order' =>
      match wait_error (fin id) with
      | None => None
      | Some (Some _) => count_failures edv groupKey message order' fin (failures + 1)
      | Some None =>
        let bad := match sg_output (fin id) with
                   | Some s => negb (Verify groupKey message s) || negb (edv (pk_ToEd25519 groupKey) message (sig_ToEd25519 s))
                   | None => false
                   end in
        count_failures edv groupKey message order' fin (if bad then failures + 1 else failures)
      end
    end.
  Definition collect_sign edv (groupKey : G) (message : list byte) (order : list ID) (fin : ID -> State sround) : option (outcome unit) :=
    match count_failures edv groupKey message order fin 0 with
    | None => None
    | Some n => Some (if n =? 0 then Ret tt else Fail "signatures verifications failed")
    end.

  (** udp.go:43-70 Start: what one datagram becomes.  The read is cut to the buffer; after a decoding error the message, whose fields were
      not assigned, is passed on all the same (lines 63-67). *)
  Definition udp_buffer (peers : nat) : nat := (peers + 2) * 64.
  Definition udp_receive (peers : nat) (datagram : list byte) : outcome Message :=
    match msg_UnmarshalBinary zero_message (firstn (udp_buffer peers) datagram) with
    | Fail _ => Ret zero_message
    | r => r
    end.
End Harness.
