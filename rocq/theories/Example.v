(** main of example/main.go. *)
From Coq Require Import ZArith Lia List Bool String.
From Coq.Strings Require Import Byte.
From stdpp Require Import base gmap list.
From Verif Require Import ZField Bytes Scalar Go Group Party Poly Zk Eddsa Messages State Keygen Sign Loops.
Import ListNotations.
Local Open Scope Z_scope.

Section Example.
  Context `{Gr : group_ops} `{Hf : hash_fn}.

  (** example/main.go:61 and 83 (go MessageRoutine) with 64 and 86 (WaitForError): the events [es] are what the loop met until then.
      [None]: main still waits.  After an abort the loop calls log.Panicln (lines 41-43), which ends the program; main, which ignores
      the error (lines 65-67, 87-89), may get a few instructions further before that. *)
  Definition await {R} (I : RoundI R) (s0 : State R) (es : list levent) : option (outcome (State R)) :=
    match routine I s0 es with
    | Ret (s, _) => if st_done s then Some (match st_err s with Some _ => Panics "protocol aborted" | None => Ret s end) else None
    | Fail e => Some (Fail e)
    | Panics w => Some (Panics w)
    end.

  (** example/main.go:51-53, 73, 76 *)
  Definition ex_self : ID := 1.
  Definition ex_threshold : Z := 2.
  Definition ex_set : list ID := NewIDSlice [ex_self; 2; 42; 8].
  Definition ex_message : list byte := [x65; x78; x61; x6d; x70; x6c; x65].  (* "example" *)
  Definition ex_signers : list ID := NewIDSlice [ex_self; 2; 8].
  Definition second : Z := 1000000000.

  (** example/main.go:50-96 main.  [es] and [es'] are what the two message loops meet, [edv] is crypto/ed25519.Verify; an error of
      NewKeygenState or NewSignState is a panic (lines 56-58, 78-80).  The result is what ed25519.Verify said (line 93); false is only logged. *)
  Definition ex_main (edv : list byte -> list byte -> list byte -> bool) (rg rg' : rng) (now now' : Z) (es es' : list levent) : option (outcome bool) :=
    match NewKeygenState rg now (2 * second) ex_self ex_set ex_threshold with
    | Ret keygenState =>
      match await keygen_round keygenState es with
      | None => None
      | Some (Ret ks) =>
        match ko_Public (kg_output ks), ko_SecretKey (kg_output ks) with
        | Some public, Some secretShare =>
          match NewSignState rg' now' (1 * second) ex_signers secretShare public ex_message with
          | Ret signState =>
            match await sign_round signState es' with
            | None => None
            | Some (Ret ss) =>
              match sg_output ss with
              | Some groupSig => Some (Ret (edv (pk_ToEd25519 (pub_GroupKey public)) ex_message (sig_ToEd25519 groupSig)))
              | None => Some (Panics "invalid memory address or nil pointer dereference")
              end
            | Some (Fail e) => Some (Fail e)
            | Some (Panics w) => Some (Panics w)
            end
          | Fail e => Some (Panics e)
          | Panics w => Some (Panics w)
          end
        | _, _ => Some (Panics "invalid memory address or nil pointer dereference")
        end
      | Some (Fail e) => Some (Fail e)
      | Some (Panics w) => Some (Panics w)
      end
    | Fail e => Some (Panics e)
    | Panics w => Some (Panics w)
    end.
End Example.
