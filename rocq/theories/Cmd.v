(** cmd/keygen and cmd/signer: the command line tools, up to the JSON text (Json.v) and the printing. *)
From Coq Require Import ZArith Lia List Bool String.
From Coq.Strings Require Import Byte.
From stdpp Require Import base gmap list.
From Verif Require Import ZField Primes Bytes Scalar Go Group Party Poly Zk Eddsa Messages State Keygen Sign Helpers.
Import ListNotations.
Local Open Scope Z_scope.

(** What the run time decides in one of the three loops over the map of States: the order of the loop and, for
    each party, the clock and the orders of the two map loops of ProcessAll. *)
Record loop_env := mkLoopEnv { le_order : list ID; le_now : ID -> Z; le_sched : ID -> list ID; le_sched' : ID -> list ID }.

Section Drive.
  Context `{Gr : group_ops} {R : Type} (I : RoundI R).

  (** keygen.go:67-91, signer.go:82-106: one loop [for _, s := range states] that calls PartyRoutine; a nil *State
      is dereferenced.  An error is printed and main returns (Fail). *)
  Fixpoint drive_loop (v : loop_env) (ins : list (list byte)) (ks : list ID) (sts : gmap ID (option (State R))) (acc : list (list byte))
    : outcome (gmap ID (option (State R)) * list (list byte)) :=
    match ks with
    | [] => Ret (sts, acc)
    | id :: ks' =>
      match sts !! id with
      | Some (Some s) =>
        match PartyRoutine I (le_now v id) (le_sched v id) (le_sched' v id) ins s with
        | (s', Ret out) => drive_loop v ins ks' (<[id := Some s']> sts) (acc ++ out)
        | (_, Fail e) => Fail e
        | (_, Panics w) => Panics w
        end
      | _ => Panics "nil State"
      end
    end.
  Definition drive (v : loop_env) (ins : list (list byte)) (sts : gmap ID (option (State R))) :=
    drive_loop v ins (map_keys (le_order v) sts) sts [].
  (** The three loops: with no message, with the messages of the first loop, with those of the second. *)
  Definition drive3 (v : nat -> loop_env) (sts : gmap ID (option (State R))) : outcome (gmap ID (option (State R))) :=
    let* r1 := drive (v 0%nat) [] sts in
    let* r2 := drive (v 1%nat) (snd r1) (fst r1) in
    let* r3 := drive (v 2%nat) (snd r2) (fst r2) in
    Ret (fst r3).

  (** states[id].WaitForError() (state.go:249-254): blocks until the protocol is done. *)
  Definition wait (sts : gmap ID (option (State R))) (id : ID) : outcome (State R) :=
    match sts !! id with
    | Some (Some s) => if st_done s then match st_err s with Some _ => Fail "protocol error" | None => Ret s end
                       else Panics "all goroutines are asleep - deadlock!"
    | _ => Panics "nil State"
    end.
End Drive.

Section Cmd.
  Context `{Gr : group_ops} `{Hf : hash_fn}.

  (** keygen.go:119-122, signer.go:38-41 KeyGenOutput as JSON values; a pointer may be null. *)
  Record KeyGenFile := mkKeyGenFile { kf_Secrets : gmap ID (option (Z * list byte)); kf_Shares : option sharesJSON }.

  (** keygen.go:125-128 and json.MarshalIndent (134) *)
  Definition kf_encode (out : gmap ID SecretShare * Public) : KeyGenFile :=
    mkKeyGenFile ((fun sk => Some (share_MarshalJSON sk)) <$> fst out) (Some (pub_MarshalJSON (snd out))).

  Definition maxN : Z := 100. (* keygen.go:19 *)

  (** keygen.go:25-137 main, after the arguments [t], [n] (Go ints) are parsed.  [rg id]: the randomness of the party
      [id]; [now]: the clock at the creation of the States; [v]: the run time's choices in the three loops.
      Fail: main printed an error or the usage and wrote no file.  Ret: what is written to the file (before JSON).
      None: GenerateSet has not ended within [fuel] iterations. *)
  Definition keygen_cmd (fuel : nat) (rg : ID -> rng) (now : ID -> Z) (v : nat -> loop_env) (t n : Z) : option (outcome (gmap ID SecretShare * Public)) :=
    if (maxN <? n) || (n <=? t) then Some (Fail "usage") else
    match GenerateSet fuel (u16 n) with
    | None => None
    | Some partyIDs => Some (
      let* states := ofold (fun (acc : gmap ID (option (State kround))) id =>
          let* s := NewKeygenState (rg id) (now id) 0 id partyIDs (u16 t) in
          Ret (<[id := Some s]> acc)) ∅ partyIDs in
      if n <? 0 then Panics "makeslice: cap out of range" else
      let* states := drive3 keygen_round v states in
      match partyIDs with
      | [] => Panics "index out of range"
      | id0 :: _ =>
        let* s0 := wait states id0 in
        match ko_Public (kg_output s0) with
        | None => Panics "nil Public"
        | Some public =>
          let* secrets := ofold (fun (acc : gmap ID SecretShare) id =>
              let* s := wait states id in
              match ko_SecretKey (kg_output s), pub_Shares public !! id with
              | Some shareSecret, Some sharePublic => Ret (<[id := shareSecret]> acc)
              | _, _ => Panics "nil pointer"
              end) ∅ partyIDs in
          Ret (secrets, public)
        end
      end)
    end.

  (** json.Unmarshal of the file (signer.go:52-56): Secrets, then Shares. *)
  Definition decode_secrets (m : gmap ID (option (Z * list byte))) : outcome (gmap ID (option SecretShare)) :=
    ofold (fun (acc : gmap ID (option SecretShare)) kv =>
      match snd kv with
      | None => Ret (<[fst kv := None]> acc)
      | Some j => let* sk := share_UnmarshalJSON j in Ret (<[fst kv := Some sk]> acc)
      end) ∅ (map_to_list m).
  Definition kf_decode (sched : list ID) (f : KeyGenFile) : outcome (gmap ID (option SecretShare) * option Public) :=
    let* secrets := decode_secrets (kf_Secrets f) in
    match kf_Shares f with
    | None => Ret (secrets, None)
    | Some j => let* p := pub_UnmarshalJSON sched j in Ret (secrets, Some p)
    end.

  (** signer.go:58-125 main, after the file is decoded ([dec]).  [edv pk m sig] is crypto/ed25519.Verify.  The error of
      NewSignState is not reported: the State stays nil.  Ret: the signature that is printed. *)
  Definition signer_run (edv : list byte -> list byte -> list byte -> bool) (fuel : nat) (rg : ID -> rng) (now : ID -> Z)
      (v : nat -> loop_env) (dec : outcome (gmap ID (option SecretShare) * option Public)) (message : list byte) : option (outcome Signature) :=
    match dec with
    | Fail e => Some (Fail e)
    | Panics w => Some (Panics w)
    | Ret (_, None) => Some (Panics "nil Public")
    | Ret (secretShares, Some publicShares) =>
      match GenerateSet fuel (N_ids (pub_PartyIDs publicShares)) with
      | None => None
      | Some partyIDs => Some (
        let* states := ofold (fun (acc : gmap ID (option (State sround))) id =>
            match secretShares !! id with
            | Some (Some sk) =>
              match NewSignState (rg id) (now id) 0 partyIDs sk publicShares message with
              | Ret s => Ret (<[id := Some s]> acc)
              | Fail _ => Ret (<[id := None]> acc)
              | Panics w => Panics w
              end
            | _ => Panics "nil SecretShare"
            end) ∅ partyIDs in
        let pk := pub_GroupKey publicShares in
        let* states := drive3 sign_round v states in
        match partyIDs with
        | [] => Panics "index out of range"
        | id0 :: _ =>
          match states !! id0 with
          | Some (Some s) =>
            match sg_output s with
            | None => Fail "null signature"
            | Some sig =>
              if negb (edv (pk_ToEd25519 pk) message (sig_ToEd25519 sig)) then Fail "signature verification failed (ed25519)" else
              if negb (Verify pk message sig) then Fail "signature verification failed" else Ret sig
            end
          | _ => Panics "nil Output"
          end
        end)
      end
    end.
  (** signer.go:22-125 main, after the file is read, with its content at the level of JSON values. *)
  Definition signer_cmd (edv : list byte -> list byte -> list byte -> bool) (fuel : nat) (sched : list ID) (rg : ID -> rng) (now : ID -> Z)
      (v : nat -> loop_env) (f : KeyGenFile) (message : list byte) : option (outcome Signature) :=
    signer_run edv fuel rg now v (kf_decode sched f) message.
End Cmd.
