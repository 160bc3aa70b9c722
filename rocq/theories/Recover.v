(** A caller that recovers from a panic of ProcessAll.  The mutex is released by a deferred Unlock (state.go:136-137), so the State can be used
    again; it is then what the calls of ProcessMessage before the panic have made of it. *)
From Coq Require Import ZArith List Bool String.
From stdpp Require Import base gmap list.
From Verif Require Import ZField Primes Bytes Scalar Go Group Party Poly Zk Eddsa Messages State Keygen Sign.
Import ListNotations.
Local Open Scope Z_scope.

Section Recover.
  Context `{Gr : group_ops} {R : Type} (I : RoundI R).
  (** What a call of ProcessMessage that returns nil leaves in the message. *)
  Context (after : R -> Message -> Message).
  Definition touch (r : R) (id : ID) (received : gmap ID (option Message)) : gmap ID (option Message) :=
    match received !! id with Some (Some m) => <[id := Some (after r m)]> received | _ => received end.

  (** state.go:148-153: the round and the stored messages when one of the calls of ProcessMessage panics.  That call itself has changed nothing:
      in keygen/round1.go:10-25, keygen/round2.go:13-29, sign/round1.go:16-26 and sign/round2.go:17-31 what can panic comes before the first
      assignment (apart from the nil CommitmentsSum, which round 0 has set). *)
  Fixpoint processed (r : R) (received : gmap ID (option Message)) (ids : list ID) : R * gmap ID (option Message) :=
    match ids with
    | [] => (r, received)
    | id :: ids' =>
      match r_process I r (default None (received !! id)) with
      | ROk r' _ => processed r' (touch r id received) ids'
      | _ => (r, received)
      end
    end.

  (** state.go:135-191 ProcessAll with a caller that recovers when a call of ProcessMessage panics (None): no message has been removed.
      A panic of GenerateMessages is not recovered from here. *)
  Definition ProcessAll_rec (o o' : list ID) (s : State R) : outcome (State R * option (list Message)) :=
    let ks := map_keys o (st_received s) in
    let go := obind (ProcessAll I o o' s) (fun r => Ret (fst r, Some (snd r))) in
    if st_done s then go else
    if negb (Z.of_nat (size (st_received s)) =? u16 (N_ids (r_ids I (st_round s)) - 1)) then go else
    match process_loop I (st_round s) (st_received s) ks with
    | RPanic _ =>
      let rr := processed (st_round s) (st_received s) ks in
      Ret (mkState (st_accepted s) (snd rr) (st_queue s) (st_timer s) (st_roundNumber s) (fst rr) (st_closed s) (st_done s) (st_err s), None)
    | _ => go
    end.

  (** The histories of State.v with such a caller: the State, the messages returned, and whether a call panicked. *)
  Definition rec_step (s : State R) (e : event) : outcome (State R * option (list Message)) :=
    match e with
    | EProcess o o' => ProcessAll_rec o o' s
    | _ => obind (step I s e) (fun r => Ret (fst r, Some (snd r)))
    end.
  Fixpoint rec_run (s : State R) (es : list event) : outcome (State R * list Message * bool) :=
    match es with
    | [] => Ret (s, [], false)
    | e :: es' =>
      obind (rec_step s e) (fun r1 => obind (rec_run (fst r1) es') (fun r2 =>
        Ret (fst (fst r2), default [] (snd r1) ++ snd (fst r2), match snd r1 with None => true | _ => snd r2 end)))
    end.
End Recover.

Section Protocols.
  Context `{Gr : group_ops} `{Hf : hash_fn}.
  (** keygen/round2.go:25-26: the share is erased in the message; the other rounds leave their messages as they are. *)
  Definition kg_after (k : kround) (m : Message) : Message :=
    if Nat.eqb (kr_no k) 2 then
      match m_KeyGen2 m with
      | Some _ => mkMessage (m_Header m) (m_KeyGen1 m) (Some (mkKeyGen2 f0)) (m_Sign1 m) (m_Sign2 m)
      | None => m
      end
    else m.
  Definition sg_after (s : sround) (m : Message) : Message := m.
  Definition keygen_rec_run := rec_run keygen_round kg_after.
  Definition sign_rec_run := rec_run sign_round sg_after.
End Protocols.
