(** The message loops that accompany the library: example/main.go and test/internal/communication. *)
From Coq Require Import ZArith Lia List Bool String.
From stdpp Require Import base gmap list.
From Verif Require Import Go Group Party Messages State Net.
Import ListNotations.
Local Open Scope Z_scope.

Section Loops.
  Context `{Gr : group_ops} {R : Type} (I : RoundI R).

  (** What a loop meets: a message comes in (with the clock and the iteration orders of the ProcessAll that may follow), or the timer
      of the State runs. *)
  Inductive levent :=
  | LMsg (now : Z) (sched sched' : list ID) (m : Message)
  | LExpire (now : Z)
  | LCallback.

  (** example/main.go:20-48 MessageRoutine, one turn: a message that HandleMessage refuses is logged and skipped (lines 25-29), after
      any other ProcessAll is called and its messages go out (lines 33-35).  The case [<-s.Done()] (lines 37-45) ends the loop; a
      turn after that is never made, which is modelled by turns that do nothing in a State that is done. *)
  Definition routine_step (s : State R) (e : levent) : outcome (State R * list Message) :=
    match e with
    | LMsg now sched sched' m =>
      match HandleMessage I now s m with
      | (s', Some _) => Ret (s', [])
      | (s', None) => ProcessAll I sched sched' s'
      end
    | LExpire now => step I s (EExpire now)
    | LCallback => step I s ECallback
    end.
  Fixpoint routine (s : State R) (es : list levent) : outcome (State R * list Message) :=
    match es with
    | [] => Ret (s, [])
    | e :: es' =>
      obind (routine_step s e) (fun r1 =>
      obind (routine (fst r1) es') (fun r2 =>
      Ret (fst r2, snd r1 ++ snd r2)))
    end.

  (** handler.go:34-55 HandleMessage, one turn for a message: its error is ignored (lines 43-45), ProcessAll is called in any case
      (line 46).  Before the loop ProcessAll is called once (line 35). *)
  Definition handler_msg (now : Z) (sched sched' : list ID) (s : State R) (m : Message) : outcome (State R * list Message) :=
    ProcessAll I sched sched' (fst (HandleMessage I now s m)).

  (** The Handlers of all parties and the messages on their way: [hc_chan j i] those that [j] sent to [i], oldest first.  The Channel
      transport (channel.go) has one Go channel for every receiver, so the messages of one sender arrive in the order sent, and those
      of different senders are mixed in any way. *)
  Record hconfig := mkHconfig { hc_state : Z -> State R; hc_started : Z -> bool; hc_chan : Z -> Z -> list Message }.

  (** channel.go:20-35 Send and udp.go:72-90, for all messages of one ProcessAll (handler.go:57-66): a broadcast goes to everybody but
      the sender, another message to the party it is addressed to.  Not modelled: a send that blocks because the channel is full (theorems
      C47_keygen_capacity and C47_sign_capacity show that the buffers of local_constructors.go:34-43 suffice). *)
  Definition hc_push (ids : list ID) (i : Z) (out : list Message) (chan : Z -> Z -> list Message) : Z -> Z -> list Message :=
    fun j k => if (j =? i) && negb (k =? i) && existsb (Z.eqb k) ids
               then chan j k ++ List.filter (fun m => IsBroadcast (m_Header m) || (m_To m =? k)) out else chan j k.
  (** Take what is in front of the rest out of a channel. *)
  Definition hc_pop (j i : Z) (rest : list Message) (chan : Z -> Z -> list Message) : Z -> Z -> list Message :=
    fun a b => if (a =? j) && (b =? i) then rest else chan a b.
  Definition hc_put (i : Z) (s : State R) (st : Z -> State R) : Z -> State R := fun j => if j =? i then s else st j.

  (** What a step was: the first ProcessAll of a party, or a message of [j] given to [i] and whether a party that is still running lost it,
      because HandleMessage returned an error. *)
  Inductive hlabel := HStart (i : Z) | HRecv (j i : Z) (lost : bool).

  (** One step.  With [fifo] the oldest message of a sender is taken (the Channel transport), else any (UDP, which may reorder; it may
      also lose or duplicate messages, which is not a step here).  The object handled is the one decoded from the bytes of the one sent. *)
  Inductive h_step (fifo : bool) (ids : list ID) (c : hconfig) : hlabel -> hconfig -> Prop :=
  | h_start i sched sched' s' out : In i ids -> hc_started c i = false -> ProcessAll I sched sched' (hc_state c i) = Ret (s', out) ->
      h_step fifo ids c (HStart i)
        (mkHconfig (hc_put i s' (hc_state c)) (fun j => (j =? i) || hc_started c j) (hc_push ids i out (hc_chan c)))
  | h_recv j i l1 m l2 m' now sched sched' s' out : In i ids -> In j ids -> hc_started c i = true ->
      hc_chan c j i = l1 ++ m :: l2 -> (fifo = true -> l1 = []) -> same_msg m m' ->
      handler_msg now sched sched' (hc_state c i) m' = Ret (s', out) ->
      h_step fifo ids c (HRecv j i (negb (st_done (hc_state c i)) && match snd (HandleMessage I now (hc_state c i) m') with Some _ => true | None => false end))
        (mkHconfig (hc_put i s' (hc_state c)) (hc_started c) (hc_push ids i out (hc_pop j i (l1 ++ l2) (hc_chan c)))).
  Inductive h_trace (fifo : bool) (ids : list ID) (c0 : hconfig) : list hlabel -> hconfig -> Prop :=
  | ht_nil : h_trace fifo ids c0 [] c0
  | ht_snoc ls c l c' : h_trace fifo ids c0 ls c -> h_step fifo ids c l c' -> h_trace fifo ids c0 (ls ++ [l]) c'.

  (** All States new and nothing sent. *)
  Definition h_init (s0 : Z -> State R) : hconfig := mkHconfig s0 (fun _ => false) (fun _ _ => []).
  (** Nothing more happens: everybody has started, and who has not finished has no message left to read. *)
  Definition h_rests (ids : list ID) (c : hconfig) : Prop :=
    forall i, In i ids -> hc_started c i = true /\ (st_done (hc_state c i) = true \/ forall j, In j ids -> hc_chan c j i = []).
  (** No message was refused by a party that was still running. *)
  Definition none_lost (ls : list hlabel) : Prop := forall j i, ~ In (HRecv j i true) ls.

  (** The same as a program, for concrete executions: the k-th message on its way from [j] to [i], clock 0, maps in key order. *)
  Inductive hact := AStart (i : Z) | ARecv (j i : Z) (k : nat).
  Definition h_exec1 (ids : list ID) (c : hconfig) (a : hact) : option hconfig :=
    match a with
    | AStart i =>
      if existsb (Z.eqb i) ids && negb (hc_started c i) then
        match ProcessAll I [] [] (hc_state c i) with
        | Ret (s', out) => Some (mkHconfig (hc_put i s' (hc_state c)) (fun j => (j =? i) || hc_started c j) (hc_push ids i out (hc_chan c)))
        | _ => None
        end
      else None
    | ARecv j i k =>
      if existsb (Z.eqb i) ids && existsb (Z.eqb j) ids && hc_started c i then
        match nth_error (hc_chan c j i) k with
        | Some m =>
          match handler_msg 0 [] [] (hc_state c i) m with
          | Ret (s', out) => Some (mkHconfig (hc_put i s' (hc_state c)) (hc_started c)
              (hc_push ids i out (hc_pop j i (firstn k (hc_chan c j i) ++ skipn (S k) (hc_chan c j i)) (hc_chan c))))
          | _ => None
          end
        | None => None
        end
      else None
    end.
  Fixpoint h_exec (ids : list ID) (c : hconfig) (acts : list hact) : option hconfig :=
    match acts with
    | [] => Some c
    | a :: acts' => match h_exec1 ids c a with Some c' => h_exec ids c' acts' | None => None end
    end.
End Loops.
Arguments levent {Gr}.
