(** pkg/state: the State that drives the rounds of a protocol. *)
From Coq Require Import ZArith Lia List Bool String.
From stdpp Require Import base gmap list.
From Verif Require Import ZField Primes Bytes Scalar Go Group Party Poly Zk Eddsa Messages.
Import ListNotations.
Local Open Scope Z_scope.

(** state/error.go:11-15 Error; [pe_text] is the wrapped error's text. *)
Record PError := mkPError { pe_PartyID : ID; pe_RoundNumber : Z; pe_text : string }.

(** The text built by state.go:60-65 wrapError, as the values put in its positions
    "party %d, round %d[, culprit %d]: %w". *)
Record WrappedError := mkWrapped { we_party : Z; we_round : Z; we_culprit : option Z; we_text : string }.

(** Result of a Round method: new round value and result, or an *Error (culprit, text), or a panic.
    The round object is a pointer, so it may have been modified also when an error is returned. *)
Inductive rres (R A : Type) : Type :=
| ROk (r : R) (a : A)
| RErr (r : R) (culprit : ID) (text : string)
| RPanic (why : string).
Arguments ROk {R A} _ _.
Arguments RErr {R A} _ _ _.
Arguments RPanic {R A} _.

(** state/round.go:37-75 the Round interface.  [r_process] gets the message pointer (None = nil);
    [r_generate] gets the order in which maps are iterated. *)
Record RoundI `{Gr : group_ops} (R : Type) := mkRoundI {
  r_self : R -> ID;
  r_ids : R -> list ID;
  r_accepted : R -> list Z;
  r_process : R -> option Message -> rres R unit;
  r_generate : list ID -> R -> rres R (list Message);
  r_next : R -> option R;
  r_reset : R -> outcome R
}.
Arguments r_self {Gr R} _ _.
Arguments r_ids {Gr R} _ _.
Arguments r_accepted {Gr R} _ _.
Arguments r_process {Gr R} _ _ _.
Arguments r_generate {Gr R} _ _ _.
Arguments r_next {Gr R} _ _.
Arguments r_reset {Gr R} _ _.

Section State.
  Context `{Gr : group_ops} {R : Type} (I : RoundI R).

  (** state.go:265-268 timer, with the run-time's view of it: [tm_d] the duration (no timer if <= 0),
      [tm_deadline] the instant at which it fires (None when stopped or already fired),
      [tm_pending] the callbacks started but still waiting for the mutex. *)
  Record timer := mkTimer { tm_d : Z; tm_deadline : option Z; tm_pending : nat }.

  (** state.go:17-33.  [st_closed] counts how often doneChan was closed (a second close panics). *)
  Record State := mkState {
    st_accepted : list Z;
    st_received : gmap ID (option Message);
    st_queue : list Message;
    st_timer : timer;
    st_roundNumber : Z;
    st_round : R;
    st_closed : nat;
    st_done : bool;
    st_err : option PError
  }.

  (** state.go:270-279 newTimer *)
  Definition newTimer (now d : Z) : timer := mkTimer d (if 0 <? d then Some (now + d) else None) 0.
  (** state.go:281-286 ackMessage: Stop then Reset.  A callback already started is not cancelled. *)
  Definition ackMessage (now : Z) (t : timer) : timer :=
    if 0 <? tm_d t then mkTimer (tm_d t) (Some (now + tm_d t)) (tm_pending t) else t.
  (** state.go:288-292 stopTimer *)
  Definition stopTimer (t : timer) : timer := mkTimer (tm_d t) None (tm_pending t).

  (** state.go:35-58 NewBaseState *)
  Definition NewBaseState (now timeout : Z) (r : R) : State :=
    mkState (r_accepted I r)
      (fold_left (fun m id => if id =? r_self I r then m else <[id := None]> m) (r_ids I r) ∅)
      [] (newTimer now timeout) 0 r 0 false None.

  (** state.go:60-65 wrapError: with a culprit the code passes (culprit, roundNumber) to
      "round %d, culprit %d". *)
  Definition wrapError (s : State) (text : string) (culprit : ID) : WrappedError :=
    if culprit =? 0 then mkWrapped (r_self I (st_round s)) (st_roundNumber s) None text
    else mkWrapped (r_self I (st_round s)) culprit (Some (st_roundNumber s)) text.

  (** state.go:193-200 isAcceptedType *)
  Definition isAcceptedType (s : State) (t : Z) : bool := existsb (Z.eqb t) (st_accepted s).

  (** state.go:80-127 HandleMessage (for a non-nil message). *)
  Definition HandleMessage (now : Z) (s : State) (msg : Message) : State * option WrappedError :=
    let senderID := m_From msg in
    let fail text := (s, Some (wrapError s text senderID)) in
    if st_done s then fail "protocol already finished"%string else
    match st_accepted s with
    | [] => fail "no more messages being accepted"%string
    | currentType :: _ =>
      if senderID =? r_self I (st_round s) then (s, None) else
      if negb (IsBroadcast (m_Header msg)) && negb (m_To msg =? r_self I (st_round s)) then (s, None) else
      if negb (Contains (r_ids I (st_round s)) senderID) then fail "sender is not a party"%string else
      match st_received s !! senderID with
      | Some _ => fail "message from this party was already received"%string
      | None =>
        if negb (isAcceptedType s (m_Type msg)) then fail "message type is not accepted for this type of round"%string else
        let t := ackMessage now (st_timer s) in
        if m_Type msg =? currentType
        then (mkState (st_accepted s) (<[senderID := Some msg]> (st_received s)) (st_queue s) t
                (st_roundNumber s) (st_round s) (st_closed s) (st_done s) (st_err s), None)
        else (mkState (st_accepted s) (st_received s) (st_queue s ++ [msg]) t
                (st_roundNumber s) (st_round s) (st_closed s) (st_done s) (st_err s), None)
      end
    end.

  (** state.go:205-213 finish *)
  Definition finish (s : State) : outcome State :=
    if st_done s then Ret s else
    let* r := r_reset I (st_round s) in
    match st_closed s with
    | O => Ret (mkState (st_accepted s) (st_received s) (st_queue s) (stopTimer (st_timer s))
                 (st_roundNumber s) r 1 true (st_err s))
    | S _ => Panics "close of closed channel"
    end.

  (** state.go:215-227 reportError *)
  Definition reportError (s : State) (culprit : ID) (text : string) : outcome State :=
    if st_done s then Ret s else
    let e := match st_err s with
             | None => Some (mkPError culprit (st_roundNumber s) text)
             | Some e => Some e
             end in
    finish (mkState (st_accepted s) (st_received s) (st_queue s) (st_timer s)
              (st_roundNumber s) (st_round s) (st_closed s) (st_done s) e).

  (** state.go:148-153: feed the stored messages to the round in the order [ids]. *)
  Fixpoint process_loop (r : R) (received : gmap ID (option Message)) (ids : list ID) : rres R unit :=
    match ids with
    | [] => ROk r tt
    | id :: ids' =>
      match r_process I r (default None (received !! id)) with
      | ROk r' _ => process_loop r' received ids'
      | RErr r' c t => RErr r' c t
      | RPanic w => RPanic w
      end
    end.

  (** state.go:166-179: split the queue into the messages of the current type (stored, later ones
      overwriting earlier ones of the same sender) and the rest. *)
  Definition take_queue (currentType : Z) (queue : list Message) (received : gmap ID (option Message)) :=
    (fold_left (fun m msg => if m_Type msg =? currentType then <[m_From msg := Some msg]> m else m) queue received,
     List.filter (fun msg => negb (m_Type msg =? currentType)) queue).

  Definition set_round (s : State) (r : R) : State :=
    mkState (st_accepted s) (st_received s) (st_queue s) (st_timer s) (st_roundNumber s) r (st_closed s) (st_done s) (st_err s).

  (** state.go:135-191 ProcessAll.  [sched] is the order of the map iteration over the received messages,
      [sched'] the order of map iterations inside GenerateMessages. *)
  Definition ProcessAll (sched sched' : list ID) (s : State) : outcome (State * list Message) :=
    if st_done s then Ret (s, []) else
    if negb (Z.of_nat (size (st_received s)) =? u16 (N_ids (r_ids I (st_round s)) - 1)) then Ret (s, []) else
    match process_loop (st_round s) (st_received s) (map_keys sched (st_received s)) with
    | RPanic w => Panics w
    | RErr r c t => let* s' := reportError (set_round s r) c t in Ret (s', [])
    | ROk r _ =>
      let s1 := mkState (st_accepted s) ∅ (st_queue s) (st_timer s) (st_roundNumber s) r (st_closed s) (st_done s) (st_err s) in
      match r_generate I sched' r with
      | RPanic w => Panics w
      | RErr r' c t => let* s' := reportError (set_round s1 r') c t in Ret (s', [])
      | ROk r' newMessages =>
        match st_accepted s with
        | [] => Panics "slice bounds out of range [1:0]"
        | _ :: accepted' =>
          let '(received', queue') :=
            match accepted' with [] => (∅, st_queue s) | ct :: _ => take_queue ct (st_queue s) ∅ end in
          let s2 := mkState accepted' received' queue' (st_timer s) (st_roundNumber s) r' (st_closed s) (st_done s) (st_err s) in
          match r_next I r' with
          | None => let* s3 := finish s2 in Ret (s3, newMessages)
          | Some nr => Ret (mkState accepted' received' queue' (st_timer s) (st_roundNumber s + 1) nr
                              (st_closed s) (st_done s) (st_err s), newMessages)
          end
        end
      end
    end.

  (** The runtime's timer: at its deadline the timer starts the callback goroutine. *)
  Definition timerExpire (now : Z) (s : State) : State :=
    match tm_deadline (st_timer s) with
    | Some dl => if dl <=? now
                 then mkState (st_accepted s) (st_received s) (st_queue s)
                        (mkTimer (tm_d (st_timer s)) None (S (tm_pending (st_timer s))))
                        (st_roundNumber s) (st_round s) (st_closed s) (st_done s) (st_err s)
                 else s
    | None => s
    end.

  (** state.go:45-49: the callback, once it gets the mutex. *)
  Definition timerCallback (s : State) : outcome State :=
    match tm_pending (st_timer s) with
    | O => Ret s
    | S k =>
      reportError (mkState (st_accepted s) (st_received s) (st_queue s)
                    (mkTimer (tm_d (st_timer s)) (tm_deadline (st_timer s)) k)
                    (st_roundNumber s) (st_round s) (st_closed s) (st_done s) (st_err s)) 0 "message timeout"
    end.

  (** ** Histories: any finite sequence of calls. *)
  Inductive event :=
  | EHandle (now : Z) (m : Message)        (* HandleMessage *)
  | EProcess (sched sched' : list ID)      (* ProcessAll *)
  | EExpire (now : Z)                      (* the timer reaches its deadline *)
  | ECallback.                             (* the timer callback runs *)

  Definition step (s : State) (e : event) : outcome (State * list Message) :=
    match e with
    | EHandle now m => Ret (fst (HandleMessage now s m), [])
    | EProcess o o' => ProcessAll o o' s
    | EExpire now => Ret (timerExpire now s, [])
    | ECallback => let* s' := timerCallback s in Ret (s', [])
    end.

  (** Run a history; the messages emitted are collected in order. *)
  Fixpoint run (s : State) (es : list event) : outcome (State * list Message) :=
    match es with
    | [] => Ret (s, [])
    | e :: es' =>
      obind (step s e) (fun r1 =>
      obind (run (fst r1) es') (fun r2 =>
      Ret (fst r2, snd r1 ++ snd r2)))
    end.

  (** state.go:239-259 Err, IsFinished *)
  Definition Err (s : State) : option PError := st_err s.
  Definition IsFinished (s : State) : bool := st_done s.
End State.
Arguments State {Gr} R.
Arguments event {Gr}.
