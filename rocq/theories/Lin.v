(** Several goroutines on one State, at the level of single accesses to its fields.  The other files treat a call as one step;
    here the methods are programs, statement by statement, that other goroutines, the timer and readers without the mutex can
    interrupt anywhere.  Memory is sequentially consistent here; Conc.v has the Go memory model for the readers.  A call of a method of
    Round is one access: only the goroutine that holds the mutex has the round. *)
From Coq Require Import ZArith Lia List Bool String.
From stdpp Require Import base gmap list.
From Verif Require Import ZField Primes Bytes Scalar Go Group Party Poly Zk Eddsa Messages State.
Import ListNotations.
Local Open Scope Z_scope.

Section Lin.
  Context `{Gr : group_ops} {R : Type} (I : RoundI R).
  Notation St := (State R).

  (** A program: accesses to the shared State, each of which may depend on what the earlier ones returned. *)
  Inductive mp (A : Type) : Type :=
  | MRet (a : A)
  | MAct {X : Type} (f : St -> outcome (St * X)) (k : X -> mp A).
  Arguments MRet {A} _.
  Arguments MAct {A X} _ _.
  Definition rd {A X} (g : St -> X) (k : X -> mp A) : mp A := MAct (fun s => Ret (s, g s)) k.
  Definition wr {A} (u : St -> St) (k : mp A) : mp A := MAct (fun s => Ret (u s, tt)) (fun _ => k).

  (** Assignments to the fields. *)
  Definition set_received (s : St) m := mkState (st_accepted s) m (st_queue s) (st_timer s) (st_roundNumber s) (st_round s) (st_closed s) (st_done s) (st_err s).
  Definition set_queue (s : St) q := mkState (st_accepted s) (st_received s) q (st_timer s) (st_roundNumber s) (st_round s) (st_closed s) (st_done s) (st_err s).
  Definition set_timer (s : St) t := mkState (st_accepted s) (st_received s) (st_queue s) t (st_roundNumber s) (st_round s) (st_closed s) (st_done s) (st_err s).
  Definition set_number (s : St) n := mkState (st_accepted s) (st_received s) (st_queue s) (st_timer s) n (st_round s) (st_closed s) (st_done s) (st_err s).
  Definition set_done (s : St) := mkState (st_accepted s) (st_received s) (st_queue s) (st_timer s) (st_roundNumber s) (st_round s) (st_closed s) true (st_err s).
  Definition set_err (s : St) e := mkState (st_accepted s) (st_received s) (st_queue s) (st_timer s) (st_roundNumber s) (st_round s) (st_closed s) (st_done s) e.
  Definition set_accepted (s : St) l := mkState l (st_received s) (st_queue s) (st_timer s) (st_roundNumber s) (st_round s) (st_closed s) (st_done s) (st_err s).
  Definition set_closed (s : St) n := mkState (st_accepted s) (st_received s) (st_queue s) (st_timer s) (st_roundNumber s) (st_round s) n (st_done s) (st_err s).

  (** state.go:281-286 ackMessage: t.t.Stop(), then t.t.Reset(t.d), at the time [now]. *)
  Definition stop_act (s : St) : outcome (St * unit) := Ret (set_timer s (stopTimer (st_timer s)), tt).
  Definition reset_act (now : Z) (s : St) : outcome (St * unit) :=
    Ret (set_timer s (mkTimer (tm_d (st_timer s)) (Some (now + tm_d (st_timer s))) (tm_pending (st_timer s))), tt).
  Definition m_ack {A} (now : Z) (k : mp A) : mp A :=
    rd (fun s => tm_d (st_timer s)) (fun d => if 0 <? d then MAct stop_act (fun _ => MAct (reset_act now) (fun _ => k)) else k).

  (** state.go:60-65 wrapError *)
  Definition m_wrap (text : string) (culprit : ID) : mp (option WrappedError) :=
    rd (fun s => r_self I (st_round s)) (fun self =>
    rd (fun s => st_roundNumber s) (fun n =>
    MRet (Some (if culprit =? 0 then mkWrapped self n None text else mkWrapped self culprit (Some n) text)))).

  (** state.go:80-127 HandleMessage after Lock *)
  Definition handle_body (now : Z) (msg : Message) : mp (option WrappedError) :=
    let senderID := m_From msg in
    rd (fun s => st_done s) (fun d => if (d : bool) then m_wrap "protocol already finished" senderID else
    rd (fun s => List.length (st_accepted s)) (fun n => if Nat.eqb n 0 then m_wrap "no more messages being accepted" senderID else
    rd (fun s => r_self I (st_round s)) (fun self => if senderID =? self then MRet None else
    rd (fun s => r_self I (st_round s)) (fun self => if negb (IsBroadcast (m_Header msg)) && negb (m_To msg =? self) then MRet None else
    rd (fun s => r_ids I (st_round s)) (fun ids => if negb (Contains ids senderID) then m_wrap "sender is not a party" senderID else
    rd (fun s => st_received s !! senderID) (fun e => match e with Some _ => m_wrap "message from this party was already received" senderID | None =>
    rd (fun s => st_accepted s) (fun acc => if negb (existsb (Z.eqb (m_Type msg)) acc) then m_wrap "message type is not accepted for this type of round" senderID else
    m_ack now (
    MAct (fun s => match st_accepted s with [] => Panics "index out of range [0] with length 0" | t :: _ => Ret (s, t) end) (fun currentType =>
    if m_Type msg =? currentType
    then wr (fun s => set_received s (<[senderID := Some msg]> (st_received s))) (MRet None)
    else rd (fun s => st_queue s) (fun q => wr (fun s => set_queue s (q ++ [msg])) (MRet None)))) ) end)))))).

  (** state.go:205-213 finish *)
  Definition m_finish {A} (k : mp A) : mp A :=
    rd (fun s => st_done s) (fun d => if (d : bool) then k else
    wr set_done (
    MAct (fun s => let* r := r_reset I (st_round s) in Ret (set_round s r, tt)) (fun _ =>
    MAct stop_act (fun _ =>
    MAct (fun s => match st_closed s with O => Ret (set_closed s 1, tt) | S _ => Panics "close of closed channel" end) (fun _ => k))))).

  (** state.go:215-227 reportError *)
  Definition m_report {A} (culprit : ID) (text : string) (k : mp A) : mp A :=
    rd (fun s => st_done s) (fun d => if (d : bool) then k else
    rd (fun s => st_err s) (fun e => match e with
      | Some _ => m_finish k
      | None => rd (fun s => st_roundNumber s) (fun n => wr (fun s => set_err s (Some (mkPError culprit n text))) (m_finish k))
      end)).

  (** state.go:148-153 *)
  Fixpoint m_process (ids : list ID) (k : mp (list Message)) : mp (list Message) :=
    match ids with
    | [] => k
    | id :: ids' =>
      rd (fun s => default None (st_received s !! id)) (fun msg =>
      MAct (fun s => match r_process I (st_round s) msg with
                     | ROk r _ => Ret (set_round s r, None)
                     | RErr r c t => Ret (set_round s r, Some (c, t))
                     | RPanic w => Panics w end) (fun e =>
      match e with
      | Some (c, t) => m_report c t (MRet [])
      | None => m_process ids' k
      end))
    end.
  (** state.go:156-158 *)
  Fixpoint m_delete {A} (ids : list ID) (k : mp A) : mp A :=
    match ids with
    | [] => k
    | id :: ids' => wr (fun s => set_received s (delete id (st_received s))) (m_delete ids' k)
    end.
  (** state.go:171-178; [newQueue] is a local variable. *)
  Fixpoint m_queue {A} (currentType : Z) (queue newQueue : list Message) (k : mp A) : mp A :=
    match queue with
    | [] => wr (fun s => set_queue s newQueue) k
    | msg :: queue' =>
      if m_Type msg =? currentType
      then wr (fun s => set_received s (<[m_From msg := Some msg]> (st_received s))) (m_queue currentType queue' newQueue k)
      else m_queue currentType queue' (newQueue ++ [msg]) k
    end.
  (** state.go:181-190 *)
  Definition m_next (newMessages : list Message) : mp (list Message) :=
    rd (fun s => r_next I (st_round s)) (fun nextRound =>
    match nextRound with
    | None => m_finish (MRet newMessages)
    | Some r => rd (fun s => st_roundNumber s) (fun n => wr (fun s => set_number s (n + 1)) (wr (fun s => set_round s r) (MRet newMessages)))
    end).
  (** state.go:135-191 ProcessAll after Lock *)
  Definition process_body (sched sched' : list ID) : mp (list Message) :=
    rd (fun s => st_done s) (fun d => if (d : bool) then MRet [] else
    rd (fun s => Z.of_nat (size (st_received s))) (fun n =>
    rd (fun s => r_ids I (st_round s)) (fun ids => if negb (n =? u16 (N_ids ids - 1)) then MRet [] else
    rd (fun s => map_keys sched (st_received s)) (fun keys =>
    m_process keys (
    rd (fun s => map_keys sched (st_received s)) (fun keys =>
    m_delete keys (
    MAct (fun s => match r_generate I sched' (st_round s) with
                   | ROk r ms => Ret (set_round s r, inl ms)
                   | RErr r c t => Ret (set_round s r, inr (c, t))
                   | RPanic w => Panics w end) (fun e =>
    match e with
    | inr (c, t) => m_report c t (MRet [])
    | inl newMessages =>
      MAct (fun s => match st_accepted s with [] => Panics "slice bounds out of range [1:0]" | _ :: l => Ret (set_accepted s l, tt) end) (fun _ =>
      rd (fun s => st_accepted s) (fun acc =>
      match acc with
      | [] => m_next newMessages
      | currentType :: _ => rd (fun s => st_queue s) (fun q => m_queue currentType q [] (m_next newMessages))
      end))
    end)))))))).
  (** state.go:45-49, after Lock; taking the callback out of the pending ones is part of Lock. *)
  Definition callback_body : mp unit := m_report 0 "message timeout" (MRet tt).

  (** ** Goroutines *)
  Inductive call := CHandle (now : Z) (m : Message) | CProcess (sched sched' : list ID).
  Inductive answer := AHandle (e : option WrappedError) | AProcess (ms : list Message) | ATimeout.
  Fixpoint mmap {A B} (g : A -> B) (p : mp A) : mp B := match p with MRet a => MRet (g a) | MAct f k => MAct f (fun x => mmap g (k x)) end.
  Definition body (c : call) : mp answer :=
    match c with CHandle now m => mmap AHandle (handle_body now m) | CProcess o o' => mmap AProcess (process_body o o') end.

  (** The runtime's timer goroutines have no caller. *)
  Inductive who := Caller (i : nat) (c : call) | Timer.
  Record conf := mkConf {
    cf_state : St;
    cf_running : option (who * mp answer);      (* the holder of the mutex and the rest of its call *)
    cf_todo : nat -> list call;                 (* what the goroutines will call *)
    cf_log : list (who * answer);               (* the calls that have returned, in that order *)
    cf_crashed : bool
  }.
  Definition upd_todo (f : nat -> list call) (i : nat) (l : list call) : nat -> list call := fun j => if Nat.eqb i j then l else f j.

  (** IsFinished and Err (state.go:239-259) read [cf_state] at one moment, without the mutex: they are no steps of their own. *)
  Inductive fstep (c : conf) : conf -> Prop :=
  | f_lock i k l : cf_crashed c = false -> cf_running c = None -> cf_todo c i = k :: l ->
      fstep c (mkConf (cf_state c) (Some (Caller i k, body k)) (upd_todo (cf_todo c) i l) (cf_log c) false)
  | f_callback n : cf_crashed c = false -> cf_running c = None -> tm_pending (st_timer (cf_state c)) = S n ->
      fstep c (mkConf (set_timer (cf_state c) (mkTimer (tm_d (st_timer (cf_state c))) (tm_deadline (st_timer (cf_state c))) n))
                 (Some (Timer, mmap (fun _ => ATimeout) callback_body)) (cf_todo c) (cf_log c) false)
  | f_access w X (f : St -> outcome (St * X)) k s' x : cf_crashed c = false -> cf_running c = Some (w, MAct f k) -> f (cf_state c) = Ret (s', x) ->
      fstep c (mkConf s' (Some (w, k x)) (cf_todo c) (cf_log c) false)
  | f_crash w X (f : St -> outcome (St * X)) k : cf_crashed c = false -> cf_running c = Some (w, MAct f k) -> (forall r, f (cf_state c) <> Ret r) ->
      fstep c (mkConf (cf_state c) (cf_running c) (cf_todo c) (cf_log c) true)
  | f_unlock w a : cf_crashed c = false -> cf_running c = Some (w, MRet a) ->
      fstep c (mkConf (cf_state c) None (cf_todo c) (cf_log c ++ [(w, a)]) false)
  | f_expire now : cf_crashed c = false ->    (* the run time, at any moment *)
      fstep c (mkConf (timerExpire now (cf_state c)) (cf_running c) (cf_todo c) (cf_log c) false).
  Inductive fsteps (c : conf) : conf -> Prop :=
  | fs_refl : fsteps c c
  | fs_step c1 c2 : fsteps c c1 -> fstep c1 c2 -> fsteps c c2.
  Definition finit (s : St) (todo : nat -> list call) : conf := mkConf s None todo [] false.
End Lin.
Arguments MRet {Gr R A} _.
Arguments MAct {Gr R A X} _ _.
