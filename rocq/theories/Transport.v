(** The goroutines of the Channel transport and of the UDP communicator (test/internal/communication), and of the test program that
    waits for them and shuts them down (test/frosted.go). *)
From Coq Require Import ZArith Lia List Bool String Permutation.
From Coq.Strings Require Import Byte.
From stdpp Require Import base gmap list.
From Verif Require Import Bytes Go Group Party Messages State Net Loops Harness.
Import ListNotations.
Local Open Scope Z_scope.

(** A function changed in one place. *)
Definition fupd {A} (i : Z) (v : A) (f : Z -> A) : Z -> A := fun j => if j =? i then v else f j.

Section Transport.
  Context `{Gr : group_ops} {R : Type} (I : RoundI R).

  (** The goroutine of the test program (frosted.go:25-77, 119-123): it waits for the States one after the other (the map of handlers is
      iterated in any order) and then closes the communicators: Done (channel.go:47-50) first tells the WaitGroup, then closes
      [incoming]. *)
  Inductive tmain :=
  | MWait (rest : list Z)            (* these States have not been waited for *)
  | MClose (rest : list Z)           (* Done was not called yet for these *)
  | MClosing (k : Z) (rest : list Z) (* wg.Done was called for [k], close(incoming) comes next *).
  (** channel.go:52-58 waitForFinish: wait for the WaitGroup, close the byte channels in any order, close [done]. *)
  Inductive tfin := FWait | FClose (rest : list Z) | FEnd.

  (** Everything that the goroutines share.  The first components of the pairs in [tc_bytes], [tc_hand] and [tc_inc] say who sent an
      item; the code does not have them, they are only there to speak about. *)
  Record tconfig := mkTconfig {
    tc_state : Z -> State R;
    tc_started : Z -> bool;                      (* the goroutine of the Handler has made its first ProcessAll *)
    tc_out : Z -> list (Z * list byte);          (* what the Handler's goroutine still has to send before it goes on: receiver, data *)
    tc_bytes : Z -> list (Z * list byte);        (* channels[i], capacity n (local_constructors.go:34-37) *)
    tc_hand : Z -> option (Z * Message);         (* the message that handleByteChan of [i] has decoded and not put into incoming yet *)
    tc_inc : Z -> list (Z * Message);            (* incoming of [i], capacity n (local_constructors.go:42) *)
    tc_ret : Z -> bool;                          (* the Handler's goroutine has returned *)
    tc_exit : Z -> bool;                         (* handleByteChan has returned *)
    tc_main : tmain;
    tc_fin : tfin
  }.

  (** A channel that was closed. *)
  Definition inc_closed (c : tconfig) (k : Z) : bool :=
    match tc_main c with
    | MWait _ => false
    | MClose rest => negb (existsb (Z.eqb k) rest)
    | MClosing k' rest => negb (existsb (Z.eqb k) (k' :: rest))
    end.
  Definition bytes_closed (c : tconfig) (k : Z) : bool :=
    match tc_fin c with FWait => false | FClose rest => negb (existsb (Z.eqb k) rest) | FEnd => true end.
  (** The WaitGroup is at zero. *)
  Definition wg_zero (c : tconfig) : Prop := match tc_main c with MWait _ => False | MClose rest | MClosing _ rest => rest = [] end.

  (** channel.go:20-35 Send for the messages of one ProcessAll (handler.go:57-66): the data that goes out, in the order in which it does.  A
      message that cannot be encoded is skipped; a broadcast goes to all others, in the order in which the map is iterated. *)
  Inductive sends (ids : list Z) (i : Z) : list Message -> list (Z * list byte) -> Prop :=
  | sends_nil : sends ids i [] []
  | sends_err m e ms l : msg_MarshalBinary m = Fail e -> sends ids i ms l -> sends ids i (m :: ms) l
  | sends_all m b ks ms l : msg_MarshalBinary m = Ret b -> IsBroadcast (m_Header m) = true ->
      Permutation ks (List.filter (fun k => negb (k =? i)) ids) -> sends ids i ms l -> sends ids i (m :: ms) (map (fun k => (k, b)) ks ++ l)
  | sends_one m b ms l : msg_MarshalBinary m = Ret b -> IsBroadcast (m_Header m) = false -> m_To m <> i ->
      sends ids i ms l -> sends ids i (m :: ms) ((m_To m, b) :: l)
  | sends_self m b ms l : msg_MarshalBinary m = Ret b -> IsBroadcast (m_Header m) = false -> m_To m = i ->
      sends ids i ms l -> sends ids i (m :: ms) l.

  (** What a step was.  The steps of the Handlers are those of Loops.v. *)
  Inductive tlabel :=
  | TH (l : hlabel)        (* ProcessAll, or a message taken from incoming, HandleMessage and ProcessAll *)
  | TSend (j i : Z)        (* the Handler of [j] puts data into channels[i] *)
  | TFwd (j i : Z)         (* handleByteChan of [i] takes data of [j] *)
  | TPut (j i : Z)         (* and puts the message into incoming *)
  | TCtl                   (* a goroutine returns, or the test program or waitForFinish goes on *).

  Definition set_handler (c : tconfig) (i : Z) (s : State R) (l : list (Z * list byte)) (inc : list (Z * Message)) : tconfig :=
    mkTconfig (fupd i s (tc_state c)) (fupd i true (tc_started c)) (fupd i l (tc_out c)) (tc_bytes c) (tc_hand c) (fupd i inc (tc_inc c))
      (tc_ret c) (tc_exit c) (tc_main c) (tc_fin c).
  Definition set_main (c : tconfig) (m : tmain) : tconfig :=
    mkTconfig (tc_state c) (tc_started c) (tc_out c) (tc_bytes c) (tc_hand c) (tc_inc c) (tc_ret c) (tc_exit c) m (tc_fin c).
  Definition set_fin (c : tconfig) (f : tfin) : tconfig :=
    mkTconfig (tc_state c) (tc_started c) (tc_out c) (tc_bytes c) (tc_hand c) (tc_inc c) (tc_ret c) (tc_exit c) (tc_main c) f.

  (** One step.  [early]: the test program stops waiting at the first error (frosted.go:37-39, keygen) or goes on (:60-62, signing).
      A Handler that still has something to send does nothing else; a send waits for room.  Reads of nil from a closed channel change nothing
      (channel.go:67-69, handler.go:40-42) and are no steps.  Not modelled: Incoming() (channel.go:37-45) returns nil after [done] is
      closed, which only takes steps away. *)
  Inductive t_step (early : bool) (ids : list Z) (c : tconfig) : tlabel -> tconfig -> Prop :=
  (* handler.go:35 *)
  | t_start i sched sched' s' out l : In i ids -> tc_started c i = false -> ProcessAll I sched sched' (tc_state c i) = Ret (s', out) ->
      sends ids i out l -> t_step early ids c (TH (HStart i)) (set_handler c i s' l (tc_inc c i))
  (* channel.go:28, 32 *)
  | t_send i k b l : In i ids -> tc_out c i = (k, b) :: l -> In k ids -> bytes_closed c k = false -> (List.length (tc_bytes c k) < List.length ids)%nat ->
      t_step early ids c (TSend i k)
        (mkTconfig (tc_state c) (tc_started c) (fupd i l (tc_out c)) (fupd k (tc_bytes c k ++ [(i, b)]) (tc_bytes c)) (tc_hand c) (tc_inc c)
          (tc_ret c) (tc_exit c) (tc_main c) (tc_fin c))
  (* channel.go:66-74 *)
  | t_fwd i j b l m : In i ids -> tc_exit c i = false -> tc_hand c i = None -> tc_bytes c i = (j, b) :: l -> msg_UnmarshalBinary zero_message b = Ret m ->
      t_step early ids c (TFwd j i)
        (mkTconfig (tc_state c) (tc_started c) (tc_out c) (fupd i l (tc_bytes c)) (fupd i (Some (j, m)) (tc_hand c)) (tc_inc c)
          (tc_ret c) (tc_exit c) (tc_main c) (tc_fin c))
  | t_drop i j b l e : In i ids -> tc_exit c i = false -> tc_hand c i = None -> tc_bytes c i = (j, b) :: l -> msg_UnmarshalBinary zero_message b = Fail e ->
      t_step early ids c (TFwd j i)
        (mkTconfig (tc_state c) (tc_started c) (tc_out c) (fupd i l (tc_bytes c)) (tc_hand c) (tc_inc c)
          (tc_ret c) (tc_exit c) (tc_main c) (tc_fin c))
  (* channel.go:75 *)
  | t_put i j m : In i ids -> tc_hand c i = Some (j, m) -> inc_closed c i = false -> (List.length (tc_inc c i) < List.length ids)%nat ->
      t_step early ids c (TPut j i)
        (mkTconfig (tc_state c) (tc_started c) (tc_out c) (tc_bytes c) (fupd i None (tc_hand c)) (fupd i (tc_inc c i ++ [(j, m)]) (tc_inc c))
          (tc_ret c) (tc_exit c) (tc_main c) (tc_fin c))
  (* handler.go:39-46 *)
  | t_recv i j m rest now sched sched' s' out l : In i ids -> tc_started c i = true -> tc_out c i = [] -> tc_ret c i = false ->
      tc_inc c i = (j, m) :: rest -> handler_msg I now sched sched' (tc_state c i) m = Ret (s', out) -> sends ids i out l ->
      t_step early ids c (TH (HRecv j i (negb (st_done (tc_state c i)) && match snd (HandleMessage I now (tc_state c i) m) with Some _ => true | None => false end)))
        (set_handler c i s' l rest)
  (* handler.go:47-52 *)
  | t_return i : In i ids -> tc_started c i = true -> tc_out c i = [] -> tc_ret c i = false -> st_done (tc_state c i) = true ->
      t_step early ids c TCtl (mkTconfig (tc_state c) (tc_started c) (tc_out c) (tc_bytes c) (tc_hand c) (tc_inc c)
          (fupd i true (tc_ret c)) (tc_exit c) (tc_main c) (tc_fin c))
  (* frosted.go:36-42, 59-68 *)
  | t_wait k r1 r2 : tc_main c = MWait (r1 ++ k :: r2) -> st_done (tc_state c k) = true -> st_err (tc_state c k) = None \/ early = false ->
      t_step early ids c TCtl (set_main c (MWait (r1 ++ r2)))
  | t_fail k r1 r2 : tc_main c = MWait (r1 ++ k :: r2) -> st_done (tc_state c k) = true -> st_err (tc_state c k) <> None -> early = true ->
      t_step early ids c TCtl (set_main c (MClose ids))
  | t_waited : tc_main c = MWait [] -> t_step early ids c TCtl (set_main c (MClose ids))
  (* frosted.go:110-114 and channel.go:48, 49 *)
  | t_wg k r1 r2 : tc_main c = MClose (r1 ++ k :: r2) -> t_step early ids c TCtl (set_main c (MClosing k (r1 ++ r2)))
  | t_close k rest : tc_main c = MClosing k rest -> t_step early ids c TCtl (set_main c (MClose rest))
  (* channel.go:53-57 *)
  | t_zero : tc_fin c = FWait -> wg_zero c -> t_step early ids c TCtl (set_fin c (FClose ids))
  | t_closeb k r1 r2 : tc_fin c = FClose (r1 ++ k :: r2) -> t_step early ids c TCtl (set_fin c (FClose (r1 ++ r2)))
  | t_done : tc_fin c = FClose [] -> t_step early ids c TCtl (set_fin c FEnd)
  (* channel.go:63-64 *)
  | t_exit i : In i ids -> tc_fin c = FEnd -> tc_hand c i = None -> tc_exit c i = false ->
      t_step early ids c TCtl (mkTconfig (tc_state c) (tc_started c) (tc_out c) (tc_bytes c) (tc_hand c) (tc_inc c)
          (tc_ret c) (fupd i true (tc_exit c)) (tc_main c) (tc_fin c)).

  Inductive t_trace (early : bool) (ids : list Z) (c0 : tconfig) : list tlabel -> tconfig -> Prop :=
  | tt_nil : t_trace early ids c0 [] c0
  | tt_snoc ls c l c' : t_trace early ids c0 ls c -> t_step early ids c l c' -> t_trace early ids c0 (ls ++ [l]) c'.

  (** NewChannelCommunicatorMap (local_constructors.go:27-54) and one Handler for every party: nothing has been sent. *)
  Definition t_init (ids : list Z) (s0 : Z -> State R) : tconfig :=
    mkTconfig s0 (fun _ => false) (fun _ => []) (fun _ => []) (fun _ => None) (fun _ => []) (fun _ => false) (fun _ => false) (MWait ids) FWait.

  (** The steps of the Handlers among the labels. *)
  Definition t_hlabels (ls : list tlabel) : list hlabel := flat_map (fun l => match l with TH h => [h] | _ => [] end) ls.

  (** A goroutine is about to send on a closed channel, which is a panic in Go and ends the program. *)
  Definition t_panics (ids : list Z) (c : tconfig) : Prop :=
    (exists i k b l, In i ids /\ tc_out c i = (k, b) :: l /\ bytes_closed c k = true) \/
    (exists i x, In i ids /\ tc_hand c i = Some x /\ inc_closed c i = true).
  (** All goroutines have come to their end and all messages have been read. *)
  Definition t_over (ids : list Z) (c : tconfig) : Prop :=
    tc_main c = MClose [] /\ tc_fin c = FEnd /\ forall i, In i ids -> tc_ret c i = true /\ tc_exit c i = true /\
      tc_out c i = [] /\ tc_bytes c i = [] /\ tc_hand c i = None /\ tc_inc c i = [].

  (** The same as a program, for concrete executions: clock 0, maps in key order. *)
  Fixpoint sends_f (ids : list Z) (i : Z) (ms : list Message) : option (list (Z * list byte)) :=
    match ms with
    | [] => Some []
    | m :: ms' =>
      match sends_f ids i ms' with
      | None => None
      | Some l =>
        match msg_MarshalBinary m with
        | Ret b => if IsBroadcast (m_Header m) then Some (map (fun k => (k, b)) (List.filter (fun k => negb (k =? i)) ids) ++ l)
                   else if m_To m =? i then Some l else Some ((m_To m, b) :: l)
        | Fail _ => Some l
        | Panics _ => None
        end
      end
    end.
  Inductive tact := XStart (i : Z) | XSend (i : Z) | XFwd (i : Z) | XPut (i : Z) | XRecv (i : Z) | XReturn (i : Z) | XWait (k : Z) | XWaited | XWg (k : Z) | XClose
    | XZero | XCloseb (k : Z) | XDone | XExit (i : Z).
  Definition inb (i : Z) (l : list Z) : bool := existsb (Z.eqb i) l.
  Fixpoint take_out (k : Z) (l : list Z) : option (list Z) :=
    match l with [] => None | x :: l' => if x =? k then Some l' else match take_out k l' with Some r => Some (x :: r) | None => None end end.
  Definition t_exec1 (ids : list Z) (c : tconfig) (a : tact) : option (tlabel * tconfig) :=
    match a with
    | XStart i =>
      if inb i ids && negb (tc_started c i) then
        match ProcessAll I [] [] (tc_state c i) with
        | Ret (s', o) => match sends_f ids i o with Some l => Some (TH (HStart i), set_handler c i s' l (tc_inc c i)) | None => None end
        | _ => None
        end
      else None
    | XSend i =>
      match tc_out c i with
      | (k, b) :: l =>
        if inb i ids && inb k ids && negb (bytes_closed c k) && (List.length (tc_bytes c k) <? List.length ids)%nat then
          Some (TSend i k, mkTconfig (tc_state c) (tc_started c) (fupd i l (tc_out c)) (fupd k (tc_bytes c k ++ [(i, b)]) (tc_bytes c)) (tc_hand c) (tc_inc c)
            (tc_ret c) (tc_exit c) (tc_main c) (tc_fin c))
        else None
      | [] => None
      end
    | XFwd i =>
      match tc_hand c i, tc_bytes c i with
      | None, (j, b) :: l =>
        if inb i ids && negb (tc_exit c i) then
          match msg_UnmarshalBinary zero_message b with
          | Ret m => Some (TFwd j i, mkTconfig (tc_state c) (tc_started c) (tc_out c) (fupd i l (tc_bytes c)) (fupd i (Some (j, m)) (tc_hand c)) (tc_inc c)
              (tc_ret c) (tc_exit c) (tc_main c) (tc_fin c))
          | _ => None
          end
        else None
      | _, _ => None
      end
    | XPut i =>
      match tc_hand c i with
      | Some (j, m) =>
        if inb i ids && negb (inc_closed c i) && (List.length (tc_inc c i) <? List.length ids)%nat then
          Some (TPut j i, mkTconfig (tc_state c) (tc_started c) (tc_out c) (tc_bytes c) (fupd i None (tc_hand c)) (fupd i (tc_inc c i ++ [(j, m)]) (tc_inc c))
            (tc_ret c) (tc_exit c) (tc_main c) (tc_fin c))
        else None
      | None => None
      end
    | XRecv i =>
      match tc_inc c i, tc_out c i with
      | (j, m) :: rest, [] =>
        if inb i ids && tc_started c i && negb (tc_ret c i) then
          match handler_msg I 0 [] [] (tc_state c i) m with
          | Ret (s', o) =>
            match sends_f ids i o with
            | Some l => Some (TH (HRecv j i (negb (st_done (tc_state c i)) && match snd (HandleMessage I 0 (tc_state c i) m) with Some _ => true | None => false end)),
                set_handler c i s' l rest)
            | None => None
            end
          | _ => None
          end
        else None
      | _, _ => None
      end
    | XReturn i =>
      if inb i ids && tc_started c i && match tc_out c i with [] => true | _ => false end && negb (tc_ret c i) && st_done (tc_state c i) then
        Some (TCtl, mkTconfig (tc_state c) (tc_started c) (tc_out c) (tc_bytes c) (tc_hand c) (tc_inc c) (fupd i true (tc_ret c)) (tc_exit c) (tc_main c) (tc_fin c))
      else None
    | XWait k =>
      match tc_main c with
      | MWait rest => match take_out k rest with
          | Some rest' => if st_done (tc_state c k) && match st_err (tc_state c k) with None => true | Some _ => false end then Some (TCtl, set_main c (MWait rest')) else None
          | None => None
          end
      | _ => None
      end
    | XWaited => match tc_main c with MWait [] => Some (TCtl, set_main c (MClose ids)) | _ => None end
    | XWg k => match tc_main c with MClose rest => match take_out k rest with Some rest' => Some (TCtl, set_main c (MClosing k rest')) | None => None end | _ => None end
    | XClose => match tc_main c with MClosing k rest => Some (TCtl, set_main c (MClose rest)) | _ => None end
    | XZero => match tc_fin c, tc_main c with
        | FWait, MClose [] | FWait, MClosing _ [] => Some (TCtl, set_fin c (FClose ids))
        | _, _ => None
        end
    | XCloseb k => match tc_fin c with FClose rest => match take_out k rest with Some rest' => Some (TCtl, set_fin c (FClose rest')) | None => None end | _ => None end
    | XDone => match tc_fin c with FClose [] => Some (TCtl, set_fin c FEnd) | _ => None end
    | XExit i =>
      match tc_fin c, tc_hand c i with
      | FEnd, None => if inb i ids && negb (tc_exit c i) then
          Some (TCtl, mkTconfig (tc_state c) (tc_started c) (tc_out c) (tc_bytes c) (tc_hand c) (tc_inc c) (tc_ret c) (fupd i true (tc_exit c)) (tc_main c) (tc_fin c))
          else None
      | _, _ => None
      end
    end.
  Fixpoint t_exec (ids : list Z) (c : tconfig) (acts : list tact) : option (list tlabel * tconfig) :=
    match acts with
    | [] => Some ([], c)
    | a :: acts' =>
      match t_exec1 ids c a with
      | Some (l, c') => match t_exec ids c' acts' with Some (ls, c'') => Some (l :: ls, c'') | None => None end
      | None => None
      end
    end.
End Transport.
Arguments tlabel : clear implicits.

(** * The UDP communicator *)
Section Udp.
  Context `{Gr : group_ops}.

  (** udp.go:14-35: the socket of one party, the goroutine that reads it and [incoming] (capacity 10). *)
  Record uconfig := mkUconfig {
    uc_sock : list (list byte);     (* datagrams that have arrived and were not read *)
    uc_hand : option Message;       (* what the goroutine has read and not put into incoming yet *)
    uc_inc : list Message;
    uc_closed : bool;               (* close(incoming) was called *)
    uc_conn : bool                  (* the socket is open *)
  }.
  Definition udp_capacity : nat := 10.

  (** One step: a datagram arrives; the goroutine reads it (udp.go:54-66) and puts the message into incoming (:67); the Handler takes a message;
      Done (udp.go:99-105) closes incoming, then the socket.  A closed socket delivers nothing more, and the goroutine returns (:56-59).
      Without [arrive] the network is silent. *)
  Inductive u_step (peers : nat) (arrive : bool) (c : uconfig) : uconfig -> Prop :=
  | u_arrive b : arrive = true -> uc_conn c = true -> u_step peers arrive c (mkUconfig (uc_sock c ++ [b]) (uc_hand c) (uc_inc c) (uc_closed c) (uc_conn c))
  | u_read b l m : uc_conn c = true -> uc_hand c = None -> uc_sock c = b :: l -> udp_receive peers b = Ret m ->
      u_step peers arrive c (mkUconfig l (Some m) (uc_inc c) (uc_closed c) (uc_conn c))
  | u_put m : uc_hand c = Some m -> uc_closed c = false -> (List.length (uc_inc c) < udp_capacity)%nat ->
      u_step peers arrive c (mkUconfig (uc_sock c) None (uc_inc c ++ [m]) (uc_closed c) (uc_conn c))
  | u_take m l : uc_inc c = m :: l -> u_step peers arrive c (mkUconfig (uc_sock c) (uc_hand c) l (uc_closed c) (uc_conn c))
  | u_close : uc_closed c = false -> u_step peers arrive c (mkUconfig (uc_sock c) (uc_hand c) (uc_inc c) true (uc_conn c))
  | u_shut : uc_closed c = true -> uc_conn c = true -> u_step peers arrive c (mkUconfig (uc_sock c) (uc_hand c) (uc_inc c) true false).
  Inductive u_steps (peers : nat) (arrive : bool) : uconfig -> uconfig -> Prop :=
  | us_refl c : u_steps peers arrive c c
  | us_step c c1 c2 : u_steps peers arrive c c1 -> u_step peers arrive c1 c2 -> u_steps peers arrive c c2.
  (** The goroutine is about to send on the closed channel. *)
  Definition u_panics (c : uconfig) : Prop := uc_hand c <> None /\ uc_closed c = true.
  Definition u_init : uconfig := mkUconfig [] None [] false true.
End Udp.
