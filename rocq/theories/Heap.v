(** Key generation with pointers.  In Keygen.v messages are values; here the objects that the code changes after a
    message has been returned or received live in a heap shared by all States: the Exponents (the Commitments of a KeyGen1
    message are the CommitmentsSum of its sender's round, and a received one is kept in round.Commitments) and the KeyGen2
    bodies.  All other parts of a message are never written after its construction (NewSign1 and NewSign2 copy the values,
    sign1.go:18-29, sign2.go:18-26, and the sign rounds only read), so they are kept as values.
    The computations are those of Keygen.v on the dereferenced values; this file adds where the results are stored.
    Definitions only. *)
From Coq Require Import ZArith Lia List Bool String.
From stdpp Require Import base gmap list.
From Verif Require Import ZField Primes Bytes Scalar Go Group Party Poly Zk Eddsa Messages State Keygen.
Import ListNotations.
Local Open Scope Z_scope.

Section Heap.
  Context `{Gr : group_ops} `{Hf : hash_fn}.

  Record heap := mkHeap { h_exp : list Exponent; h_share : list Fq }.
  Definition rd_exp (h : heap) (p : nat) : Exponent := nth p (h_exp h) [].
  Definition rd_share (h : heap) (p : nat) : Fq := nth p (h_share h) f0.
  Definition wr_exp (h : heap) (p : nat) (e : Exponent) : heap := mkHeap (<[p := e]> (h_exp h)) (h_share h).
  Definition wr_share (h : heap) (p : nat) (s : Fq) : heap := mkHeap (h_exp h) (<[p := s]> (h_share h)).

  (** messages.go:8-14 with the pointers KeyGen1.Commitments and KeyGen2. *)
  Record hmsg := mkHmsg { hm_Header : Header; hm_K1 : option (Schnorr * nat); hm_K2 : option nat; hm_S1 : option Sign1; hm_S2 : option Sign2 }.
  Definition deref (h : heap) (m : hmsg) : Message :=
    mkMessage (hm_Header m) (option_map (fun b => mkKeyGen1 (fst b) (rd_exp h (snd b))) (hm_K1 m))
      (option_map (fun s => mkKeyGen2 (rd_share h s)) (hm_K2 m)) (hm_S1 m) (hm_S2 m).
  (** A message built from values, for example by UnmarshalBinary (keygen1.go:49-66, exponent.go:185-213): its objects are new. *)
  Definition alloc (h : heap) (m : Message) : heap * hmsg :=
    (mkHeap (match m_KeyGen1 m with Some b => h_exp h ++ [k1_Commitments b] | None => h_exp h end)
       (match m_KeyGen2 m with Some b => h_share h ++ [k2_Share b] | None => h_share h end),
     mkHmsg (m_Header m) (option_map (fun b => (k1_Proof b, List.length (h_exp h))) (m_KeyGen1 m))
       (option_map (fun _ => List.length (h_share h)) (m_KeyGen2 m)) (m_Sign1 m) (m_Sign2 m)).
  Fixpoint alloc_all (h : heap) (ms : list Message) : heap * list hmsg :=
    match ms with
    | [] => (h, [])
    | m :: ms' => let '(h1, p) := alloc h m in let '(h2, ps) := alloc_all h1 ms' in (h2, p :: ps)
    end.

  (** keygen/base.go:14-42: CommitmentsSum and Commitments are pointers.  [hk_rest] holds the other fields
      (the two pointer fields of it are not used). *)
  Record hkround := mkHk { hk_rest : kround; hk_csum : option nat; hk_comms : gmap ID nat }.
  Definition abs_round (h : heap) (k : hkround) : kround :=
    let r := hk_rest k in
    mkKround (kr_no r) (kr_self r) (kr_ids r) (kr_Threshold r) (kr_Secret r) (kr_Polynomial r) (rd_exp h <$> hk_csum k)
      (rd_exp h <$> hk_comms k) (kr_outp r) (kr_out r) (kr_rng r).

  Definition hres := rres (heap * hkround).

  (** keygen/round0.go:15-40: the message gets the pointer round.CommitmentsSum. *)
  Definition hkg0_generate (h : heap) (k : hkround) : hres (list hmsg) :=
    match kg0_generate (abs_round h k) with
    | RPanic w => RPanic w
    | RErr k' c t => RErr (h, mkHk k' (hk_csum k) (hk_comms k)) c t
    | ROk k' msgs =>
      let p := List.length (h_exp h) in
      ROk (mkHeap (h_exp h ++ [default [] (kr_CommitmentsSum k')]) (h_share h), mkHk k' (Some p) (hk_comms k))
        (map (fun m => mkHmsg (m_Header m) (option_map (fun b => (k1_Proof b, p)) (m_KeyGen1 m)) None (m_Sign1 m) (m_Sign2 m)) msgs)
    end.

  (** keygen/round1.go:10-25: Commitments gets the pointer in the message; Add writes the object CommitmentsSum. *)
  Definition hkg1_process (h : heap) (k : hkround) (m : option hmsg) : hres unit :=
    match kg1_process (abs_round h k) (option_map (deref h) m) with
    | RPanic w => RPanic w
    | RErr k' c t => RErr (h, mkHk k' (hk_csum k) (hk_comms k)) c t
    | ROk k' _ =>
      match m, hk_csum k with
      | Some msg, Some p =>
        match hm_K1 msg with
        | Some (_, q) => ROk (wr_exp h p (default [] (kr_CommitmentsSum k')), mkHk k' (Some p) (<[h_From (hm_Header msg) := q]> (hk_comms k))) tt
        | None => RPanic "nil KeyGen1"
        end
      | _, _ => RPanic "nil message"
      end
    end.

  (** keygen/round1.go:27-41: the messages are new objects (NewKeyGen2 copies the share). *)
  Definition hkg1_generate (h : heap) (k : hkround) : hres (list hmsg) :=
    match kg1_generate (abs_round h k) with
    | RPanic w => RPanic w
    | RErr k' c t => RErr (h, mkHk k' (hk_csum k) (hk_comms k)) c t
    | ROk k' msgs => let '(h', ps) := alloc_all h msgs in ROk (h', mkHk k' (hk_csum k) (hk_comms k)) ps
    end.

  (** keygen/round2.go:13-29: the share in the message is set to zero. *)
  Definition hkg2_process (h : heap) (k : hkround) (m : option hmsg) : hres unit :=
    match kg2_process (abs_round h k) (option_map (deref h) m) with
    | RPanic w => RPanic w
    | RErr k' c t => RErr (h, mkHk k' (hk_csum k) (hk_comms k)) c t
    | ROk k' _ =>
      match m with
      | Some msg =>
        match hm_K2 msg with
        | Some s => ROk (wr_share h s f0, mkHk k' (hk_csum k) (hk_comms k)) tt
        | None => RPanic "nil KeyGen2"
        end
      | None => RPanic "nil message"
      end
    end.

  (** keygen/round2.go:31-44 *)
  Definition hkg2_generate (h : heap) (k : hkround) : hres (list hmsg) :=
    match kg2_generate (abs_round h k) with
    | RPanic w => RPanic w
    | RErr k' c t => RErr (h, mkHk k' (hk_csum k) (hk_comms k)) c t
    | ROk k' msgs => let '(h', ps) := alloc_all h msgs in ROk (h', mkHk k' (hk_csum k) (hk_comms k)) ps
    end.

  (** keygen/base.go:70-78: CommitmentsSum and all Commitments are overwritten in place. *)
  Definition reset_exp (h : heap) (p : nat) : heap := wr_exp h p (exp_reset (rd_exp h p)).
  Definition hkg_Reset (h : heap) (k : hkround) : outcome (heap * hkround) :=
    let* k' := kg_Reset (abs_round h k) in
    Ret (fold_left reset_exp (match hk_csum k with Some p => [p] | None => [] end ++ map snd (map_to_list (hk_comms k))) h,
         mkHk k' (hk_csum k) (hk_comms k)).

  Definition hk_no (k : hkround) : nat := kr_no (hk_rest k).
  Definition hk_process (h : heap) (k : hkround) (m : option hmsg) : hres unit :=
    match hk_no k with O => ROk (h, k) tt | 1%nat => hkg1_process h k m | _ => hkg2_process h k m end.
  Definition hk_generate (h : heap) (k : hkround) : hres (list hmsg) :=
    match hk_no k with O => hkg0_generate h k | 1%nat => hkg1_generate h k | _ => hkg2_generate h k end.
  Definition hk_next (k : hkround) : option hkround :=
    match hk_no k with
    | O => Some (mkHk (kg_set_no (hk_rest k) 1) (hk_csum k) (hk_comms k))
    | 1%nat => Some (mkHk (kg_set_no (hk_rest k) 2) (hk_csum k) (hk_comms k))
    | _ => None
    end.

  (** ** State (state.go), as in State.v, with pointers to messages *)
  Record hstate := mkHs {
    hs_accepted : list Z;
    hs_received : gmap ID (option hmsg);
    hs_queue : list hmsg;
    hs_timer : timer;
    hs_roundNumber : Z;
    hs_round : hkround;
    hs_closed : nat;
    hs_done : bool;
    hs_err : option PError
  }.
  (** The same State with values. *)
  Definition abs_state (h : heap) (s : hstate) : State kround :=
    mkState (hs_accepted s) (option_map (deref h) <$> hs_received s) (map (deref h) (hs_queue s)) (hs_timer s) (hs_roundNumber s)
      (abs_round h (hs_round s)) (hs_closed s) (hs_done s) (hs_err s).

  (** frost.go:16-28, state.go:35-58 *)
  Definition h_New (r : rng) (now timeout : Z) (selfID : ID) (partyIDs : list ID) (threshold : Z) : outcome hstate :=
    let* k := kg_NewRound r selfID partyIDs threshold in
    Ret (mkHs [MTNone; MTKeyGen1; MTKeyGen2]
      (fold_left (fun m id => if id =? kr_self k then m else <[id := None]> m) (kr_ids k) ∅)
      [] (newTimer now timeout) 0 (mkHk k None ∅) 0 false None).

  (** state.go:80-127 *)
  Definition h_HandleMessage (now : Z) (s : hstate) (msg : hmsg) : hstate :=
    let hd := hm_Header msg in
    let self := kr_self (hk_rest (hs_round s)) in
    if hs_done s then s else
    match hs_accepted s with
    | [] => s
    | currentType :: _ =>
      if h_From hd =? self then s else
      if negb (IsBroadcast hd) && negb (h_To hd =? self) then s else
      if negb (Contains (kr_ids (hk_rest (hs_round s))) (h_From hd)) then s else
      match hs_received s !! h_From hd with
      | Some _ => s
      | None =>
        if negb (existsb (Z.eqb (h_Type hd)) (hs_accepted s)) then s else
        let t := ackMessage now (hs_timer s) in
        if h_Type hd =? currentType
        then mkHs (hs_accepted s) (<[h_From hd := Some msg]> (hs_received s)) (hs_queue s) t
                (hs_roundNumber s) (hs_round s) (hs_closed s) (hs_done s) (hs_err s)
        else mkHs (hs_accepted s) (hs_received s) (hs_queue s ++ [msg]) t
                (hs_roundNumber s) (hs_round s) (hs_closed s) (hs_done s) (hs_err s)
      end
    end.

  (** state.go:205-213 *)
  Definition h_finish (h : heap) (s : hstate) : outcome (heap * hstate) :=
    if hs_done s then Ret (h, s) else
    obind (hkg_Reset h (hs_round s)) (fun hr =>
    match hs_closed s with
    | O => Ret (fst hr, mkHs (hs_accepted s) (hs_received s) (hs_queue s) (stopTimer (hs_timer s)) (hs_roundNumber s) (snd hr) 1 true (hs_err s))
    | S _ => Panics "close of closed channel"
    end).

  (** state.go:215-227 *)
  Definition h_reportError (h : heap) (s : hstate) (culprit : ID) (text : string) : outcome (heap * hstate) :=
    if hs_done s then Ret (h, s) else
    let e := match hs_err s with
             | None => Some (mkPError culprit (hs_roundNumber s) text)
             | Some e => Some e
             end in
    h_finish h (mkHs (hs_accepted s) (hs_received s) (hs_queue s) (hs_timer s) (hs_roundNumber s) (hs_round s) (hs_closed s) (hs_done s) e).

  (** state.go:148-153 *)
  Fixpoint h_process_loop (h : heap) (k : hkround) (received : gmap ID (option hmsg)) (ids : list ID) : hres unit :=
    match ids with
    | [] => ROk (h, k) tt
    | id :: ids' =>
      match hk_process h k (default None (received !! id)) with
      | ROk (h', k') _ => h_process_loop h' k' received ids'
      | RErr hk c t => RErr hk c t
      | RPanic w => RPanic w
      end
    end.
  (** state.go:166-179 *)
  Definition h_take_queue (currentType : Z) (queue : list hmsg) (received : gmap ID (option hmsg)) :=
    (fold_left (fun m msg => if h_Type (hm_Header msg) =? currentType then <[h_From (hm_Header msg) := Some msg]> m else m) queue received,
     List.filter (fun msg => negb (h_Type (hm_Header msg) =? currentType)) queue).

  Definition h_set_round (s : hstate) (k : hkround) : hstate :=
    mkHs (hs_accepted s) (hs_received s) (hs_queue s) (hs_timer s) (hs_roundNumber s) k (hs_closed s) (hs_done s) (hs_err s).

  (** state.go:135-191; [sched] is the order of the iteration over the received messages. *)
  Definition h_ProcessAll (sched : list ID) (h : heap) (s : hstate) : outcome (heap * hstate * list hmsg) :=
    if hs_done s then Ret (h, s, []) else
    if negb (Z.of_nat (size (hs_received s)) =? u16 (N_ids (kr_ids (hk_rest (hs_round s))) - 1)) then Ret (h, s, []) else
    match h_process_loop h (hs_round s) (hs_received s) (map_keys sched (st_received (abs_state h s))) with
    | RPanic w => Panics w
    | RErr (h1, k1) c t => let* r := h_reportError h1 (h_set_round s k1) c t in Ret (fst r, snd r, [])
    | ROk (h1, k1) _ =>
      let s1 := mkHs (hs_accepted s) ∅ (hs_queue s) (hs_timer s) (hs_roundNumber s) k1 (hs_closed s) (hs_done s) (hs_err s) in
      match hk_generate h1 k1 with
      | RPanic w => Panics w
      | RErr (h2, k2) c t => let* r := h_reportError h2 (h_set_round s1 k2) c t in Ret (fst r, snd r, [])
      | ROk (h2, k2) newMessages =>
        match hs_accepted s with
        | [] => Panics "slice bounds out of range [1:0]"
        | _ :: accepted' =>
          let '(received', queue') :=
            match accepted' with [] => (∅, hs_queue s) | ct :: _ => h_take_queue ct (hs_queue s) ∅ end in
          let s2 := mkHs accepted' received' queue' (hs_timer s) (hs_roundNumber s) k2 (hs_closed s) (hs_done s) (hs_err s) in
          match hk_next k2 with
          | None => let* r := h_finish h2 s2 in Ret (fst r, snd r, newMessages)
          | Some nr => Ret (h2, mkHs accepted' received' queue' (hs_timer s) (hs_roundNumber s + 1) nr
                              (hs_closed s) (hs_done s) (hs_err s), newMessages)
          end
        end
      end
    end.

  Definition h_timerExpire (now : Z) (s : hstate) : hstate :=
    match tm_deadline (hs_timer s) with
    | Some dl => if dl <=? now
                 then mkHs (hs_accepted s) (hs_received s) (hs_queue s)
                        (mkTimer (tm_d (hs_timer s)) None (S (tm_pending (hs_timer s))))
                        (hs_roundNumber s) (hs_round s) (hs_closed s) (hs_done s) (hs_err s)
                 else s
    | None => s
    end.
  Definition h_timerCallback (h : heap) (s : hstate) : outcome (heap * hstate) :=
    match tm_pending (hs_timer s) with
    | O => Ret (h, s)
    | S k =>
      h_reportError h (mkHs (hs_accepted s) (hs_received s) (hs_queue s)
                    (mkTimer (tm_d (hs_timer s)) (tm_deadline (hs_timer s)) k)
                    (hs_roundNumber s) (hs_round s) (hs_closed s) (hs_done s) (hs_err s)) 0 "message timeout"
    end.

  (** ** Several States on one heap *)
  Inductive hevent :=
  | HHandle (now : Z) (m : hmsg)           (* HandleMessage with a pointer the caller has *)
  | HDeliver (now : Z) (m : Message)       (* HandleMessage with a message unmarshalled for this call *)
  | HProcess (sched : list ID)
  | HExpire (now : Z)
  | HCallback.
  Definition h_step (h : heap) (s : hstate) (e : hevent) : outcome (heap * hstate * list hmsg) :=
    match e with
    | HHandle now m => Ret (h, h_HandleMessage now s m, [])
    | HDeliver now m => let '(h', p) := alloc h m in Ret (h', h_HandleMessage now s p, [])
    | HProcess sched => h_ProcessAll sched h s
    | HExpire now => Ret (h, h_timerExpire now s, [])
    | HCallback => let* r := h_timerCallback h s in Ret (fst r, snd r, [])
    end.
  Record world := mkWorld { w_heap : heap; w_state : nat -> hstate }.
  Definition w_step (w : world) (i : nat) (e : hevent) : outcome (world * list hmsg) :=
    let* r := h_step (w_heap w) (w_state w i) e in
    Ret (mkWorld (fst (fst r)) (fun j => if Nat.eqb i j then snd (fst r) else w_state w j), snd r).
  (** A history; the messages returned are collected with the State they come from and their content when returned. *)
  Fixpoint w_run (w : world) (es : list (nat * hevent)) : outcome (world * list (nat * hmsg * Message)) :=
    match es with
    | [] => Ret (w, [])
    | (i, e) :: es' =>
      obind (w_step w i e) (fun r1 =>
      obind (w_run (fst r1) es') (fun r2 =>
      Ret (fst r2, map (fun m => (i, m, deref (w_heap (fst r1)) m)) (snd r1) ++ snd r2)))
    end.
End Heap.
