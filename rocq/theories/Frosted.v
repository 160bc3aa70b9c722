(** The whole test of test/frosted.go, and how the UDP communicators are connected (test/internal/communication/local_constructors.go:10-25,
    udp.go). *)
From Coq Require Import ZArith Lia List Bool String.
From Coq.Strings Require Import Byte.
From stdpp Require Import base gmap list.
From Verif Require Import ZField Primes Bytes Scalar Go Group Party Poly Zk Eddsa Messages State Keygen Sign Cmd Loops Harness.
Import ListNotations.
Local Open Scope Z_scope.

Section Frosted.
  Context `{Gr : group_ops} `{Hf : hash_fn}.

  (** frosted.go:76-91 FROSTestUDP and :93-108 FROSTestChannel, which differ only in the transport.  [kfin] and [sfin] are what the goroutines
      have made of the Handlers' States when the program waits for them, [korder] and [sorder] the iteration orders of the maps of Handlers.
      None: blocks for ever.  The deferred destroyCommMap is the subject of Transport.v. *)
  Definition FROSTest (edv : list byte -> list byte -> list byte -> bool) (timeout : Z) (rg rg' : ID -> rng) (now now' : ID -> Z)
      (korder sorder : list ID) (kfin : ID -> State kround) (sfin : ID -> State sround) (N T : Z) : option (outcome unit) :=
    let '(message, keygenIDs, signIDs) := Setup N T in
    match keygen_handlers rg now timeout T keygenIDs with
    | Fail e => Some (Fail e)
    | Panics w => Some (Panics w)
    | Ret _ =>
      match collect_keygen korder kfin None ∅ with
      | None => None
      | Some (Fail e) => Some (Fail e)
      | Some (Panics w) => Some (Panics w)
      | Some (Ret (shares, secrets)) =>
        match shares with
        | None => Some (Panics "nil Public")
        | Some public =>
          match sign_handlers rg' now' timeout signIDs shares secrets message with
          | Fail e => Some (Fail e)
          | Panics w => Some (Panics w)
          | Ret _ => collect_sign edv (pub_GroupKey public) message sorder sfin
          end
        end
      end
    end.

  (** frosted.go:116-181 main: the lines it prints about the calls, [run udp N T] being what a call returns.  Printing stops (None at the end)
      at a call that blocks or panics.  Not modelled: the times printed, and the text of an error. *)
  Inductive line := LOk | LError | LOkFailed | LFailedToFail.
  Definition calls_of_main : list (bool * bool * Z * Z) := (* should it work, UDP, N, T; 16 bits *)
    flat_map (fun n => [(true, true, n, n / 2); (true, true, n, u16 (n - 1)); (true, false, n, n / 2); (true, false, n, u16 (n - 1))]) [5; 10; 50] ++
    flat_map (fun n => [(false, true, n, n); (false, true, n, 0); (false, true, n, u16 (n * 10))]) [5; 10; 50].
  Fixpoint main_lines (run : bool -> Z -> Z -> option (outcome unit)) (calls : list (bool * bool * Z * Z)) : list line * bool :=
    match calls with
    | [] => ([], true)
    | (good, udp, n, t) :: calls' =>
      match run udp n t with
      | Some (Ret _) => let '(l, b) := main_lines run calls' in ((if good then LOk else LFailedToFail) :: l, b)
      | Some (Fail _) => let '(l, b) := main_lines run calls' in ((if good then LError else LOkFailed) :: l, b)
      | _ => ([], false)
      end
    end.
End Frosted.

Section Udp.
  Context `{Gr : group_ops}.
  (** An address as text, and net.ResolveUDPAddr; [listen k] is the address of the k-th socket opened and its text. *)
  Context {A : Type} (resolve : A -> option Z) (listen : nat -> Z * A).

  (** udp.go:14-19.  A peer's address is nil (None) if it could not be resolved.  [ud_buffer] is the size of the buffer of the goroutine that
      reads the socket (udp.go:51), None before Start. *)
  Record udp := mkUdp { ud_id : ID; ud_addr : Z; ud_peers : gmap ID (option Z); ud_buffer : option nat }.
  (** udp.go:21-36 NewUDPCommunicator; a socket that cannot be opened (a panic) is not modelled. *)
  Definition NewUDPCommunicator (id : ID) (k : nat) : udp * A := (mkUdp id (fst (listen k)) ∅ None, snd (listen k)).
  (** udp.go:38-41 AddPeer: the error is dropped. *)
  Definition AddPeer (c : udp) (id : ID) (ip : A) : udp := mkUdp (ud_id c) (ud_addr c) (<[id := resolve ip]> (ud_peers c)) (ud_buffer c).
  (** udp.go:43-51 Start *)
  Definition udp_Start (c : udp) : udp := mkUdp (ud_id c) (ud_addr c) (ud_peers c) (Some (udp_buffer (size (ud_peers c)))).

  (** local_constructors.go:13-15: the loop over the IDs; [k] sockets have been opened. *)
  Fixpoint udp_open (IDs : list ID) (k : nat) (comms : gmap ID udp) (addresses : gmap ID A) : gmap ID udp * gmap ID A :=
    match IDs with
    | [] => (comms, addresses)
    | id :: IDs' => let '(c, a) := NewUDPCommunicator id k in udp_open IDs' (S k) (<[id := c]> comms) (<[id := a]> addresses)
    end.
  (** local_constructors.go:17-22, for one communicator: [order] is the order of the inner map iteration. *)
  Definition udp_connect (addresses : gmap ID A) (order : list ID) (id1 : ID) (c : udp) : udp :=
    udp_Start (fold_left (fun c id2 =>
      match addresses !! id2 with
      | Some addr => if id1 =? id2 then c else AddPeer c id2 addr
      | None => c
      end) (map_keys order addresses) c).
  (** local_constructors.go:10-25 NewUDPCommunicatorMap: [o1] and [o2] are the orders of the map iterations. *)
  Definition NewUDPCommunicatorMap (IDs : list ID) (o1 : list ID) (o2 : ID -> list ID) : gmap ID udp :=
    let '(comms, addresses) := udp_open IDs 0 ∅ ∅ in
    fold_left (fun m id1 => match m !! id1 with Some c => <[id1 := udp_connect addresses (o2 id1) id1 c]> m | None => m end) (map_keys o1 comms) comms.

  (** udp.go:76-83: a broadcast stops at the first error.  [wr k] tells whether the k-th write succeeds; a nil address is refused by
      net.UDPConn.WriteToUDP ("missing address").  The datagrams written come first. *)
  Fixpoint udp_broadcast (wr : nat -> bool) (k : nat) (b : list byte) (addrs : list (option Z)) : list (Z * list byte) * outcome unit :=
    match addrs with
    | [] => ([], Ret tt)
    | None :: _ => ([], Fail "missing address")
    | Some a :: addrs' =>
      if wr k then let '(l, r) := udp_broadcast wr (S k) b addrs' in ((a, b) :: l, r) else ([], Fail "write")
    end.
  (** udp.go:72-90 Send *)
  Definition udp_Send (wr : nat -> bool) (order : list ID) (c : udp) (m : Message) : list (Z * list byte) * outcome unit :=
    match msg_MarshalBinary m with
    | Fail e => ([], Fail e)
    | Panics w => ([], Panics w)
    | Ret b =>
      if IsBroadcast (m_Header m) then udp_broadcast wr 0 b (map (fun id => default None (ud_peers c !! id)) (map_keys order (ud_peers c)))
      else if m_To m =? ud_id c then ([], Ret tt)
      else udp_broadcast wr 0 b [default None (ud_peers c !! m_To m)]
    end.
  (** udp.go:92-97 Incoming and :107-109 Timeout, in milliseconds (channel.go:79-81: 0).  NewUDPCommunicator never leaves conn nil. *)
  Definition udp_Timeout : Z := 1500.
  Definition channel_Timeout : Z := 0.
End Udp.
