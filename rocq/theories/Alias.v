(** Caller-owned buffers.  sign/base.go:59-65 stores the slice [message] in the round without copying it, and
    state/base_round.go:15-23 the slice [partyIDs]: what the caller writes into these slices later is what the rounds read.
    Here such writes are events of a history, between calls (writes during a call are data races and not modelled). *)
From Coq Require Import ZArith List Bool.
From Coq.Strings Require Import Byte.
From stdpp Require Import base gmap list.
From Verif Require Import ZField Bytes Scalar Go Group Party Poly Zk Eddsa Messages State Keygen Sign.
Import ListNotations.
Local Open Scope Z_scope.

Section Alias.
  Context `{Gr : group_ops} `{Hf : hash_fn}.
  (** sign/base.go:60: the bytes seen through round.Message *)
  Definition remsg (m : list byte) (k : sround) : sround :=
    mkSround (sr_no k) (sr_self k) (sr_ids k) m (sr_Parties k) (sr_GroupKey k) (sr_SecretKeyShare k)
      (sr_e k) (sr_d k) (sr_C k) (sr_R k) (sr_outp k) (sr_out k) (sr_rng k).
  Definition remsg_state (m : list byte) (s : State sround) : State sround := set_round s (remsg m (st_round s)).
  (** state/base_round.go:22: the IDs seen through round.partyIDs, in signing and in key generation *)
  Definition sg_reids (l : list ID) (s : State sround) : State sround := let k := st_round s in
    set_round s (mkSround (sr_no k) (sr_self k) l (sr_Message k) (sr_Parties k) (sr_GroupKey k) (sr_SecretKeyShare k)
      (sr_e k) (sr_d k) (sr_C k) (sr_R k) (sr_outp k) (sr_out k) (sr_rng k)).

  Inductive wevent :=
  | WCall (e : event)          (* a call, or the timer *)
  | WWrite (b : list byte).    (* the caller overwrites all bytes of the slice given to NewSignState *)

  (** A slice keeps its length.  After Reset (sign/base.go:96) round.Message is nil: the caller's writes are not seen any more. *)
  Definition wstep (s : State sround) (e : wevent) : outcome (State sround * list Message) :=
    match e with
    | WCall e => step sign_round s e
    | WWrite b => Ret (if Nat.eqb (List.length b) (List.length (sr_Message (st_round s))) then remsg_state b s else s, [])
    end.
  Fixpoint wrun (s : State sround) (es : list wevent) : outcome (State sround * list Message) :=
    match es with
    | [] => Ret (s, [])
    | e :: es' =>
      obind (wstep s e) (fun r1 =>
      obind (wrun (fst r1) es') (fun r2 =>
      Ret (fst r2, snd r1 ++ snd r2)))
    end.

  (** What the caller's slice contains after the events, when it contained [m] at first; and the calls alone. *)
  Definition buffer (m : list byte) (es : list wevent) : list byte :=
    fold_left (fun b e => match e with WWrite b' => if Nat.eqb (List.length b') (List.length m) then b' else b | WCall _ => b end) es m.
  Fixpoint calls (es : list wevent) : list event :=
    match es with [] => [] | WCall e :: es => e :: calls es | WWrite _ :: es => calls es end.
End Alias.
