(** What pkg/state promises about messages, stated without the code's tests (state.go:67-79 doc comment). *)
From Coq Require Import ZArith List Bool.
From stdpp Require Import base gmap list.
From Verif Require Import Go Group Party Messages State.
Import ListNotations.
Local Open Scope Z_scope.

Section SpecState.
  Context `{Gr : group_ops} {R : Type} (I : RoundI R).

  (** A message is meant for this party: another participant sent it to everybody or to us. *)
  Record for_us (s : State R) (m : Message) : Prop := {
    fu_participant : In (m_From m) (r_ids I (st_round s));
    fu_other : m_From m <> r_self I (st_round s);
    fu_addressed : m_To m = 0 \/ m_To m = r_self I (st_round s)
  }.

  (** ... and the State can take it now. *)
  Record acceptable (s : State R) (m : Message) : Prop := {
    ac_running : st_done s = false;
    ac_for_us : for_us s m;
    ac_first : st_received s !! m_From m = None;
    ac_type : In (m_Type m) (st_accepted s)
  }.

  (** The message is silently dropped: it is our own or addressed to somebody else. *)
  Definition not_for_us (s : State R) (m : Message) : Prop :=
    m_From m = r_self I (st_round s) \/ (m_To m <> 0 /\ m_To m <> r_self I (st_round s)).

  (** The round numbers in which a history emits messages, in order. *)
  Fixpoint emissions (s : State R) (es : list event) : list Z :=
    match es with
    | [] => []
    | e :: es' =>
      match step I s e with
      | Ret (s', out) => (match out with [] => [] | _ => [st_roundNumber s] end) ++ emissions s' es'
      | _ => []
      end
    end.

  (** s' is reached from s by some history, emitting [out]. *)
  Definition reaches (s s' : State R) (out : list Message) : Prop := exists es, run I s es = Ret (s', out).
End SpecState.
