(** What it means that a network makes another attempt: everything sent so far is delivered again. *)
From Coq Require Import ZArith List Bool.
From stdpp Require Import base gmap list.
From Verif Require Import Go Group Party Messages State Net.
Import ListNotations.
Local Open Scope Z_scope.

Section SpecLive.
  Context `{Gr : group_ops} {R : Type} (I : RoundI R).

  (** The steps of [net_step] with their labels: the party that makes the step and the event. *)
  Inductive net_trace (ids : list Z) : config (R := R) -> list (Z * event) -> config (R := R) -> Prop :=
  | nt_nil c : net_trace ids c [] c
  | nt_cons c i e s' o l c' : In i ids -> (forall now m, e = EHandle now m -> exists m0, In m0 (cf_sent c) /\ same_msg m0 m) ->
      step I (cf_state c i) e = Ret (s', o) -> net_trace ids (cf_set c i s' o) l c' -> net_trace ids c ((i, e) :: l) c'.

  (** A sequence of steps in which every party is given, at least once, every message that was sent to it before the sequence
      began, and calls ProcessAll at some time after that.  The steps of different parties may be mixed in any way, anything
      may happen in between, and messages may be delivered in any order and more than once. *)
  Definition sweep (ids : list Z) (c : config (R := R)) (l : list (Z * event)) : Prop :=
    forall i, In i ids -> exists l1 a b l2, l = l1 ++ (i, EProcess a b) :: l2 /\
      forall m, In m (cf_sent c) -> m_From m <> i -> (m_To m = 0 \/ m_To m = i) -> exists now m', In (i, EHandle now m') l1 /\ same_msg m m'.

  (** No timer callback runs in these steps. *)
  Definition no_callback (l : list (Z * event)) : Prop := forall i e, In (i, e) l -> e <> ECallback.
End SpecLive.
