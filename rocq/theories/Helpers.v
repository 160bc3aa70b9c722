(** pkg/helpers: the dealer used by the tests and tools, and the lock-step driver of the commands. *)
From Coq Require Import ZArith Lia List Bool String.
From Coq.Strings Require Import Byte.
From stdpp Require Import base gmap list.
From Verif Require Import ZField Primes Bytes Scalar Go Group Party Poly Eddsa Messages State.
Import ListNotations.
Local Open Scope Z_scope.

Section Helpers.
  Context `{Gr : group_ops}.

  (** helpers/keys.go:11-23 GenerateSecrets.  Read 0 of [r] is the secret, reads 1..t are the other coefficients. *)
  Definition GenerateSecrets (r : rng) (set : list ID) (threshold : Z) : outcome (Fq * gmap ID SecretShare) :=
    if N_ids set <=? threshold then Panics "threshold must be at most the size of set minus 1" else
    let secret := SetScalarRandom r 0 in
    let* poly := NewPolynomial r 1 threshold secret in
    let* shares := ofold (fun (acc : gmap ID SecretShare) id =>
                      let* x := id_scalar id in
                      let* y := poly_eval poly x in
                      Ret (<[id := NewSecretShare id y]> acc)) ∅ set in
    Ret (secret, shares).

  (** helpers/keys.go:24-35 GeneratePublic; [sched] is the order of the map iteration in NewPublic. *)
  Definition GeneratePublic (sched : list ID) (threshold : Z) (secretShares : gmap ID SecretShare) : outcome Public :=
    match NewPublic sched ((fun sk => gbmul (sh_Secret sk)) <$> secretShares) threshold with
    | Ret p => Ret p
    | Fail e => Panics e
    | Panics w => Panics w
    end.

  (** helpers/parties.go:12-18 NewPartySlice: the loop [for i := ID(1); i <= n; i++] on uint16.
      [None] means that the loop has not ended after [fuel] iterations. *)
  Fixpoint party_loop (fuel : nat) (i n : Z) (acc : list ID) : option (list ID) :=
    match fuel with
    | O => None
    | S k => if i <=? n then party_loop k (u16 (i + 1)) n (acc ++ [i]) else Some acc
    end.
  Definition NewPartySlice (fuel : nat) (n : Z) : option (list ID) := party_loop fuel 1 n [].

  (** helpers/parties.go:20-22 GenerateSet *)
  Definition GenerateSet (fuel : nat) (n : Z) : option (list ID) := option_map NewIDSlice (NewPartySlice fuel n).

  (** helpers/parties.go:24-51 PartyRoutine.  The caller gets the new State also when an error is returned.
      A WrappedError or *Error is represented by a text only (its content is not used by the callers).
      IsFinished and WaitForError are called on the State that ProcessAll left: done, with the recorded error. *)
  Section Routine.
    Context {R : Type} (I : RoundI R).
    Fixpoint pr_handle (now : Z) (ins : list (list byte)) (s : State R) : State R * outcome unit :=
      match ins with
      | [] => (s, Ret tt)
      | b :: ins' =>
        match msg_UnmarshalBinary zero_message b with
        | Panics w => (s, Panics w)
        | Fail _ => (s, Fail "failed to unmarshal message")
        | Ret m =>
          match HandleMessage I now s m with
          | (s', Some _) => (s', Fail "failed to handle message")
          | (s', None) => pr_handle now ins' s'
          end
        end
      end.
    Fixpoint marshal_all (ms : list Message) : outcome (list (list byte)) :=
      match ms with
      | [] => Ret []
      | m :: ms' => let* b := msg_MarshalBinary m in let* bs := marshal_all ms' in Ret (b :: bs)
      end.
    Definition PartyRoutine (now : Z) (sched sched' : list ID) (ins : list (list byte)) (s : State R) : State R * outcome (list (list byte)) :=
      match pr_handle now ins s with
      | (s1, Fail e) => (s1, Fail e)
      | (s1, Panics w) => (s1, Panics w)
      | (s1, Ret _) =>
        match ProcessAll I sched sched' s1 with
        | Fail e => (s1, Fail e)
        | Panics w => (s1, Panics w)
        | Ret r =>
          let s2 := fst r in
          match marshal_all (snd r) with
          | Fail e => (s2, Fail e)
          | Panics w => (s2, Panics w)
          | Ret out =>
            if IsFinished s2 then match Err s2 with Some _ => (s2, Fail "protocol error") | None => (s2, Ret out) end
            else (s2, Ret out)
          end
        end
      end.
  End Routine.
End Helpers.
