(** A random source that may fail: pkg/internal/scalar/scalar.go:14-17 and pkg/internal/polynomial/polynomial.go:27-30 panic when a read of
    crypto/rand returns an error.  ProcessAll releases the mutex on the way out (state.go:136-137, a deferred Unlock), so a caller that recovers
    from the panic can go on using the State. *)
From Coq Require Import ZArith Lia List Bool String.
From Coq.Strings Require Import Byte.
From stdpp Require Import base gmap list.
From Verif Require Import ZField Primes Bytes Scalar Go Group Party Poly Zk Eddsa Messages State Keygen Sign.
Import ListNotations.
Local Open Scope Z_scope.

(** What the reads of one call of GenerateMessages return: the value of the k-th read, or an error (None). *)
Definition source := nat -> option Z.
Definition reads (src : source) : rng := fun k => default 0 (src k).
Definition ok_read (src : source) (k : nat) : bool := match src k with Some _ => true | None => false end.

Section RandFail.
  Context `{Gr : group_ops} `{Hf : hash_fn}.

  Section Machine.
    Context {R : Type} (I : RoundI R).
    (** [with_reads rg r] is the round [r] that will read [rg]; [failing src r] is what [r] is when its GenerateMessages panics because a
        read fails, None if it makes no read that fails. *)
    Context (with_reads : rng -> R -> R) (failing : source -> R -> option R).

    (** state.go:135-191 ProcessAll with the source [src]; the second component is None if the call panicked because a read failed.
        The messages processed have been removed by then (lines 155-158), the round has not been advanced. *)
    Definition broken_round (o : list ID) (src : source) (s : State R) : option R :=
      if st_done s then None else
      if negb (Z.of_nat (size (st_received s)) =? u16 (N_ids (r_ids I (st_round s)) - 1)) then None else
      match process_loop I (st_round s) (st_received s) (map_keys o (st_received s)) with ROk r _ => failing src r | _ => None end.
    Definition ProcessAll_src (o o' : list ID) (src : source) (s : State R) : outcome (State R * option (list Message)) :=
      match broken_round o src s with
      | Some r => Ret (mkState (st_accepted s) ∅ (st_queue s) (st_timer s) (st_roundNumber s) r (st_closed s) (st_done s) (st_err s), None)
      | None => obind (ProcessAll I o o' (set_round s (with_reads (reads src) (st_round s)))) (fun r => Ret (fst r, Some (snd r)))
      end.

    (** Histories: as in State.v, but every call of ProcessAll has a source, and a caller recovers from the panics of a failing source. *)
    Inductive fevent := FProcess (o o' : list ID) (src : source) | FOther (e : event).
    Definition fstep (s : State R) (e : fevent) : outcome (State R * option (list Message)) :=
      match e with
      | FProcess o o' src => ProcessAll_src o o' src s
      | FOther e => obind (step I s e) (fun r => Ret (fst r, Some (snd r)))
      end.
    (** The State, all messages returned, and whether a call panicked because a read failed. *)
    Fixpoint frun (s : State R) (es : list fevent) : outcome (State R * list Message * bool) :=
      match es with
      | [] => Ret (s, [], false)
      | e :: es' =>
        obind (fstep s e) (fun r1 => obind (frun (fst r1) es') (fun r2 =>
          Ret (fst (fst r2), default [] (snd r1) ++ snd (fst r2), match snd r1 with None => true | _ => snd r2 end)))
      end.
  End Machine.

  (** Only round 0 reads. *)
  Definition sg_with_reads (rg : rng) (s : sround) : sround :=
    if Nat.eqb (sr_no s) 0 then
      mkSround (sr_no s) (sr_self s) (sr_ids s) (sr_Message s) (sr_Parties s) (sr_GroupKey s) (sr_SecretKeyShare s)
        (sr_e s) (sr_d s) (sr_C s) (sr_R s) (sr_outp s) (sr_out s) rg
    else s.
  (** sign/round0.go:13-27 GenerateMessages up to a read that fails: at line 17 nothing has been assigned, at line 21 d and Di have. *)
  Definition sg_failing (src : source) (s : sround) : option sround :=
    match sr_no s, sr_Parties s !! sr_self s with
    | O, Some p =>
      if negb (ok_read src 0) then Some s
      else if negb (ok_read src 1) then
        let d := SetScalarRandom (reads src) 0 in
        Some (mkSround (sr_no s) (sr_self s) (sr_ids s) (sr_Message s)
                (<[sr_self s := mkSigner (sg_Public p) (gbmul d) (sg_Ei p) (sg_Ri p) (sg_Pi p) (sg_Zi p)]> (sr_Parties s))
                (sr_GroupKey s) (sr_SecretKeyShare s) (sr_e s) d (sr_C s) (sr_R s) (sr_outp s) (sr_out s) (sr_rng s))
      else None
    | _, _ => None
    end.

  Definition kg_with_reads (rg : rng) (k : kround) : kround :=
    if Nat.eqb (kr_no k) 0 then
      mkKround (kr_no k) (kr_self k) (kr_ids k) (kr_Threshold k) (kr_Secret k) (kr_Polynomial k) (kr_CommitmentsSum k)
        (kr_Commitments k) (kr_outp k) (kr_out k) rg
    else k.
  (** keygen/round0.go:15-40 GenerateMessages up to a read that fails: at line 17 nothing has been assigned; inside NewPolynomial (line 21)
      only Secret has; inside NewSchnorrProof (line 31) also Polynomial and CommitmentsSum. *)
  Definition kg_failing (src : source) (k : kround) : option kround :=
    match kr_no k with
    | O =>
      let t := Z.to_nat (kr_Threshold k) in
      let Secret := SetScalarRandom (reads src) 0 in
      let left poly csum := mkKround (kr_no k) (kr_self k) (kr_ids k) (kr_Threshold k) Secret poly csum
                              (kr_Commitments k) (kr_outp k) (kr_out k) (kr_rng k) in
      if negb (ok_read src 0) then Some k
      else match NewPolynomial (reads src) 1 (kr_Threshold k) Secret with
      | Ret poly =>
        if negb (forallb (ok_read src) (seq 1 t)) then Some (left (kr_Polynomial k) (kr_CommitmentsSum k))
        else if negb (ok_read src (S t)) then Some (left (Some poly) (Some (NewPolynomialExponent poly)))
        else None
      | _ => None
      end
    | _ => None
    end.

  Definition sign_frun := frun sign_round sg_with_reads sg_failing.
  Definition keygen_frun := frun keygen_round kg_with_reads kg_failing.
End RandFail.
Arguments fevent {Gr}.
