(** pkg/frost/keygen: the key generation protocol. *)
From Coq Require Import ZArith Lia List Bool String.
From Coq.Strings Require Import Byte.
From stdpp Require Import base gmap list.
From Verif Require Import ZField Primes Bytes Scalar Go Group Party Poly Zk Eddsa Messages State.
Import ListNotations.
Local Open Scope Z_scope.

Section Keygen.
  Context `{Gr : group_ops} `{Hf : hash_fn}.

  (** keygen/output.go:5-8 (pointers, nil until set) *)
  Record KOutput := mkKOutput { ko_Public : option Public; ko_SecretKey : option SecretShare }.

  (** keygen/base.go:14-42: round0, with the wrapper round1/round2 given by [kr_no].
      [kr_out] is the Output object shared with the caller, [kr_outp] whether round.Output still points to it.
      [kr_rng] is the randomness this party will read (read 0: Secret, reads 1..t: coefficients, read t+1: proof nonce). *)
  Record kround := mkKround {
    kr_no : nat;
    kr_self : ID;
    kr_ids : list ID;
    kr_Threshold : Z;
    kr_Secret : Fq;
    kr_Polynomial : option Polynomial;
    kr_CommitmentsSum : option Exponent;
    kr_Commitments : gmap ID Exponent;
    kr_outp : bool;
    kr_out : KOutput;
    kr_rng : rng
  }.

  (** state/base_round.go:15-23 NewBaseRound *)
  Definition NewBaseRound (selfID : ID) (partyIDs : list ID) : outcome (ID * list ID) :=
    if negb (Contains partyIDs selfID) then Fail "PartyIDs should contain selfID" else Ret (selfID, partyIDs).

  (** keygen/base.go:45-68 NewRound; [N-1] is uint16. *)
  Definition kg_NewRound (r : rng) (selfID : ID) (partyIDs : list ID) (threshold : Z) : outcome kround :=
    let N := N_ids partyIDs in
    if threshold =? 0 then Fail "threshold must be at least 1, or a minimum of T+1=2 signers" else
    if u16 (N - 1) <? threshold then Fail "threshold must be at most N-1, or a maximum of T+1=N signers" else
    let* base := NewBaseRound selfID partyIDs in
    Ret (mkKround 0 (fst base) (snd base) threshold f0 None None ∅ true (mkKOutput None None) r).

  (** keygen/base.go:70-78 Reset: a nil Polynomial or CommitmentsSum is dereferenced. *)
  Definition kg_Reset (k : kround) : outcome kround :=
    match kr_Polynomial k, kr_CommitmentsSum k with
    | Some p, Some c =>
      Ret (mkKround (kr_no k) (kr_self k) (kr_ids k) (kr_Threshold k) f0 (Some (poly_reset p)) (Some (exp_reset c))
             (exp_reset <$> kr_Commitments k) false (kr_out k) (kr_rng k))
    | _, _ => Panics "invalid memory address or nil pointer dereference"
    end.

  Definition ctx0 : list byte := repeat x00 32. (* round0.go:28, round1.go:12 *)

  Definition lift_r {A B} (x : outcome A) (f : A -> rres kround B) : rres kround B :=
    match x with Ret a => f a | Fail e => RPanic e | Panics w => RPanic w end.

  (** keygen/round0.go:15-40 GenerateMessages.  The functions called return no error, only values or panics. *)
  Definition kg0_generate (k : kround) : rres kround (list Message) :=
    let Secret := SetScalarRandom (kr_rng k) 0 in
    lift_r (NewPolynomial (kr_rng k) 1 (kr_Threshold k) Secret) (fun poly =>
    let csum := NewPolynomialExponent poly in
    lift_r (exp_constant csum) (fun public =>
    let nonce := SetScalarRandom (kr_rng k) (S (Z.to_nat (kr_Threshold k))) in
    lift_r (NewSchnorrProof nonce (kr_self k) public ctx0 Secret) (fun proof =>
    lift_r (id_scalar (kr_self k)) (fun self =>
    lift_r (poly_eval poly self) (fun share =>
    ROk (mkKround (kr_no k) (kr_self k) (kr_ids k) (kr_Threshold k) share (Some poly) (Some csum)
           (kr_Commitments k) (kr_outp k) (kr_out k) (kr_rng k))
        [NewKeyGen1 (kr_self k) proof csum]))))).

  (** keygen/round1.go:10-25 ProcessMessage.  A nil message or body is dereferenced; the error of
      CommitmentsSum.Add is dropped. *)
  Definition kg1_process (k : kround) (m : option Message) : rres kround unit :=
    match m with
    | None => RPanic "nil message"
    | Some msg =>
      match m_KeyGen1 msg with
      | None => RPanic "nil KeyGen1"
      | Some b =>
        let from := m_From msg in
        lift_r (exp_constant (k1_Commitments b)) (fun public =>
        lift_r (zk_Verify (k1_Proof b) from public ctx0) (fun ok =>
        if negb ok then RErr k from "ZK Schnorr failed" else
        match kr_CommitmentsSum k with
        | None => RPanic "nil CommitmentsSum"
        | Some csum =>
          let csum' := match exp_add csum (k1_Commitments b) with Ret c => c | _ => csum end in
          ROk (mkKround (kr_no k) (kr_self k) (kr_ids k) (kr_Threshold k) (kr_Secret k) (kr_Polynomial k) (Some csum')
                 (<[from := k1_Commitments b]> (kr_Commitments k)) (kr_outp k) (kr_out k) (kr_rng k)) tt
        end))
      end
    end.

  (** keygen/round1.go:27-41 GenerateMessages *)
  Definition kg1_generate (k : kround) : rres kround (list Message) :=
    match kr_Polynomial k with
    | None => RPanic "nil Polynomial"
    | Some poly =>
      lift_r (ofold (fun acc id =>
                if id =? kr_self k then Ret acc else
                let* x := id_scalar id in
                let* share := poly_eval poly x in
                Ret (acc ++ [NewKeyGen2 (kr_self k) id share])) [] (kr_ids k)) (fun msgs =>
      ROk (mkKround (kr_no k) (kr_self k) (kr_ids k) (kr_Threshold k) (kr_Secret k) (Some (poly_reset poly))
             (kr_CommitmentsSum k) (kr_Commitments k) (kr_outp k) (kr_out k) (kr_rng k)) msgs)
    end.

  (** keygen/round2.go:13-29 ProcessMessage.  (The share in the message object is also zeroed: see Heap.v.) *)
  Definition kg2_process (k : kround) (m : option Message) : rres kround unit :=
    match m with
    | None => RPanic "nil message"
    | Some msg =>
      match m_KeyGen2 msg with
      | None => RPanic "nil KeyGen2"
      | Some b =>
        let computedShareExp := gbmul (k2_Share b) in
        let id := m_From msg in
        match kr_Commitments k !! id with
        | None => RPanic "nil Exponent"
        | Some c =>
          lift_r (id_scalar (kr_self k)) (fun x =>
          lift_r (exp_eval c x) (fun shareExp =>
          if negb (geqb computedShareExp shareExp) then RErr k id "VSS failed to validate" else
          ROk (mkKround (kr_no k) (kr_self k) (kr_ids k) (kr_Threshold k) (fadd (kr_Secret k) (k2_Share b))
                 (kr_Polynomial k) (kr_CommitmentsSum k) (kr_Commitments k) (kr_outp k) (kr_out k) (kr_rng k)) tt))
        end
      end
    end.

  (** keygen/round2.go:31-44 GenerateMessages *)
  Definition kg2_generate (k : kround) : rres kround (list Message) :=
    match kr_CommitmentsSum k with
    | None => RPanic "nil CommitmentsSum"
    | Some csum =>
      lift_r (ofold (fun (acc : gmap ID G) id =>
                let* x := id_scalar id in
                let* e := exp_eval csum x in
                Ret (<[id := e]> acc)) ∅ (kr_ids k)) (fun shares =>
      lift_r (exp_constant csum) (fun gk =>
      if kr_outp k then
        ROk (mkKround (kr_no k) (kr_self k) (kr_ids k) (kr_Threshold k) (kr_Secret k) (kr_Polynomial k)
               (kr_CommitmentsSum k) (kr_Commitments k) (kr_outp k)
               (mkKOutput (Some (mkPublic (kr_ids k) (kr_Threshold k) shares gk))
                          (Some (NewSecretShare (kr_self k) (kr_Secret k)))) (kr_rng k)) []
      else RPanic "nil Output"))
    end.

  Definition kg_set_no (k : kround) (n : nat) : kround :=
    mkKround n (kr_self k) (kr_ids k) (kr_Threshold k) (kr_Secret k) (kr_Polynomial k) (kr_CommitmentsSum k)
      (kr_Commitments k) (kr_outp k) (kr_out k) (kr_rng k).

  (** The methods of round0, round1 and round2 (round0.go:11-13,42-44; round1.go:43-45; round2.go:46-48;
      base.go:84-86), dispatched on the round. *)
  Definition keygen_round : RoundI kround := {|
    r_self := kr_self;
    r_ids := kr_ids;
    r_accepted := fun _ => [MTNone; MTKeyGen1; MTKeyGen2];
    r_process := fun k m => match kr_no k with O => ROk k tt | 1%nat => kg1_process k m | _ => kg2_process k m end;
    r_generate := fun _ k => match kr_no k with O => kg0_generate k | 1%nat => kg1_generate k | _ => kg2_generate k end;
    r_next := fun k => match kr_no k with O => Some (kg_set_no k 1) | 1%nat => Some (kg_set_no k 2) | _ => None end;
    r_reset := kg_Reset
  |}.

  (** frost/frost.go:16-28 NewKeygenState.  The Output returned to the caller is [kr_out] of the round. *)
  Definition NewKeygenState (r : rng) (now timeout : Z) (selfID : ID) (partyIDs : list ID) (threshold : Z)
    : outcome (State kround) :=
    let* k := kg_NewRound r selfID partyIDs threshold in
    Ret (NewBaseState keygen_round now timeout k).
  Definition kg_output (s : State kround) : KOutput := kr_out (st_round s).
End Keygen.
