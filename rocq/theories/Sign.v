(** pkg/frost/sign: the signing protocol. *)
From Coq Require Import ZArith Lia List Bool String.
From Coq.Strings Require Import Byte.
From stdpp Require Import base gmap list.
From Verif Require Import ZField Primes Bytes Scalar Go Group Party Poly Zk Eddsa Messages State.
Import ListNotations.
Local Open Scope Z_scope.

Section Sign.
  Context `{Gr : group_ops} `{Hf : hash_fn}.

  (** sign/party.go:10-31 signer.  The zero Element (before Di, Ei, Ri are set) is written [gid];
      it is not read before being set. *)
  Record signer := mkSigner {
    sg_Public : G; sg_Di : G; sg_Ei : G; sg_Ri : G; sg_Pi : Fq; sg_Zi : Fq
  }.

  (** sign/base.go:14-43: round0, with the wrapper round1/round2 given by [sr_no].
      [sr_out] is Output.Signature as seen by the caller, [sr_outp] whether round.Output is non-nil.
      [sr_rng]: read 0 is d, read 1 is e. *)
  Record sround := mkSround {
    sr_no : nat;
    sr_self : ID;
    sr_ids : list ID;
    sr_Message : list byte;
    sr_Parties : gmap ID signer;
    sr_GroupKey : PublicKey;
    sr_SecretKeyShare : Fq;
    sr_e : Fq;
    sr_d : Fq;
    sr_C : Fq;
    sr_R : G;
    sr_outp : bool;
    sr_out : option Signature;
    sr_rng : rng
  }.

  (** sign/base.go:67-80: the loop that sets up Parties. *)
  Definition sg_setup (shares : Public) (partyIDs : list ID) : outcome (gmap ID signer) :=
    ofold (fun (acc : gmap ID signer) id =>
      if id =? 0 then Fail "base.NewRound: id 0 is not valid" else
      let* lagrange := Lagrange id partyIDs in
      match pub_Shares shares !! id with
      | None => Panics "nil element"
      | Some originalShare =>
        Ret (<[id := mkSigner (gsmul lagrange originalShare) gid gid gid f0 f0]> acc)
      end) ∅ partyIDs.

  (** sign/base.go:46-90 NewRound *)
  Definition sg_NewRound (r : rng) (partyIDs : list ID) (secret : SecretShare) (shares : Public) (message : list byte)
    : outcome sround :=
    if negb (Contains partyIDs (sh_ID secret))
    then Fail "base.NewRound: owner of SecretShare is not contained in partyIDs" else
    if negb (IsSubsetOf partyIDs (pub_PartyIDs shares))
    then Fail "base.NewRound: not all parties of partyIDs are contained in shares" else
    if negb (Contains partyIDs (sh_ID secret)) then Fail "base.NewRound: PartyIDs should contain selfID" else
    let* parties := sg_setup shares partyIDs in
    let* lagrange := Lagrange (sh_ID secret) partyIDs in
    Ret (mkSround 0 (sh_ID secret) partyIDs message parties (pub_GroupKey shares)
           (fmul lagrange (sh_Secret secret)) f0 f0 f0 gid true None r).

  (** sign/base.go:92-109 Reset (party.go:35-46: the signers are reset and removed). *)
  Definition sg_Reset (s : sround) : outcome sround :=
    Ret (mkSround (sr_no s) (sr_self s) (sr_ids s) [] ∅ (sr_GroupKey s) f0 f0 f0 f0 gid false (sr_out s) (sr_rng s)).

  Definition sg_set_parties (s : sround) (ps : gmap ID signer) : sround :=
    mkSround (sr_no s) (sr_self s) (sr_ids s) (sr_Message s) ps (sr_GroupKey s) (sr_SecretKeyShare s)
      (sr_e s) (sr_d s) (sr_C s) (sr_R s) (sr_outp s) (sr_out s) (sr_rng s).

  (** sign/round0.go:13-27 GenerateMessages *)
  Definition sg0_generate (s : sround) : rres sround (list Message) :=
    match sr_Parties s !! sr_self s with
    | None => RPanic "nil signer"
    | Some p =>
      let d := SetScalarRandom (sr_rng s) 0 in
      let Di := gbmul d in
      let e := SetScalarRandom (sr_rng s) 1 in
      let Ei := gbmul e in
      ROk (mkSround (sr_no s) (sr_self s) (sr_ids s) (sr_Message s)
             (<[sr_self s := mkSigner (sg_Public p) Di Ei (sg_Ri p) (sg_Pi p) (sg_Zi p)]> (sr_Parties s))
             (sr_GroupKey s) (sr_SecretKeyShare s) e d (sr_C s) (sr_R s) (sr_outp s) (sr_out s) (sr_rng s))
          [NewSign1 (sr_self s) Di Ei]
    end.

  (** sign/round1.go:16-26 ProcessMessage *)
  Definition sg1_process (s : sround) (m : option Message) : rres sround unit :=
    match m with
    | None => RPanic "nil message"
    | Some msg =>
      match m_Sign1 msg with
      | None => RPanic "nil Sign1"
      | Some b =>
        let id := m_From msg in
        if geqb (s1_Di b) gid || geqb (s1_Ei b) gid
        then RErr s id "commitment Ei or Di was the identity" else
        match sr_Parties s !! id with
        | None => RPanic "nil signer"
        | Some p => ROk (sg_set_parties s (<[id := mkSigner (sg_Public p) (s1_Di b) (s1_Ei b) (sg_Ri p) (sg_Pi p) (sg_Zi p)]> (sr_Parties s))) tt
        end
      end
    end.

  (** sign/round1.go:14 *)
  Definition hashDomainSeparation : list byte :=
    [x46; x52; x4f; x53; x54; x2d; x53; x48; x41; x35; x31; x32]. (* "FROST-SHA512" *)

  (** sign/round1.go:59-65: the list B. *)
  Definition rho_B (parties : gmap ID signer) (ids : list ID) : outcome (list byte) :=
    ofold (fun buf id =>
      match parties !! id with
      | None => Panics "nil signer"
      | Some p => Ret (buf ++ id_bytes id ++ genc (sg_Di p) ++ genc (sg_Ei p))
      end) [] ids.

  (** sign/round1.go:54-72: the buffer hashed for party [id] (the ID written at offsetID). *)
  Definition rho_buffer (message : list byte) (B : list byte) (id : ID) : list byte :=
    hashDomainSeparation ++ id_bytes id ++ sha512 message ++ B.

  (** sign/round1.go:28-75 computeRhos *)
  Definition computeRhos (s : sround) : outcome (gmap ID signer) :=
    let* B := rho_B (sr_Parties s) (sr_ids s) in
    ofold (fun ps id =>
      match ps !! id with
      | None => Panics "nil signer"
      | Some p =>
        let rho := scalar_set_uniform (sg_Pi p) (sha512 (rho_buffer (sr_Message s) B id)) in
        Ret (<[id := mkSigner (sg_Public p) (sg_Di p) (sg_Ei p) (sg_Ri p) rho (sg_Zi p)]> ps)
      end) (sr_Parties s) (sr_ids s).

  (** sign/round1.go:84-85 *)
  Definition set_Ri (p : signer) : signer :=
    mkSigner (sg_Public p) (sg_Di p) (sg_Ei p) (gadd (gsmul (sg_Pi p) (sg_Ei p)) (sg_Di p)) (sg_Pi p) (sg_Zi p).

  (** Sum over a map's values in the given iteration order. *)
  Definition sum_R (ps : gmap ID signer) (order : list ID) : G :=
    fold_left (fun acc id => match ps !! id with Some p => gadd acc (sg_Ri p) | None => acc end) order gid.
  Definition sum_Z (ps : gmap ID signer) (order : list ID) : Fq :=
    fold_left (fun acc id => match ps !! id with Some p => fadd acc (sg_Zi p) | None => acc end) order f0.

  (** sign/round1.go:77-107 GenerateMessages; the loop 81-89 visits every entry once, in the order [sched]. *)
  Definition sg1_generate (sched : list ID) (s : sround) : rres sround (list Message) :=
    match computeRhos s with
    | Fail e => RPanic e
    | Panics w => RPanic w
    | Ret ps =>
      let ps' := set_Ri <$> ps in
      let R := sum_R ps' (map_keys sched ps') in
      let C := ComputeChallenge R (sr_GroupKey s) (sr_Message s) in
      match ps' !! sr_self s with
      | None => RPanic "nil signer"
      | Some p =>
        let z := fadd (fadd (fmul (sr_e s) (sg_Pi p)) (fmul (sr_SecretKeyShare s) C)) (sr_d s) in
        let ps'' := <[sr_self s := mkSigner (sg_Public p) (sg_Di p) (sg_Ei p) (sg_Ri p) (sg_Pi p) z]> ps' in
        ROk (mkSround (sr_no s) (sr_self s) (sr_ids s) (sr_Message s) ps'' (sr_GroupKey s) (sr_SecretKeyShare s)
               (sr_e s) (sr_d s) C R (sr_outp s) (sr_out s) (sr_rng s))
            [NewSign2 (sr_self s) z]
      end
    end.

  (** sign/round2.go:17-31 ProcessMessage *)
  Definition sg2_process (s : sround) (m : option Message) : rres sround unit :=
    match m with
    | None => RPanic "nil message"
    | Some msg =>
      let id := m_From msg in
      match sr_Parties s !! id with
      | None => RPanic "nil signer"
      | Some p =>
        let publicNeg := gneg (sg_Public p) in
        match m_Sign2 msg with
        | None => RPanic "nil Sign2"
        | Some b =>
          let RPrime := gdsmul (sr_C s) publicNeg (s2_Zi b) in
          if negb (geqb RPrime (sg_Ri p)) then RErr s id "signature share is invalid" else
          ROk (sg_set_parties s (<[id := mkSigner (sg_Public p) (sg_Di p) (sg_Ei p) (sg_Ri p) (sg_Pi p) (s2_Zi b)]> (sr_Parties s))) tt
        end
      end
    end.

  (** sign/round2.go:33-53 GenerateMessages *)
  Definition sg2_generate (sched : list ID) (s : sround) : rres sround (list Message) :=
    let sumS := sum_Z (sr_Parties s) (map_keys sched (sr_Parties s)) in
    let sig := mkSig (sr_R s) sumS in
    if negb (Verify (sr_GroupKey s) (sr_Message s) sig) then RErr s 0 "full signature is invalid" else
    if sr_outp s then
      ROk (mkSround (sr_no s) (sr_self s) (sr_ids s) (sr_Message s) (sr_Parties s) (sr_GroupKey s) (sr_SecretKeyShare s)
             (sr_e s) (sr_d s) (sr_C s) (sr_R s) (sr_outp s) (Some sig) (sr_rng s)) []
    else RPanic "nil Output".

  Definition sg_set_no (s : sround) (n : nat) : sround :=
    mkSround n (sr_self s) (sr_ids s) (sr_Message s) (sr_Parties s) (sr_GroupKey s) (sr_SecretKeyShare s)
      (sr_e s) (sr_d s) (sr_C s) (sr_R s) (sr_outp s) (sr_out s) (sr_rng s).

  (** The methods of round0, round1, round2 (round0.go:9-11,29-31; round1.go:109-111; round2.go:55-57; base.go:111-117). *)
  Definition sign_round : RoundI sround := {|
    r_self := sr_self;
    r_ids := sr_ids;
    r_accepted := fun _ => [MTNone; MTSign1; MTSign2];
    r_process := fun k m => match sr_no k with O => ROk k tt | 1%nat => sg1_process k m | _ => sg2_process k m end;
    r_generate := fun sched k => match sr_no k with O => sg0_generate k | 1%nat => sg1_generate sched k | _ => sg2_generate sched k end;
    r_next := fun k => match sr_no k with O => Some (sg_set_no k 1) | 1%nat => Some (sg_set_no k 2) | _ => None end;
    r_reset := sg_Reset
  |}.

  (** frost/frost.go:33-41 NewSignState.  Output.Signature is [sr_out] of the round. *)
  Definition NewSignState (r : rng) (now timeout : Z) (partyIDs : list ID) (secret : SecretShare) (shares : Public)
      (message : list byte) : outcome (State sround) :=
    let* k := sg_NewRound r partyIDs secret shares message in
    Ret (NewBaseState sign_round now timeout k).
  Definition sg_output (s : State sround) : option Signature := sr_out (st_round s).
End Sign.
