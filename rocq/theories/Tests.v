(** The test functions of /repo (the *_test.go files and test/common.go), each as a function of its parameters and of the random
    values it draws.  [Ret true]: the test passes; [Ret false]: it reports a failure (t.Error, assert, require); [Panics]: it
    crashes.  The printing, the benchmark and the timing are left out.  Definitions only. *)
From Coq Require Import ZArith Lia List Bool String.
From Coq.Strings Require Import Byte.
From stdpp Require Import base gmap list.
From Verif Require Import ZField Primes Bytes Scalar Go Group Party Text Poly Zk Eddsa Messages State Keygen Sign Helpers Cmd Json Slices.
Import ListNotations.
Local Open Scope Z_scope.

(** party/id.go:66-74 RandID; [n] is what rand.Int31n(65536) returned.  Only the tests and the benchmark call it. *)
Definition RandID (n : Z) : ID := if n =? 0 then u16 (n + 1) else u16 n.

(** Several assertions in a row: the test passes if all hold. *)
Definition verdict (l : list bool) : outcome bool := Ret (forallb (fun b => b) l).
(** A loop of assertions: a failure is recorded and the loop goes on; a crash ends the test. *)
Definition all_cases {A} (f : A -> outcome bool) (l : list A) : outcome bool :=
  ofold (fun ok a => let* b := f a in Ret (ok && b)) true l.

(** internal/scalar/scalar.go:31-44 SetScalarUInt32, byte by byte. *)
Definition SetScalarUInt32 (x : Z) : outcome Fq :=
  match scalar_set_canonical ([z2b x; z2b (Z.shiftr x 8); z2b (Z.shiftr x 16); z2b (Z.shiftr x 24)] ++ repeat x00 28) with
  | Some s => Ret s
  | None => Panics "edwards25519: failed to set uint32 Scalar"
  end.
(** scalar/scalar_test.go:11-28 TestNewScalarUInt32, for the table [tests]. *)
Definition test_NewScalarUInt32 (tests : list Z) : outcome bool :=
  match scalar_set_canonical (x01 :: repeat x00 31) with
  | None => Ret false
  | Some one => all_cases (fun test => Ret (feqb (NewScalarUInt32 test) (Nat.iter (Z.to_nat test) (fun s => fadd s one) f0))) tests
  end.

(** party/id_test.go:52-63: one row of TestFromBytes. *)
Definition test_FromBytes (b : list byte) (want : ID) (wantErr : bool) : bool :=
  match FromBytes b with
  | Ret got => negb wantErr && (got =? want)
  | _ => wantErr && (0 =? want)
  end.
(** party/id_test.go:86-97: one row of TestID_MarshalText (MarshalText never returns an error). *)
Definition test_MarshalText (p : ID) (wantText : list byte) (wantErr : bool) : bool := negb wantErr && bytes_eqb (id_MarshalText p) wantText.
(** party/id_test.go:147-153: one row of TestID_UnmarshalText.  The value stored in tt.id is not looked at. *)
Definition test_UnmarshalText (text : list byte) (wantErr : bool) : bool :=
  match id_UnmarshalText text with Ret _ => negb wantErr | _ => wantErr end.

(** party/id_test.go:156-215 TestID_Lagrange, for any list of IDs and any [bad] instead of 0 and 42: the coefficients of all
    IDs exist and sum to 1; Lagrange of a bad ID returns nil and an error. *)
Definition test_Lagrange (partyIDs bad : list ID) : outcome bool :=
  let* r := ofold (fun (acc : Fq * bool) id =>
      match Lagrange id partyIDs with
      | Ret c => Ret (fadd (fst acc) c, snd acc)
      | Fail _ => Panics "nil Scalar"
      | Panics w => Panics w
      end) (f0, true) partyIDs in
  let* e := all_cases (fun id => match Lagrange id partyIDs with Ret _ => Ret false | Fail _ => Ret true | Panics w => Panics w end) bad in
  verdict [snd r; feqb (NewScalarUInt32 1) (fst r); e].

(** polynomial/polynomial_test.go:13-29 TestPolynomial_Evaluate; [draws] are the results of rand.Int31n.  The conversion of both
    uint64 values to int is injective. *)
Definition uint64_le (b : list byte) : Z := le_val (firstn 8 b).
Definition test_Polynomial_Evaluate (draws : list Z) : outcome bool :=
  let polynomial := [NewScalarUInt32 1; NewScalarUInt32 0; NewScalarUInt32 1] in
  all_cases (fun n =>
    let x := RandID n in
    let expectedResult := (1 + x * x) mod 2 ^ 64 in
    let* xs := id_scalar x in
    let* computed := poly_eval polynomial xs in
    Ret (expectedResult =? uint64_le (scalar_bytes computed))) draws.

Section Tests.
  Context `{Gr : group_ops} `{Hf : hash_fn}.

  (** polynomial/exponent_test.go:13-33: one iteration of TestExponent_Evaluate with degree [N]; [r]: the reads of crypto/rand,
      [n]: the result of rand.Int31n. *)
  Definition test_Exponent_Evaluate (N : Z) (r : rng) (n : Z) : outcome bool :=
    let secret := SetScalarRandom r 0 in
    let* poly := NewPolynomial r 1 N secret in
    let polyExp := NewPolynomialExponent poly in
    let* randomIndex := id_scalar (RandID n) in
    let* y := poly_eval poly randomIndex in
    let lhs := gbmul y in
    let* rhs1 := exp_eval_horner polyExp randomIndex in
    let* rhs2 := exp_eval_classic polyExp randomIndex in
    let* rhs3 := exp_eval_var polyExp randomIndex in
    verdict [geqb lhs rhs1; geqb lhs rhs2; geqb lhs rhs3].

  (** polynomial/exponent_test.go:64-94 TestSum for polynomials of degree [Deg], one for each source of randomness in [rs].  The error of Sum
      is dropped; Evaluate then dereferences nil. *)
  Definition test_Sum (Deg : Z) (rs : list rng) (n : Z) : outcome bool :=
    let* randomIndex := id_scalar (RandID n) in
    let* acc := ofold (fun (acc : list Exponent * Fq * G) r =>
        let '(polysExp, evaluationScalar, evaluationPartial) := acc in
        let* poly := NewPolynomial r 1 Deg (SetScalarRandom r 0) in
        let polyExp := NewPolynomialExponent poly in
        let* y := poly_eval poly randomIndex in
        let* Y := exp_eval polyExp randomIndex in
        Ret (polysExp ++ [polyExp], fadd evaluationScalar y, gadd evaluationPartial Y)) ([], f0, gid) rs in
    let '(polysExp, evaluationScalar, evaluationPartial) := acc in
    match exp_sum polysExp with
    | Ret summedExp =>
      let* evaluationSum := exp_eval summedExp randomIndex in
      let evaluationFromScalar := gbmul evaluationScalar in
      verdict [geqb evaluationSum evaluationFromScalar; geqb evaluationSum evaluationPartial]
    | Fail _ => Panics "nil Exponent"
    | Panics w => Panics w
    end.

  (** zk/schnorr_test.go:12-21 TestSchnorrProof; [k]: the nonce inside NewSchnorrProof. *)
  Definition test_SchnorrProof (partyID : ID) (ctx : list byte) (private k : Fq) : outcome bool :=
    let public := gbmul private in
    let* proof := NewSchnorrProof k partyID public ctx private in
    let publicComputed := gbmul private in
    let* ok := zk_Verify proof partyID public ctx in
    verdict [geqb publicComputed public; ok].

  (** require.NoError: a failed requirement ends the test. *)
  Definition require_ok {A} (o : outcome A) (k : A -> outcome bool) : outcome bool :=
    match o with Ret a => k a | Fail _ => Ret false | Panics w => Panics w end.
  (** CheckFROSTMarshaler (marshalling.go:23-65) and the message that it leaves in msg2. *)
  Definition check_decoded (grow : nat -> nat) (h : @arrays byte) (m : Message) : outcome Message :=
    let* _ := check_message grow h m zero_message in
    let* b := msg_MarshalBinary m in
    msg_UnmarshalBinary zero_message b.

  (** messages/keygen1_test.go:14-30 TestKeyGen1_MarshalBinary with degree [deg] and context [context]. *)
  Definition test_KeyGen1 (grow : nat -> nat) (h : @arrays byte) (n deg : Z) (r : rng) (k : Fq) (context : list byte) : outcome bool :=
    let from := RandID n in
    let secret := SetScalarRandom r 0 in
    let* poly := NewPolynomial r 1 deg secret in
    let comm := NewPolynomialExponent poly in
    let* cpub := exp_constant comm in
    let* csec := poly_constant poly in
    let* proof := NewSchnorrProof k from cpub context csec in
    let msg := NewKeyGen1 from proof comm in
    require_ok (check_decoded grow h msg) (fun msg2 => Ret (msg_Equal msg2 msg)).
  (** assert.Equal compares the two structures field by field (reflect.DeepEqual): here for messages that hold scalars only. *)
  Definition deep_equal_K2 (a b : Message) : bool :=
    header_equal (m_Header a) (m_Header b) && oequal k2_equal (m_KeyGen2 a) (m_KeyGen2 b) &&
    match m_KeyGen1 a, m_KeyGen1 b, m_Sign1 a, m_Sign1 b, m_Sign2 a, m_Sign2 b with None, None, None, None, None, None => true | _, _, _, _, _, _ => false end.
  Definition deep_equal_S2 (a b : Message) : bool :=
    header_equal (m_Header a) (m_Header b) && oequal s2_equal (m_Sign2 a) (m_Sign2 b) &&
    match m_KeyGen1 a, m_KeyGen1 b, m_KeyGen2 a, m_KeyGen2 b, m_Sign1 a, m_Sign1 b with None, None, None, None, None, None => true | _, _, _, _, _, _ => false end.
  (** messages/keygen2_test.go:13-23 TestKeyGen2_MarshalBinary; [a], [b]: the two results of rand.Uint32. *)
  Definition test_KeyGen2 (grow : nat -> nat) (h : @arrays byte) (a b : Z) (secret : Fq) : outcome bool :=
    let msg := NewKeyGen2 (u16 a) (u16 b) secret in
    require_ok (check_decoded grow h msg) (fun msg2 => Ret (deep_equal_K2 msg msg2)).
  (** messages/sign1_test.go:12-25 TestSign1_MarshalBinary with sender [from]. *)
  Definition test_Sign1 (grow : nat -> nat) (h : @arrays byte) (from : ID) (d e : Fq) : outcome bool :=
    let msg := NewSign1 from (gbmul d) (gbmul e) in
    require_ok (check_decoded grow h msg) (fun msgDec => Ret (msg_Equal msg msgDec)).
  (** messages/sign2_test.go:12-21 TestSign2_MarshalBinary *)
  Definition test_Sign2 (grow : nat -> nat) (h : @arrays byte) (n : Z) (s : Fq) : outcome bool :=
    let msg := NewSign2 (RandID n) s in
    require_ok (check_decoded grow h msg) (fun msg2 => Ret (deep_equal_S2 msg msg2)).
  (** messages/header_test.go:115-131: one row of TestHeader_UnmarshalBinary. *)
  Definition test_Header (h : Header) (data : list byte) (wantErr : bool) : bool :=
    match header_unmarshal data with
    | Ret h2 => negb wantErr && header_equal h h2
    | _ => wantErr
    end.

  (** eddsa/secret_share_test.go:27-59 TestSecretShare_MarshalJSON and TestSecretShare_MarshalBinary, for any ID and secret. *)
  Definition test_SecretShare_JSON (id : ID) (secret : Fq) : outcome bool :=
    let s := NewSecretShare id secret in
    match share_UnmarshalJSON_text (share_MarshalJSON_text s) with
    | Ret s2 => Ret (share_equal s2 s) | Fail _ => Ret false | Panics w => Panics w
    end.
  Definition test_SecretShare_Binary (id : ID) (secret : Fq) : outcome bool :=
    let s := NewSecretShare id secret in
    match share_unmarshal (share_bytes s) with
    | Ret s2 => Ret (share_equal s2 s) | Fail _ => Ret false | Panics w => Panics w
    end.

  (** eddsa/public_test.go:15-27 fakeShares and 33-42 of TestShares_GroupKey: the points of the drawn IDs; a repeated ID
      overwrites its entry. *)
  Definition fake_points (r : rng) (draws : list Z) (T : Z) : outcome (Fq * gmap ID G) :=
    let secret := SetScalarRandom r 0 in
    let* poly := NewPolynomial r 1 T secret in
    let* shares := ofold (fun (acc : gmap ID G) n =>
        let id := RandID n in
        let* x := id_scalar id in
        let* s := poly_eval poly x in
        Ret (<[id := gbmul s]> acc)) ∅ draws in
    Ret (secret, shares).
  (** eddsa/public_test.go:29-51 TestShares_GroupKey.  If NewPublic fails the failure is reported and the nil Public is
      dereferenced. *)
  Definition test_Shares_GroupKey (sched : list ID) (r : rng) (draws : list Z) (T : Z) : outcome bool :=
    let* d := fake_points r draws T in
    match NewPublic sched (snd d) T with
    | Ret s1 => Ret (geqb (gbmul (fst d)) (pub_GroupKey s1))
    | Fail _ => Panics "nil Public"
    | Panics w => Panics w
    end.
  (** eddsa/public_test.go:53-77 TestShares_MarshalJSON (the indentation of the text is not modelled: it does not change
      the value, C46_layout). *)
  Definition test_Shares_JSON (sched sched' : list ID) (r : rng) (draws : list Z) (T : Z) : outcome bool :=
    let* d := fake_points r draws T in
    match NewPublic sched (snd d) T with
    | Ret shares =>
      match pub_UnmarshalJSON_text sched' (pub_MarshalJSON_text shares) with
      | Ret s2 => let* e := pub_Equal shares s2 in verdict [geqb (gbmul (fst d)) (pub_GroupKey shares); e]
      | Fail _ => Ret false
      | Panics w => Panics w
      end
    | Fail _ => Panics "nil Public"
    | Panics w => Panics w
    end.

  (** Scalar.SetBytesWithClamping (dependency): the number of 32 bytes with the three low bits cleared, bit 255 cleared and bit
      254 set, modulo the order. *)
  Definition clamp (b : list byte) : Fq := qof (le_val b mod 2 ^ 254 / 8 * 8 + 2 ^ 254).
  (** eddsa/public_key_test.go:13-24 newKeyPair for a private key with the given seed (its first 32 bytes). *)
  Definition newKeyPair (seed : list byte) : Fq * PublicKey :=
    let sk := clamp (firstn 32 (sha512 seed)) in (sk, gbmul sk).
  (** eddsa/secret_share_test.go:10-25 SecretShare.sign with the nonce [r]. *)
  Definition share_sign (sk : SecretShare) (message : list byte) (r : Fq) : Signature :=
    let R := gbmul r in
    let c := ComputeChallenge R (sh_Public sk) message in
    mkSig R (fadd (fmul (sh_Secret sk) c) r).
  (** eddsa/signature_test.go:15-24 generateSignature *)
  Definition generateSignature (seed message : list byte) (r : Fq) : Signature * PublicKey :=
    let '(sk, pk) := newKeyPair seed in (share_sign (NewSecretShare 0 sk) message r, pk).
  (** eddsa/signature_test.go:26-35 TestSignature_Verify; [edv] is ed25519.Verify. *)
  Definition test_Signature_Verify (edv : list byte -> list byte -> list byte -> bool) (seed message : list byte) (r : Fq) : outcome bool :=
    let '(sig, pk) := generateSignature seed message r in
    verdict [Verify pk message sig; edv (pk_ToEd25519 pk) message (sig_ToEd25519 sig)].
  (** eddsa/signature_test.go:37-47 TestSignatureEncode_Decode *)
  Definition test_Signature_Encode (grow : nat -> nat) (h : @arrays byte) (seed message : list byte) (r : Fq) : outcome bool :=
    let '(signature, _) := generateSignature seed message r in
    require_ok (let* _ := check_signature grow h signature (mkSig gid f0) in sig_unmarshal (sig_bytes signature)) (fun out =>
      verdict [geqb (sig_R signature) (sig_R out); feqb (sig_S signature) (sig_S out)]).
  (** eddsa/public_key_test.go:26-40 TestPrivateKey_ToEd25519; [pkbytes]: the public key that ed25519.GenerateKey returned. *)
  Definition test_PrivateKey (seed pkbytes : list byte) : outcome bool :=
    let '(sk, pk) := newKeyPair seed in
    verdict [geqb pk (gbmul sk); geqb pk (gbmul sk); bytes_eqb (pk_ToEd25519 pk) pkbytes].
End Tests.

(** * test/keygen_test.go, test/sign_test.go, test/common.go *)
Section EndToEnd.
  Context `{Gr : group_ops} `{Hf : hash_fn}.

  (** keygen_test.go:84-116 CompareOutput: true if it returns nil. *)
  Definition CompareOutput (groupKey1 groupKey2 : PublicKey) (publicShares1 publicShares2 : Public) : outcome bool :=
    let* eq := pub_Equal publicShares1 publicShares2 in
    if negb eq then Ret false else
    let partyIDs1 := pub_PartyIDs publicShares1 in
    let partyIDs2 := pub_PartyIDs publicShares2 in
    if negb (Nat.eqb (List.length partyIDs1) (List.length partyIDs2)) then Ret false else
    let* same := (fix loop l1 l2 := match l1, l2 with
        | id1 :: l1', id2 :: l2' =>
          if negb (id1 =? id2) then Ret false else
          match pub_Shares publicShares1 !! id1, pub_Shares publicShares2 !! id2 with
          | Some public1, Some public2 => if negb (geqb public1 public2) then Ret false else loop l1' l2'
          | _, _ => Panics "nil Element"
          end
        | [], _ => Ret true
        | _ :: _, [] => Panics "index out of range"
        end) partyIDs1 partyIDs2 in
    if negb same then Ret false else
    if negb (geqb groupKey1 (pub_GroupKey publicShares1)) then Ret false else
    Ret (geqb groupKey2 (pub_GroupKey publicShares2)).

  (** keygen_test.go:118-145 ValidateSecrets: true if it returns nil; [sched]: the order of the loop over the map. *)
  Definition ValidateSecrets (sched : list ID) (secrets : gmap ID SecretShare) (groupKey : PublicKey) (shares : Public) : outcome bool :=
    let* full := (fix loop l (acc : Fq) : outcome (option Fq) := match l with
        | [] => Ret (Some acc)
        | id :: l' =>
          match secrets !! id with
          | None => loop l' acc
          | Some secret =>
            match pub_Shares shares !! id with
            | None => Ret None
            | Some pk2 =>
              if negb (geqb (sh_Public secret) pk2) then Ret None else
              match Lagrange id (pub_PartyIDs shares) with
              | Ret lagrange => loop l' (fadd (fmul lagrange (sh_Secret secret)) acc)
              | Fail _ => Ret None
              | Panics w => Panics w
              end
            end
          end
        end) (map_keys sched secrets) f0 in
    match full with
    | None => Ret false
    | Some fullSecret => Ret (geqb groupKey (gbmul fullSecret))
    end.

  (** keygen_test.go:16-82 TestKeygen, for any [N] and [T].  As in Cmd.v: [drive3] is the three loops over the States (the test
      goes on after an error of PartyRoutine, here the verdict is then [Ret false] at once); [wait] is WaitForError. *)
  Definition test_Keygen (fuel : nat) (rg : ID -> rng) (now : ID -> Z) (v : nat -> loop_env) (sched : list ID) (T N : Z) : option (outcome bool) :=
    match GenerateSet fuel N with
    | None => None
    | Some partyIDs => Some (
      match ofold (fun (acc : gmap ID (option (State kround))) id =>
          let* s := NewKeygenState (rg id) (now id) 0 id partyIDs T in
          Ret (<[id := Some s]> acc)) ∅ partyIDs with
      | Fail _ => Ret false
      | Panics w => Panics w
      | Ret states =>
        match drive3 keygen_round v states with
        | Fail _ => Ret false
        | Panics w => Panics w
        | Ret states =>
          match partyIDs with
          | [] => Panics "index out of range"
          | id1 :: _ =>
            require_ok (wait states id1) (fun s1 =>
            match ko_Public (kg_output s1) with
            | None => Panics "nil Public"
            | Some publicShares1 =>
              let groupKey1 := pub_GroupKey publicShares1 in
              require_ok (ofold (fun (acc : gmap ID SecretShare * bool) id2 =>
                  let* s2 := wait states id2 in
                  match ko_Public (kg_output s2), ko_SecretKey (kg_output s2) with
                  | Some publicShares2, Some sk =>
                    let* c := CompareOutput groupKey1 (pub_GroupKey publicShares2) publicShares1 publicShares2 in
                    Ret (<[id2 := sk]> (fst acc), snd acc && c)
                  | _, _ => Panics "nil Output"
                  end) (∅, true) partyIDs) (fun r =>
              let* ok := ValidateSecrets sched (fst r) groupKey1 publicShares1 in
              Ret (snd r && ok))
            end)
          end
        end
      end)
    end.

  (** common.go:11-17 setupParties: all IDs, the signers partyIDs[:t+1] (uint16 arithmetic), the dealt shares and the public data. *)
  Definition setupParties (fuel : nat) (r : rng) (sched : list ID) (t n : Z) : option (outcome (list ID * list ID * gmap ID SecretShare * Public)) :=
    match GenerateSet fuel n with
    | None => None
    | Some partyIDs => Some (
      let* d := GenerateSecrets r partyIDs t in
      let* publicShares := GeneratePublic sched t (snd d) in
      let k := u16 (t + 1) in
      if Z.of_nat (List.length partyIDs) <? k then Panics "slice bounds out of range" else
      Ret (partyIDs, firstn (Z.to_nat k) partyIDs, snd d, publicShares))
    end.

  (** sign_test.go:17-101 TestSign for any [N], [T] and message; an error of NewSignState leaves a nil State.  A missing first
      signature makes the test return without a failure (61-64). *)
  Definition test_Sign (edv : list byte -> list byte -> list byte -> bool) (fuel : nat) (r : rng) (sched : list ID) (rg : ID -> rng) (now : ID -> Z)
      (v : nat -> loop_env) (order : list ID) (message : list byte) (T N : Z) : option (outcome bool) :=
    match setupParties fuel r sched T N with
    | None => None
    | Some (Fail e) => Some (Fail e)
    | Some (Panics w) => Some (Panics w)
    | Some (Ret (_, signSet, secretShares, publicShares)) => Some (
      let* states := ofold (fun (acc : gmap ID (option (State sround))) id =>
          match secretShares !! id with
          | None => Panics "nil SecretShare"
          | Some sk =>
            match NewSignState (rg id) (now id) 0 signSet sk publicShares message with
            | Ret s => Ret (<[id := Some s]> acc)
            | Fail _ => Ret (<[id := None]> acc)
            | Panics w => Panics w
            end
          end) ∅ signSet in
      let pk := pub_GroupKey publicShares in
      match drive3 sign_round v states with
      | Fail _ => Ret false
      | Panics w => Panics w
      | Ret states =>
        match states !! 1 with
        | Some (Some s1) =>
          match sg_output s1 with
          | None => Ret true
          | Some sig =>
            let ok := edv (pk_ToEd25519 pk) message (sig_ToEd25519 sig) && Verify pk message sig in
            require_ok (ofold (fun (acc : bool) id =>
                let* s := wait states id in
                match sg_output s with
                | None => Panics "nil Signature"
                | Some comparedSig => Ret (acc && bytes_eqb (sig_bytes sig) (sig_bytes comparedSig))
                end) ok (map_keys order states)) (fun b => Ret b)
          end
        | _ => Panics "nil Output"
        end
      end)
    end.
End EndToEnd.
