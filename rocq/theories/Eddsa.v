(** pkg/eddsa: keys, shares, signatures. *)
From Coq Require Import ZArith Lia List Bool String.
From Coq.Strings Require Import Byte.
From stdpp Require Import base gmap list.
From Verif Require Import ZField Primes Bytes Scalar Go Group Party.
Import ListNotations.
Local Open Scope Z_scope.

Section Eddsa.
  Context `{Gr : group_ops} `{Hf : hash_fn}.

  (** signature.go:18-21 *)
  Record Signature := mkSig { sig_R : G; sig_S : Fq }.

  (** public_key.go:11-13: a PublicKey is a group element. *)
  Definition PublicKey := G.

  (** signature.go:24-29 ToEd25519 *)
  Definition sig_ToEd25519 (s : Signature) : list byte := gencEd (sig_R s) ++ scalar_bytes (sig_S s).

  (** public_key.go:39-41 ToEd25519 *)
  Definition pk_ToEd25519 (pk : PublicKey) : list byte := gencEd pk.

  (** signature.go:34-37: the bytes written to the hash. *)
  Definition challenge_input (R : G) (groupKey : PublicKey) (message : list byte) : list byte :=
    gencEd R ++ pk_ToEd25519 groupKey ++ message.

  (** signature.go:32-44 ComputeChallenge.  The digest has 64 bytes, so the panic is dead
      and is not modelled ([scalar_set_uniform] of a 64-byte string cannot fail). *)
  Definition ComputeChallenge (R : G) (groupKey : PublicKey) (message : list byte) : Fq :=
    scalar_set_uniform f0 (sha512 (challenge_input R groupKey message)).

  (** public_key.go:22-31 Verify *)
  Definition Verify (pk : PublicKey) (message : list byte) (s : Signature) : bool :=
    let challenge := ComputeChallenge (sig_R s) pk message in
    let publicNeg := gneg pk in
    let RPrime := gdsmul challenge publicNeg (sig_S s) in
    geqb RPrime (sig_R s).

  (** signature.go:75-79 BytesAppend *)
  Definition sig_bytes (s : Signature) : list byte := genc (sig_R s) ++ scalar_bytes (sig_S s).

  (** signature.go:57-73 UnmarshalBinary: value on success. *)
  Definition sig_unmarshal (data : list byte) : outcome Signature :=
    if Nat.ltb (List.length data) 64 then Fail "sig: invalid message" else
    match gdec (firstn 32 data) with
    | None => Fail "sig.Ri"
    | Some R =>
      match scalar_set_canonical (skipn 32 data) with
      | None => Fail "sig.S"
      | Some Sc => Ret (mkSig R Sc)
      end
    end.

  (** signature.go:85-97 Equal *)
  Definition sig_equal (s t : Signature) : bool := geqb (sig_R t) (sig_R s) && feqb (sig_S t) (sig_S s).

  (** secret_share.go:12-21 *)
  Record SecretShare := mkSecretShare { sh_ID : ID; sh_Secret : Fq; sh_Public : G }.

  (** secret_share.go:25-31 NewSecretShare *)
  Definition NewSecretShare (id : ID) (secret : Fq) : SecretShare := mkSecretShare id secret (gbmul secret).

  (** secret_share.go:34-39 MarshalBinary *)
  Definition share_bytes (sk : SecretShare) : list byte := id_bytes (sh_ID sk) ++ scalar_bytes (sh_Secret sk).

  (** secret_share.go:42-57 UnmarshalBinary *)
  Definition share_unmarshal (data : list byte) : outcome SecretShare :=
    if negb (Nat.eqb (List.length data) 34) then Fail "SecretShare: data is not the right size" else
    let* id := FromBytes data in
    match scalar_set_canonical (skipn 2 data) with
    | None => Fail "invalid scalar encoding"
    | Some s => Ret (mkSecretShare id s (gbmul s))
    end.

  (** secret_share.go:59-84 JSON form: the fields (id as Go int, secret bytes); the JSON text layer is not modelled. *)
  Definition share_MarshalJSON (sk : SecretShare) : Z * list byte := (sh_ID sk, scalar_bytes (sh_Secret sk)).
  Definition share_UnmarshalJSON (out : Z * list byte) : outcome SecretShare :=
    match scalar_set_canonical (snd out) with
    | None => Fail "invalid scalar encoding"
    | Some s => Ret (mkSecretShare (u16 (fst out)) s (gbmul s))
    end.

  (** secret_share.go:86-91 Equal *)
  Definition share_equal (a b : SecretShare) : bool := (sh_ID a =? sh_ID b) && feqb (sh_Secret a) (sh_Secret b).

  (** public.go:13-26 Public.  Shares is a Go map with non-nil values (see [PublicJSON] for nil values). *)
  Record Public := mkPublic {
    pub_PartyIDs : list ID;
    pub_Threshold : Z;
    pub_Shares : gmap ID G;
    pub_GroupKey : PublicKey
  }.

  (** The keys of a Go map in an order chosen by the run time: [sched] if it lists them, else a fixed order. *)
  Definition map_keys {A} (sched : list ID) (m : gmap ID A) : list ID :=
    let ks := (map_to_list m).*1 in
    if bool_decide (sched ≡ₚ ks) then sched else ks.

  (** public.go:53-63 computeGroupKey.  A Lagrange error is ignored by the code and the nil scalar is then
      dereferenced; a missing share is a nil element: both panic. *)
  Definition computeGroupKey (partyIDs : list ID) (shares : gmap ID G) : outcome PublicKey :=
    ofold (fun groupKey id =>
      match Lagrange id partyIDs with
      | Ret lagrange =>
        match shares !! id with
        | Some P => Ret (gadd groupKey (gsmul lagrange P))
        | None => Panics "nil element"
        end
      | _ => Panics "nil scalar"
      end) gid partyIDs.

  (** public.go:29-50 NewPublic; [s.Threshold+1] is uint16. *)
  Definition NewPublic (sched : list ID) (shares : gmap ID G) (threshold : Z) : outcome Public :=
    let IDs := map_keys sched shares in
    let set := NewIDSlice IDs in
    let* gk := computeGroupKey set shares in
    let s := mkPublic set threshold shares gk in
    if N_ids (pub_PartyIDs s) <? u16 (pub_Threshold s + 1)
    then Fail "PublicShares: Threshold should be < N - 1"
    else Ret s.

  (** public.go:65-69 sharesJSON: t as Go int; groupkey may be absent; a share may be null. The JSON text
      layer (encoding/json, base64 of elements) is not modelled here. *)
  Record sharesJSON := mkSharesJSON {
    js_t : Z; js_groupkey : option PublicKey; js_shares : gmap ID (option G)
  }.

  (** public.go:72-78 MarshalJSON *)
  Definition pub_MarshalJSON (s : Public) : sharesJSON :=
    mkSharesJSON (pub_Threshold s) (Some (pub_GroupKey s)) (Some <$> pub_Shares s).

  (** public.go:81-100 UnmarshalJSON after json.Unmarshal.  A null share or groupkey is a nil pointer that is dereferenced. *)
  Definition pub_UnmarshalJSON (sched : list ID) (out : sharesJSON) : outcome Public :=
    if bool_decide (map_Forall (fun _ x => x <> None) (js_shares out)) then
      let shares := omap id (js_shares out) in
      let* newS := NewPublic sched shares (u16 (js_t out)) in
      let* computed := computeGroupKey (pub_PartyIDs newS) shares in
      match js_groupkey out with
      | None => Panics "nil public key"
      | Some gk => if geqb computed gk then Ret newS else Fail "PublicShares: inconsistent group key"
      end
    else Panics "nil element".

  (** public.go:102-128 Equal.  A party without share is a nil element: panic. *)
  Definition pub_Equal (s s2 : Public) : outcome bool :=
    if negb (Nat.eqb (size (pub_Shares s)) (size (pub_Shares s2))) then Ret false else
    if negb (ids_equal (pub_PartyIDs s) (pub_PartyIDs s2)) then Ret false else
    if negb (pub_Threshold s =? pub_Threshold s2) then Ret false else
    if negb (geqb (pub_GroupKey s) (pub_GroupKey s2)) then Ret false else
    (fix loop ids := match ids with
       | [] => Ret true
       | id :: ids' =>
         match pub_Shares s !! id, pub_Shares s2 !! id with
         | Some p1, Some p2 => if geqb p1 p2 then loop ids' else Ret false
         | _, _ => Panics "nil element"
         end
       end) (pub_PartyIDs s).
End Eddsa.
