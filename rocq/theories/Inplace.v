(** The decoders as they work in Go: on a receiver, part of which may be overwritten before an error is returned.
    The other files use the value decoded on success only. *)
From Coq Require Import ZArith Lia List Bool String.
From Coq.Strings Require Import Byte.
From stdpp Require Import base gmap list.
From Verif Require Import ZField Primes Bytes Scalar Go Group Party Poly Zk Eddsa Messages Text Spec_Json Json.
Import ListNotations.
Local Open Scope Z_scope.

(** The receiver after the call, and what the call returned. *)
Definition inplace (R : Type) : Type := R * outcome unit.

Section Inplace.
  Context `{Gr : group_ops} `{Hf : hash_fn}.

  (** Scalar.SetCanonicalBytes (dependency) and ristretto.go:283-351 Element.SetCanonicalBytes: the receiver is written last. *)
  Definition set_scalar (s : Fq) (b : list byte) : inplace Fq :=
    match scalar_set_canonical b with Some s' => (s', Ret tt) | None => (s, Fail "invalid scalar encoding") end.
  Definition set_element (e : G) (b : list byte) : inplace G :=
    match gdec b with Some e' => (e', Ret tt) | None => (e, Fail "ristretto: invalid element encoding") end.

  (** signature.go:57-73 UnmarshalBinary *)
  Definition sig_into (sig : Signature) (data : list byte) : inplace Signature :=
    if Nat.ltb (List.length data) 64 then (sig, Fail "sig: invalid message") else
    match set_element (sig_R sig) (firstn 32 data) with
    | (R, Ret _) =>
      match set_scalar (sig_S sig) (skipn 32 data) with
      | (s, Ret _) => (mkSig R s, Ret tt)
      | (s, _) => (mkSig R s, Fail "sig.S")
      end
    | (R, _) => (mkSig R (sig_S sig), Fail "sig.Ri")
    end.

  (** secret_share.go:42-57 UnmarshalBinary *)
  Definition share_into (sk : SecretShare) (data : list byte) : inplace SecretShare :=
    if negb (Nat.eqb (List.length data) 34) then (sk, Fail "SecretShare: data is not the right size") else
    match FromBytes data with
    | Ret id =>
      match set_scalar (sh_Secret sk) (skipn 2 data) with
      | (s, Ret _) => (mkSecretShare id s (gbmul s), Ret tt)
      | (s, _) => (mkSecretShare id s (sh_Public sk), Fail "invalid scalar encoding")
      end
    | Fail e => (mkSecretShare 0 (sh_Secret sk) (sh_Public sk), Fail e) (* FromBytes returns the ID 0 with its error *)
    | Panics w => (sk, Panics w)
    end.

  (** schnorr.go:103-117 UnmarshalBinary *)
  Definition schnorr_into (proof : Schnorr) (data : list byte) : inplace Schnorr :=
    if Nat.ltb (List.length data) 64 then (proof, Fail "length is wrong") else
    match set_scalar (pr_S proof) (firstn 32 data) with
    | (s, Ret _) =>
      match set_scalar (pr_R proof) (skipn 32 data) with
      | (r, Ret _) => (mkSchnorr s r, Ret tt)
      | (r, _) => (mkSchnorr s r, Fail "invalid scalar encoding")
      end
    | (s, _) => (mkSchnorr s (pr_R proof), Fail "invalid scalar encoding")
    end.

  (** exponent.go:17-20: the coefficients are pointers; nil is [None]. *)
  Definition ExponentP := list (option G).
  (** exponent.go:204-211: the coefficients from index [i] on are still nil; a failing SetCanonicalBytes returns nil. *)
  Fixpoint exp_loop (n : nat) (remaining : list byte) : inplace ExponentP :=
    match n with
    | O => ([], Ret tt)
    | S k =>
      match gdec (firstn 32 remaining) with
      | None => (repeat None (S k), Fail "ristretto: invalid element encoding")
      | Some A => let (rest, r) := exp_loop k (skipn 32 remaining) in (Some A :: rest, r)
      end
    end.
  (** exponent.go:185-213 UnmarshalBinary *)
  Definition exp_into (p : ExponentP) (data : list byte) : inplace ExponentP :=
    match FromBytes data with
    | Ret degree =>
      let coefficientCount := u16 (degree + 1) in
      let remaining := skipn 2 data in
      let count := Z.of_nat (List.length remaining) in
      if negb (count mod 32 =? 0) then (p, Fail "length of data is wrong") else
      if negb (count =? coefficientCount * 32) then (p, Fail "wrong number of coefficients embedded") else
      exp_loop (Z.to_nat coefficientCount) remaining
    | Fail e => (p, Fail e)
    | Panics w => (p, Panics w)
    end.
  (** exponent.go:215-221 BytesAppend, to an empty prefix: a nil coefficient is dereferenced. *)
  Definition expP_bytes (p : ExponentP) : outcome (list byte) :=
    ofold (fun acc c => match c with Some A => Ret (acc ++ genc A) | None => Panics "nil element" end)
      (id_bytes (u16 (u16 (Z.of_nat (List.length p)) - 1))) p.

  (** keygen1.go:11-14: two pointers. *)
  Record KeyGen1P := mkKeyGen1P { kp_Proof : option Schnorr; kp_Commitments : option ExponentP }.
  (** keygen1.go:49-65 UnmarshalBinary *)
  Definition k1_into (m : KeyGen1P) (data : list byte) : inplace KeyGen1P :=
    if Nat.ltb (List.length data) 64 then (m, Fail "msg1: invalid message") else
    match schnorr_into (mkSchnorr f0 f0) (firstn 64 data) with
    | (proof, Ret _) => let (c, r) := exp_into [] (skipn 64 data) in (mkKeyGen1P (Some proof) (Some c), r)
    | (proof, r) => (mkKeyGen1P (Some proof) (Some []), r)
    end.
  (** keygen2.go:39-46 *)
  Definition k2_into (m : KeyGen2) (data : list byte) : inplace KeyGen2 :=
    if negb (Nat.eqb (List.length data) 32) then (m, Fail "msg2: invalid message") else
    let (s, r) := set_scalar (k2_Share m) data in (mkKeyGen2 s, r).
  (** sign1.go:44-62 *)
  Definition s1_into (m : Sign1) (data : list byte) : inplace Sign1 :=
    if negb (Nat.eqb (List.length data) 64) then (m, Fail "msg1: invalid message") else
    match set_element (s1_Di m) (firstn 32 data) with
    | (D, Ret _) =>
      match set_element (s1_Ei m) (skipn 32 data) with
      | (E, Ret _) => (mkSign1 D E, Ret tt)
      | (E, _) => (mkSign1 D E, Fail "msg1.E")
      end
    | (D, _) => (mkSign1 D (s1_Ei m), Fail "msg1.D")
    end.
  (** sign2.go:39-50 *)
  Definition s2_into (m : Sign2) (data : list byte) : inplace Sign2 :=
    if negb (Nat.eqb (List.length data) 32) then (m, Fail "msg2: invalid message") else
    match set_scalar (s2_Zi m) data with
    | (s, Ret _) => (mkSign2 s, Ret tt)
    | (s, _) => (mkSign2 s, Fail "msg2.Zi")
    end.
  (** header.go:31-68: the receiver is written at the end. *)
  Definition header_into (h : Header) (data : list byte) : inplace Header :=
    match header_unmarshal data with
    | Ret h' => (h', Ret tt)
    | Fail e => (h, Fail e)
    | Panics w => (h, Panics w)
    end.

  (** A message with its bodies as pointers to what the in-place decoders leave. *)
  Record MessageP := mkMessageP {
    mp_Header : Header; mp_KeyGen1 : option KeyGen1P; mp_KeyGen2 : option KeyGen2; mp_Sign1 : option Sign1; mp_Sign2 : option Sign2
  }.
  (** messages.go:95-98 and the same lines of the other cases: [if err = x.UnmarshalBinary(data); err == nil { m.X = &x }]. *)
  Definition if_ok {A} (r : inplace A) (old : option A) : option A := match r with (x, Ret _) => Some x | _ => old end.
  (** messages.go:87-123 UnmarshalBinary; the zero Element of [var sign1 Sign1] is written [gid] (it is not read). *)
  Definition msg_into (m : MessageP) (data : list byte) : inplace MessageP :=
    match header_into (mp_Header m) data with
    | (h, Ret _) =>
      let body := skipn headerSize data in
      let '(mkMessageP _ k1 k2 s1 s2) := m in
      if h_Type h =? MTKeyGen1 then (mkMessageP h (if_ok (k1_into (mkKeyGen1P None None) body) k1) k2 s1 s2, Ret tt)
      else if h_Type h =? MTKeyGen2 then (mkMessageP h k1 (if_ok (k2_into (mkKeyGen2 f0) body) k2) s1 s2, Ret tt)
      else if h_Type h =? MTSign1 then (mkMessageP h k1 k2 (if_ok (s1_into (mkSign1 gid gid) body) s1) s2, Ret tt)
      else if h_Type h =? MTSign2 then (mkMessageP h k1 k2 s1 (if_ok (s2_into (mkSign2 f0) body) s2), Ret tt)
      else (mkMessageP h k1 k2 s1 s2, Fail "messages.UnmarshalBinary: invalid message type")
    | (h, r) => (mkMessageP h (mp_KeyGen1 m) (mp_KeyGen2 m) (mp_Sign1 m) (mp_Sign2 m), r)
    end.

  (** party/id.go:83-93 UnmarshalText *)
  Definition id_into (id : ID) (text : list byte) : inplace ID :=
    match id_UnmarshalText text with Ret id' => (id', Ret tt) | Fail e => (id, Fail e) | Panics w => (id, Panics w) end.
  (** ristretto.go:429-438 UnmarshalText *)
  Definition el_text_into (e : G) (text : list byte) : inplace G :=
    match b64_decode text with
    | None => (e, Fail "illegal base64 data")
    | Some eb => set_element e eb
    end.
  (** public_key.go:49-51 UnmarshalJSON; json.Unmarshal of null into a TextUnmarshaler that is no pointer does nothing. *)
  Definition pk_into (pk : PublicKey) (data : list byte) : inplace PublicKey :=
    match parse_json data with
    | None => (pk, Fail "json: syntax error")
    | Some JNull => (pk, Ret tt)
    | Some (JStr s) => el_text_into pk s
    | Some _ => (pk, Fail "json: cannot unmarshal")
    end.
  (** secret_share.go:73-84 UnmarshalJSON *)
  Definition share_json_into (sk : SecretShare) (data : list byte) : inplace SecretShare :=
    match parse_json data with
    | None => (sk, Fail "json: syntax error")
    | Some v =>
      match d_share v with
      | Ret out =>
        match set_scalar (sh_Secret sk) (snd out) with
        | (s, Ret _) => (mkSecretShare (u16 (fst out)) s (gbmul s), Ret tt)
        | (s, _) => (mkSecretShare (u16 (fst out)) s (sh_Public sk), Fail "invalid scalar encoding")
        end
      | Fail e => (sk, Fail e)
      | Panics w => (sk, Panics w)
      end
    end.
  (** public.go:81-100 UnmarshalJSON: [*s = *newS] is the last statement. *)
  Definition pub_json_into (sched : list ID) (s : Public) (data : list byte) : inplace Public :=
    match pub_UnmarshalJSON_text sched data with Ret p => (p, Ret tt) | Fail e => (s, Fail e) | Panics w => (s, Panics w) end.
End Inplace.
