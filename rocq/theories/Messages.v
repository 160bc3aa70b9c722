(** pkg/messages: message types and wire format. *)
From Coq Require Import ZArith Lia List Bool String.
From Coq.Strings Require Import Byte.
From Verif Require Import ZField Primes Bytes Scalar Go Group Party Poly Zk.
Import ListNotations.
Local Open Scope Z_scope.

(** messages.go:18-27 MessageType (uint8). *)
Definition MTNone : Z := 0.
Definition MTKeyGen1 : Z := 1.
Definition MTKeyGen2 : Z := 2.
Definition MTSign1 : Z := 3.
Definition MTSign2 : Z := 4.

(** header.go:12-24 *)
Record Header := mkHeader { h_Type : Z; h_From : ID; h_To : ID }.
Definition headerSize : nat := 5. (* header.go:10 *)

(** header.go:107-109 *)
Definition IsBroadcast (h : Header) : bool := h_To h =? 0.

(** header.go:48-62 and 71-85: the same checks when decoding and encoding ([fn] is the function's name). *)
Definition header_check (fn : string) (h : Header) : outcome unit :=
  let t := h_Type h in
  let* _ := (if (t =? MTKeyGen1) || (t =? MTSign1) || (t =? MTSign2) then
              if negb (h_To h =? 0) then Fail (fn ++ ": .To field must be 0 to indicate broadcast") else Ret tt
            else if t =? MTKeyGen2 then
              if h_To h =? 0 then Fail (fn ++ ": MessageTypeKeyGen2 requires a sender (.To field)") else Ret tt
            else Fail (fn ++ ": invalid message type")) in
  if h_From h =? 0 then Fail (fn ++ ": message must include a non 0 From value") else Ret tt.

(** header.go:31-68 UnmarshalBinary *)
Definition header_unmarshal (data : list byte) : outcome Header :=
  match data with
  | t :: f1 :: f2 :: t1 :: t2 :: _ =>
    let h := mkHeader (b2z t) (be16_val f1 f2) (be16_val t1 t2) in
    let* _ := header_check "Header.UnmarshalBinary" h in Ret h
  | _ => Fail "Header.UnmarshalBinary: data should be at least 5 bytes"
  end.

(** header.go:70-90 BytesAppend (to an empty prefix) *)
Definition header_bytes (h : Header) : outcome (list byte) :=
  let* _ := header_check "Header.BytesAppend" h in
  Ret (z2b (h_Type h) :: id_bytes (h_From h) ++ id_bytes (h_To h)).

(** header.go:96-104 Equal *)
Definition header_equal (a b : Header) : bool :=
  (h_Type a =? h_Type b) && (h_From a =? h_From b) && (h_To a =? h_To b).

Section Messages.
  Context `{Gr : group_ops}.

  (** keygen1.go:11-14 (both pointers are set by NewKeyGen1's callers and by UnmarshalBinary) *)
  Record KeyGen1 := mkKeyGen1 { k1_Proof : Schnorr; k1_Commitments : Exponent }.
  (** keygen2.go:12-15 *)
  Record KeyGen2 := mkKeyGen2 { k2_Share : Fq }.
  (** sign1.go:12-16 *)
  Record Sign1 := mkSign1 { s1_Di : G; s1_Ei : G }.
  (** sign2.go:12-16 *)
  Record Sign2 := mkSign2 { s2_Zi : Fq }.

  (** messages.go:8-14; the bodies are pointers, possibly nil. *)
  Record Message := mkMessage {
    m_Header : Header;
    m_KeyGen1 : option KeyGen1;
    m_KeyGen2 : option KeyGen2;
    m_Sign1 : option Sign1;
    m_Sign2 : option Sign2
  }.
  Definition m_Type (m : Message) : Z := h_Type (m_Header m).
  Definition m_From (m : Message) : ID := h_From (m_Header m).
  Definition m_To (m : Message) : ID := h_To (m_Header m).

  (** keygen1.go:16-27, keygen2.go:17-26, sign1.go:18-29, sign2.go:18-26 *)
  Definition NewKeyGen1 (from : ID) (proof : Schnorr) (c : Exponent) : Message :=
    mkMessage (mkHeader MTKeyGen1 from 0) (Some (mkKeyGen1 proof c)) None None None.
  Definition NewKeyGen2 (from to : ID) (share : Fq) : Message :=
    mkMessage (mkHeader MTKeyGen2 from to) None (Some (mkKeyGen2 share)) None None.
  Definition NewSign1 (from : ID) (D E : G) : Message :=
    mkMessage (mkHeader MTSign1 from 0) None None (Some (mkSign1 D E)) None.
  Definition NewSign2 (from : ID) (z : Fq) : Message :=
    mkMessage (mkHeader MTSign2 from 0) None None None (Some (mkSign2 z)).

  (** keygen1.go:29-40 BytesAppend *)
  Definition k1_bytes (k : KeyGen1) : list byte := schnorr_bytes (k1_Proof k) ++ exp_bytes (k1_Commitments k).
  (** keygen2.go:28-30 *)
  Definition k2_bytes (k : KeyGen2) : list byte := scalar_bytes (k2_Share k).
  (** sign1.go:31-35 *)
  Definition s1_bytes (s : Sign1) : list byte := genc (s1_Di s) ++ genc (s1_Ei s).
  (** sign2.go:28-30 *)
  Definition s2_bytes (s : Sign2) : list byte := scalar_bytes (s2_Zi s).

  (** keygen1.go:49-65 UnmarshalBinary *)
  Definition k1_unmarshal (data : list byte) : outcome KeyGen1 :=
    if Nat.ltb (List.length data) 64 then Fail "msg1: invalid message" else
    let* proof := schnorr_unmarshal (firstn 64 data) in
    let* c := exp_unmarshal (skipn 64 data) in
    Ret (mkKeyGen1 proof c).
  (** keygen2.go:39-46 *)
  Definition k2_unmarshal (data : list byte) : outcome KeyGen2 :=
    if negb (Nat.eqb (List.length data) 32) then Fail "msg2: invalid message" else
    let* s := oret_option "invalid scalar encoding" (scalar_set_canonical data) in Ret (mkKeyGen2 s).
  (** sign1.go:44-62 *)
  Definition s1_unmarshal (data : list byte) : outcome Sign1 :=
    if negb (Nat.eqb (List.length data) 64) then Fail "msg1: invalid message" else
    let* D := oret_option "msg1.D" (gdec (firstn 32 data)) in
    let* E := oret_option "msg1.E" (gdec (skipn 32 data)) in
    Ret (mkSign1 D E).
  (** sign2.go:39-50 *)
  Definition s2_unmarshal (data : list byte) : outcome Sign2 :=
    if negb (Nat.eqb (List.length data) 32) then Fail "msg2: invalid message" else
    let* s := oret_option "msg2.Zi" (scalar_set_canonical data) in Ret (mkSign2 s).

  (** messages.go:29-55 BytesAppend (to an empty prefix), which is MarshalBinary (80-84). *)
  Definition msg_MarshalBinary (m : Message) : outcome (list byte) :=
    let* h := header_bytes (m_Header m) in
    let body := if m_Type m =? MTKeyGen1 then option_map k1_bytes (m_KeyGen1 m)
           else if m_Type m =? MTKeyGen2 then option_map k2_bytes (m_KeyGen2 m)
           else if m_Type m =? MTSign1 then option_map s1_bytes (m_Sign1 m)
           else if m_Type m =? MTSign2 then option_map s2_bytes (m_Sign2 m)
           else None in
    match body with
    | Some b => Ret (h ++ b)
    | None => Fail "message does not contain any data"
    end.

  (** messages.go:57-78 Size *)
  Definition osize {A} (f : A -> Z) (x : option A) : Z := match x with Some a => f a | None => 0 end.
  Definition msg_Size (m : Message) : Z :=
    Z.of_nat headerSize +
    (if m_Type m =? MTKeyGen1 then osize (fun k => 64 + exp_size (k1_Commitments k)) (m_KeyGen1 m)
     else if m_Type m =? MTKeyGen2 then osize (fun _ => 32) (m_KeyGen2 m)
     else if m_Type m =? MTSign1 then osize (fun _ => 64) (m_Sign1 m)
     else if m_Type m =? MTSign2 then osize (fun _ => 32) (m_Sign2 m)
     else 0).

  (** Assign the decoded body, or keep the receiver's on a decoding error ([if err = ...; err == nil]). *)
  Definition assign {A} (old : option A) (r : outcome A) : outcome (option A) :=
    match r with Ret a => Ret (Some a) | Fail _ => Ret old | Panics w => Panics w end.

  (** messages.go:87-123 UnmarshalBinary into the receiver [m].  A body decoding error is dropped:
      the function returns nil with that body field untouched. *)
  Definition msg_UnmarshalBinary (m : Message) (data : list byte) : outcome Message :=
    let* h := header_unmarshal data in
    let body := skipn headerSize data in
    let '(mkMessage _ k1 k2 s1 s2) := m in
    if h_Type h =? MTKeyGen1 then
      let* k := assign k1 (k1_unmarshal body) in Ret (mkMessage h k k2 s1 s2)
    else if h_Type h =? MTKeyGen2 then
      let* k := assign k2 (k2_unmarshal body) in Ret (mkMessage h k1 k s1 s2)
    else if h_Type h =? MTSign1 then
      let* s := assign s1 (s1_unmarshal body) in Ret (mkMessage h k1 k2 s s2)
    else if h_Type h =? MTSign2 then
      let* s := assign s2 (s2_unmarshal body) in Ret (mkMessage h k1 k2 s1 s)
    else Fail "messages.UnmarshalBinary: invalid message type".

  (** The zero value [var msg messages.Message]. *)
  Definition zero_message : Message := mkMessage (mkHeader 0 0 0) None None None None.

  (** keygen1.go:71-83, keygen2.go:52-61, sign1.go:68-80, sign2.go:56-65 Equal *)
  Definition k1_equal (a b : KeyGen1) : bool :=
    schnorr_equal (k1_Proof b) (k1_Proof a) && exp_equal (k1_Commitments b) (k1_Commitments a).
  Definition k2_equal (a b : KeyGen2) : bool := feqb (k2_Share b) (k2_Share a).
  Definition s1_equal (a b : Sign1) : bool := geqb (s1_Di b) (s1_Di a) && geqb (s1_Ei b) (s1_Ei a).
  Definition s2_equal (a b : Sign2) : bool := feqb (s2_Zi b) (s2_Zi a).

  (** messages.go:125-154 Equal *)
  Definition oequal {A} (f : A -> A -> bool) (x y : option A) : bool :=
    match x, y with Some a, Some b => f a b | _, _ => false end.
  Definition msg_Equal (m o : Message) : bool :=
    header_equal (m_Header m) (m_Header o) &&
    (if m_Type m =? MTKeyGen1 then oequal k1_equal (m_KeyGen1 m) (m_KeyGen1 o)
     else if m_Type m =? MTKeyGen2 then oequal k2_equal (m_KeyGen2 m) (m_KeyGen2 o)
     else if m_Type m =? MTSign1 then oequal s1_equal (m_Sign1 m) (m_Sign1 o)
     else if m_Type m =? MTSign2 then oequal s2_equal (m_Sign2 m) (m_Sign2 o)
     else false).
End Messages.
