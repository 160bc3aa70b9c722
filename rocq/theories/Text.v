(** Text forms: ID.MarshalText/UnmarshalText (strconv) and Element.MarshalText/UnmarshalText
    (encoding/base64).  Definitions only. *)
From Coq Require Import ZArith Lia List Bool String.
From Coq.Strings Require Import Byte.
From Verif Require Import ZField Primes Bytes Scalar Go Group Fp EdPoint Ristretto.
Import ListNotations.
Local Open Scope Z_scope.

(** ** strconv *)
Definition chr (z : Z) : byte := z2b z.
(** strconv.FormatUint(u, 10) (dependency): the decimal digits, one at a time instead of two; 20 digits are enough for uint64. *)
Fixpoint format_loop (fuel : nat) (u : Z) (acc : list byte) : list byte :=
  match fuel with
  | O => acc
  | S k => if u <? 10 then chr (48 + u) :: acc else format_loop k (u / 10) (chr (48 + u mod 10) :: acc)
  end.
Definition FormatUint (u : Z) : list byte := format_loop 20 u [].

(** strconv.ParseUint(s, 10, 16) (dependency): the loop over the bytes; a letter is a digit of a larger base and is refused
    like any other byte.  The uint64 overflow tests cannot fire because n stays below 2^16. *)
Fixpoint parse_loop (n : Z) (s : list byte) : outcome Z :=
  match s with
  | [] => Ret n
  | c :: s' =>
    let d := b2z c - 48 in
    if (d <? 0) || (9 <? d) then Fail "invalid syntax" else
    let n1 := n * 10 + d in
    if 65535 <? n1 then Fail "value out of range" else parse_loop n1 s'
  end.
Definition ParseUint16 (s : list byte) : outcome Z :=
  match s with [] => Fail "invalid syntax" | _ => parse_loop 0 s end.

(** party/id.go:77-79 MarshalText; String (51-54) is the same text. *)
Definition id_MarshalText (id : Z) : list byte := FormatUint id.
(** party/id.go:83-93 UnmarshalText: the value stored in the receiver.  The test against _MAX = 2^32-1 follows. *)
Definition id_UnmarshalText (text : list byte) : outcome Z :=
  let* n := ParseUint16 text in
  if 2 ^ 32 - 1 <? n then Fail "party.ID: UnmarshalText: party ID overflows" else Ret (n mod 65536).

(** ** encoding/base64, StdEncoding *)
(** "A..Za..z0..9+/" *)
Definition b64_char (i : Z) : byte :=
  if i <? 26 then chr (65 + i) else if i <? 52 then chr (97 + (i - 26)) else if i <? 62 then chr (48 + (i - 52)) else if i =? 62 then "+"%byte else "/"%byte.
(** decodeMap; None is 0xff. *)
Definition b64_index (c : byte) : option Z :=
  let z := b2z c in
  if (65 <=? z) && (z <=? 90) then Some (z - 65) else
  if (97 <=? z) && (z <=? 122) then Some (z - 97 + 26) else
  if (48 <=? z) && (z <=? 57) then Some (z - 48 + 52) else
  if z =? 43 then Some 62 else if z =? 47 then Some 63 else None.
Definition pad : byte := "="%byte.

(** Encoding.Encode *)
Fixpoint b64_encode (src : list byte) : list byte :=
  match src with
  | [] => []
  | [a] => let v := b2z a * 65536 in [b64_char (v / 2 ^ 18 mod 64); b64_char (v / 2 ^ 12 mod 64); pad; pad]
  | [a; b] => let v := b2z a * 65536 + b2z b * 256 in
      [b64_char (v / 2 ^ 18 mod 64); b64_char (v / 2 ^ 12 mod 64); b64_char (v / 2 ^ 6 mod 64); pad]
  | a :: b :: c :: rest => let v := b2z a * 65536 + b2z b * 256 + b2z c in
      [b64_char (v / 2 ^ 18 mod 64); b64_char (v / 2 ^ 12 mod 64); b64_char (v / 2 ^ 6 mod 64); b64_char (v mod 64)] ++ b64_encode rest
  end.

(** Encoding.DecodeString: carriage returns and newlines are skipped wherever they are; the rest is read by decodeQuantum,
    four characters at a time; '=' can only end the last quantum; unused bits are ignored (the encoding is not strict). *)
Definition not_newline (c : byte) : bool := negb (Byte.eqb c "010"%byte || Byte.eqb c "013"%byte).
Fixpoint decode_quanta (fuel : nat) (s : list byte) : option (list byte) :=
  match fuel with
  | O => None
  | S k =>
    match s with
    | [] => Some []
    | c0 :: c1 :: c2 :: c3 :: rest =>
      match b64_index c0, b64_index c1 with
      | Some d0, Some d1 =>
        match b64_index c2 with
        | Some d2 =>
          match b64_index c3 with
          | Some d3 =>
            let v := d0 * 2 ^ 18 + d1 * 2 ^ 12 + d2 * 2 ^ 6 + d3 in
            match decode_quanta k rest with
            | Some l => Some (z2b (v / 65536) :: z2b (v / 256) :: z2b v :: l)
            | None => None
            end
          | None =>
            if Byte.eqb c3 pad then
              match rest with
              | [] => let v := d0 * 2 ^ 18 + d1 * 2 ^ 12 + d2 * 2 ^ 6 in Some [z2b (v / 65536); z2b (v / 256)]
              | _ => None
              end
            else None
          end
        | None =>
          if (Byte.eqb c2 pad && Byte.eqb c3 pad)%bool then
            match rest with
            | [] => let v := d0 * 2 ^ 18 + d1 * 2 ^ 12 in Some [z2b (v / 65536)]
            | _ => None
            end
          else None
        end
      | _, _ => None
      end
    | _ => None
    end
  end.
Definition b64_decode (text : list byte) : option (list byte) :=
  let s := filter not_newline text in decode_quanta (S (List.length s)) s.

(** ristretto.go:423-426 MarshalText *)
Definition r_MarshalText (e : xpt) : list byte := b64_encode (r_Bytes e).
(** ristretto.go:429-438 UnmarshalText: the new value of the receiver. *)
Definition r_UnmarshalText (text : list byte) : outcome xpt :=
  match b64_decode text with
  | None => Fail "illegal base64 data"
  | Some eb => r_SetCanonicalBytes eb
  end.
