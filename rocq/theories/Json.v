(** encoding/json (dependency) as far as /repo uses it, and the JSON texts of SecretShare, Public, PublicKey and of the
    key file.  Definitions only.  The part on encoding/json is written from its documentation and source (Go 1.15-1.20), not
    from /repo. *)
From Coq Require Import ZArith Lia List Bool String.
From Coq.Strings Require Import Byte.
From stdpp Require Import base gmap list.
From Verif Require Import ZField Primes Bytes Scalar Go Group Party Poly Zk Eddsa Messages State Keygen Sign Helpers Cmd Text Spec_Json.
Import ListNotations.
Local Open Scope Z_scope.

Definition bs (s : string) : list byte := list_byte_of_string s.
Definition quote : byte := "034"%byte.
Definition backslash : byte := "\"%byte.
Definition beq (a b : byte) : bool := Byte.eqb a b.

(** ** scanner.go, decode.go: reading a text.  checkValid scans the whole input first; then the values are decoded. *)
Definition isSpace (c : byte) : bool := beq c " " || beq c "009" || beq c "013" || beq c "010".
Fixpoint skip_ws (s : list byte) : list byte :=
  match s with
  | [] => []
  | c :: s' => if isSpace c then skip_ws s' else s
  end.

Definition in_range (lo hi : Z) (c : byte) : bool := (lo <=? b2z c) && (b2z c <=? hi).
Definition isDigit : byte -> bool := in_range 48 57.
Definition hex_val (c : byte) : option Z :=
  if in_range 48 57 c then Some (b2z c - 48) else if in_range 97 102 c then Some (b2z c - 87) else if in_range 65 70 c then Some (b2z c - 55) else None.
(** getu4, after \u: the value of four hexadecimal digits and the rest. *)
Definition hex4 (s : list byte) : option (Z * list byte) :=
  match s with
  | a :: b :: c :: d :: s' =>
    match hex_val a, hex_val b, hex_val c, hex_val d with
    | Some za, Some zb, Some zc, Some zd => Some (((za * 16 + zb) * 16 + zc) * 16 + zd, s')
    | _, _, _, _ => None
    end
  | _ => None
  end.
(** stateInStringEsc, and the byte unquoteBytes puts for the escape. *)
Definition esc_val (e : byte) : option byte :=
  if beq e quote then Some quote else if beq e backslash then Some backslash else if beq e "/" then Some "/"%byte else
  if beq e "b" then Some "008"%byte else if beq e "f" then Some "012"%byte else if beq e "n" then Some "010"%byte else
  if beq e "r" then Some "013"%byte else if beq e "t" then Some "009"%byte else None.

(** stateInString...: what follows the opening quote, up to the closing one. *)
Fixpoint scan_string (s : list byte) : option (list byte * list byte) :=
  match s with
  | [] => None
  | c :: s1 =>
    if beq c quote then Some ([], s1) else
    if beq c backslash then
      match s1 with
      | [] => None
      | e :: s2 =>
        if beq e "u" then
          match s2 with
          | h1 :: h2 :: h3 :: h4 :: s3 =>
            match hex4 [h1; h2; h3; h4], scan_string s3 with
            | Some _, Some (raw, rest) => Some (c :: e :: h1 :: h2 :: h3 :: h4 :: raw, rest)
            | _, _ => None
            end
          | _ => None
          end
        else
          match esc_val e, scan_string s2 with
          | Some _, Some (raw, rest) => Some (c :: e :: raw, rest)
          | _, _ => None
          end
      end
    else if b2z c <? 32 then None
    else match scan_string s1 with Some (raw, rest) => Some (c :: raw, rest) | None => None end
  end.

(** utf8.DecodeRune: the number of bytes of the code point at the start of [s] (not ASCII), if it is well formed. *)
Definition is_cont : byte -> bool := in_range 128 191.
Definition utf8_len (s : list byte) : option nat :=
  match s with
  | a :: b :: s1 =>
    if in_range 0xC2 0xDF a && is_cont b then Some 2%nat else
    match s1 with
    | c :: s2 =>
      if (in_range 0xE0 0xE0 a && in_range 0xA0 0xBF b && is_cont c) || (in_range 0xE1 0xEC a && is_cont b && is_cont c) ||
         (in_range 0xED 0xED a && in_range 0x80 0x9F b && is_cont c) || (in_range 0xEE 0xEF a && is_cont b && is_cont c) then Some 3%nat else
      match s2 with
      | d :: _ =>
        if (in_range 0xF0 0xF0 a && in_range 0x90 0xBF b && is_cont c && is_cont d) || (in_range 0xF1 0xF3 a && is_cont b && is_cont c && is_cont d) ||
           (in_range 0xF4 0xF4 a && in_range 0x80 0x8F b && is_cont c && is_cont d) then Some 4%nat else None
      | [] => None
      end
    | [] => None
    end
  | _ => None
  end.
(** utf8.EncodeRune *)
Definition EncodeRune (r : Z) : list byte :=
  if r <=? 127 then [z2b r] else
  if r <=? 2047 then [z2b (Z.lor 192 (Z.shiftr r 6)); z2b (Z.lor 128 (Z.land r 63))] else
  if r <=? 65535 then [z2b (Z.lor 224 (Z.shiftr r 12)); z2b (Z.lor 128 (Z.land (Z.shiftr r 6) 63)); z2b (Z.lor 128 (Z.land r 63))] else
  [z2b (Z.lor 240 (Z.shiftr r 18)); z2b (Z.lor 128 (Z.land (Z.shiftr r 12) 63)); z2b (Z.lor 128 (Z.land (Z.shiftr r 6) 63)); z2b (Z.lor 128 (Z.land r 63))].
Definition RuneError : Z := 0xFFFD.
Definition IsSurrogate (r : Z) : bool := (0xD800 <=? r) && (r <? 0xE000). (* utf16.IsSurrogate *)
(** utf16.DecodeRune *)
Definition DecodeSurrogates (r1 r2 : Z) : option Z :=
  if (0xD800 <=? r1) && (r1 <? 0xDC00) && (0xDC00 <=? r2) && (r2 <? 0xE000)
  then Some (Z.lor (Z.shiftl (r1 - 0xD800) 10) (r2 - 0xDC00) + 0x10000) else None.

(** unquoteBytes, on what is between the quotes. *)
Fixpoint unquote_loop (k : nat) (s : list byte) : list byte :=
  match k with
  | O => []
  | S k' =>
    match s with
    | [] => []
    | c :: s1 =>
      if beq c backslash then
        match s1 with
        | [] => []
        | e :: s2 =>
          if beq e "u" then
            match hex4 s2 with
            | None => []
            | Some (r, s3) =>
              if IsSurrogate r then
                match s3 with
                | b :: u :: s4 =>
                  match (if beq b backslash && beq u "u" then hex4 s4 else None) with
                  | Some (r2, s5) =>
                    match DecodeSurrogates r r2 with
                    | Some dec => EncodeRune dec ++ unquote_loop k' s5
                    | None => EncodeRune RuneError ++ unquote_loop k' s3
                    end
                  | None => EncodeRune RuneError ++ unquote_loop k' s3
                  end
                | _ => EncodeRune RuneError ++ unquote_loop k' s3
                end
              else EncodeRune r ++ unquote_loop k' s3
            end
          else match esc_val e with Some x => x :: unquote_loop k' s2 | None => [] end
        end
      else if b2z c <? 128 then c :: unquote_loop k' s1
      else match utf8_len s with
           | Some n => firstn n s ++ unquote_loop k' (skipn n s)
           | None => EncodeRune RuneError ++ unquote_loop k' s1
           end
    end
  end.
Definition unquote (s : list byte) : list byte := unquote_loop (List.length s) s.

(** state1, state0, stateDot...: a number. *)
Fixpoint scan_digits (s : list byte) : list byte * list byte :=
  match s with
  | c :: s' => if isDigit c then let '(d, r) := scan_digits s' in (c :: d, r) else ([], s)
  | [] => ([], [])
  end.
Definition scan_int (s : list byte) : option (list byte * list byte) :=
  match s with
  | c :: s' => if beq c "0" then Some ([c], s') else if isDigit c then let '(d, r) := scan_digits s' in Some (c :: d, r) else None
  | [] => None
  end.
Definition scan_frac (s : list byte) : option (list byte * list byte) :=
  match s with
  | c :: s' => if beq c "." then match scan_digits s' with ([], _) => None | (d, r) => Some (c :: d, r) end else Some ([], s)
  | [] => Some ([], [])
  end.
Definition scan_exp (s : list byte) : option (list byte * list byte) :=
  match s with
  | c :: s' =>
    if beq c "e" || beq c "E" then
      let '(sg, s'') := match s' with c2 :: s2 => if beq c2 "+" || beq c2 "-" then ([c2], s2) else ([], s') | [] => ([], []) end in
      match scan_digits s'' with ([], _) => None | (d, r) => Some (c :: sg ++ d, r) end
    else Some ([], s)
  | [] => Some ([], [])
  end.
Definition scan_number (s : list byte) : option (list byte * list byte) :=
  let '(sg, s0) := match s with c :: s' => if beq c "-" then ([c], s') else ([], s) | [] => ([], []) end in
  match scan_int s0 with
  | None => None
  | Some (i, s1) =>
    match scan_frac s1 with
    | None => None
    | Some (f, s2) =>
      match scan_exp s2 with
      | None => None
      | Some (e, s3) => Some (sg ++ i ++ f ++ e, s3)
      end
    end
  end.

Fixpoint strip (p s : list byte) : option (list byte) :=
  match p, s with
  | [], _ => Some s
  | a :: p', b :: s' => if beq a b then strip p' s' else None
  | _, [] => None
  end.

(** A value after white space, and the rest; the elements of an array (after the bracket), the members of an object.
    [k] bounds the recursion (proved to be large enough where it is used). *)
Fixpoint p_value (k : nat) (s : list byte) : option (jval * list byte) :=
  match k with
  | O => None
  | S k' =>
    match skip_ws s with
    | [] => None
    | c :: s1 =>
      if beq c "{" then
        match skip_ws s1 with
        | [] => None
        | c2 :: s2 => if beq c2 "}" then Some (JObj [], s2) else match p_members k' s1 with Some (l, r) => Some (JObj l, r) | None => None end
        end
      else if beq c "[" then
        match skip_ws s1 with
        | [] => None
        | c2 :: s2 => if beq c2 "]" then Some (JArr [], s2) else match p_elems k' s1 with Some (l, r) => Some (JArr l, r) | None => None end
        end
      else if beq c quote then match scan_string s1 with Some (raw, r) => Some (JStr (unquote raw), r) | None => None end
      else if beq c "n" then match strip (bs "ull") s1 with Some r => Some (JNull, r) | None => None end
      else if beq c "t" then match strip (bs "rue") s1 with Some r => Some (JBool true, r) | None => None end
      else if beq c "f" then match strip (bs "alse") s1 with Some r => Some (JBool false, r) | None => None end
      else match scan_number (c :: s1) with Some (lit, r) => Some (JNum lit, r) | None => None end
    end
  end
with p_elems (k : nat) (s : list byte) : option (list jval * list byte) :=
  match k with
  | O => None
  | S k' =>
    match p_value k' s with
    | None => None
    | Some (v, s1) =>
      match skip_ws s1 with
      | [] => None
      | c :: s2 =>
        if beq c "," then match p_elems k' s2 with Some (l, r) => Some (v :: l, r) | None => None end
        else if beq c "]" then Some ([v], s2) else None
      end
    end
  end
with p_members (k : nat) (s : list byte) : option (list (list byte * jval) * list byte) :=
  match k with
  | O => None
  | S k' =>
    match skip_ws s with
    | [] => None
    | q :: s0 =>
      if negb (beq q quote) then None else
      match scan_string s0 with
      | None => None
      | Some (raw, s1) =>
        match skip_ws s1 with
        | [] => None
        | c :: s2 =>
          if negb (beq c ":") then None else
          match p_value k' s2 with
          | None => None
          | Some (v, s3) =>
            match skip_ws s3 with
            | [] => None
            | c3 :: s4 =>
              if beq c3 "," then match p_members k' s4 with Some (l, r) => Some ((unquote raw, v) :: l, r) | None => None end
              else if beq c3 "}" then Some ([(unquote raw, v)], s4) else None
            end
          end
        end
      end
    end
  end.

(** maxNestingDepth (since Go 1.15) *)
Definition maxNestingDepth : nat := Z.to_nat 10000.
Definition parse_json (s : list byte) : option jval :=
  match p_value (2 * List.length s + 1) s with
  | Some (v, r) => match skip_ws r with [] => if Nat.leb (jdepth v) maxNestingDepth then Some v else None | _ => None end
  | None => None
  end.

(** ** encode.go, indent.go: writing a text.  [m]: None for Marshal, [Some d] for MarshalIndent(v, "", " ") at depth d.
    Strings are written as they are: the ones that occur here need no escape (proved: [plain]). *)
Definition nl (m : option nat) : list byte := match m with None => [] | Some d => "010"%byte :: repeat " "%byte d end.
Definition deeper (m : option nat) : option nat := match m with None => None | Some d => Some (S d) end.
Definition colon (m : option nat) : list byte := match m with None => [":"%byte] | Some _ => [":"; " "]%byte end.
Fixpoint join (sep : list byte) (l : list (list byte)) : list byte :=
  match l with
  | [] => []
  | [x] => x
  | x :: l' => x ++ sep ++ join sep l'
  end.
Definition quoted (s : list byte) : list byte := quote :: s ++ [quote].
Fixpoint jprint (m : option nat) (v : jval) : list byte :=
  match v with
  | JNull => bs "null"
  | JBool true => bs "true"
  | JBool false => bs "false"
  | JNum lit => lit
  | JStr s => quoted s
  | JArr [] => bs "[]"
  | JArr l => "["%byte :: nl (deeper m) ++ join (","%byte :: nl (deeper m)) (map (jprint (deeper m)) l) ++ nl m ++ ["]"%byte]
  | JObj [] => bs "{}"
  | JObj l => "{"%byte :: nl (deeper m) ++ join (","%byte :: nl (deeper m)) (map (fun kv => quoted (fst kv) ++ colon m ++ jprint (deeper m) (snd kv)) l)
                ++ nl m ++ ["}"%byte]
  end.

(** strconv.FormatInt(z, 10) *)
Definition FormatInt (z : Z) : list byte := if z <? 0 then "-"%byte :: FormatUint (- z) else FormatUint z.
(** The order of map keys in the output: by their texts. *)
Fixpoint bytes_ltb (a b : list byte) : bool :=
  match a, b with
  | _, [] => false
  | [], _ :: _ => true
  | x :: a', y :: b' => (b2z x <? b2z y) || (beq x y && bytes_ltb a' b')
  end.
Fixpoint insert_key {A} (x : list byte * A) (l : list (list byte * A)) : list (list byte * A) :=
  match l with
  | [] => [x]
  | y :: l' => if bytes_ltb (fst y) (fst x) then y :: insert_key x l' else x :: l
  end.
Definition sort_keys {A} (l : list (list byte * A)) : list (list byte * A) := fold_right insert_key [] l.
(** mapEncoder for a map with ID keys (ID implements TextMarshaler).  A nil map would be written as null: not modelled. *)
Definition enc_map {A} (f : A -> jval) (m : gmap ID A) : jval :=
  JObj (sort_keys (map (fun kv => (id_MarshalText (fst kv), f (snd kv))) (map_to_list m))).
(** A pointer. *)
Definition enc_ptr {A} (f : A -> jval) (x : option A) : jval := match x with Some a => f a | None => JNull end.

(** ** decode.go: storing values *)
(** Field names are compared without regard to case (fold.go); U+017F and U+212A fold to s and k. *)
Definition lower (z : Z) : Z := if (65 <=? z) && (z <=? 90) then z + 32 else z.
Fixpoint fold_eq (name key : list byte) : bool :=
  match name, key with
  | [], [] => true
  | a :: name', b :: key' =>
    if b2z b <? 128 then (lower (b2z a) =? lower (b2z b)) && fold_eq name' key'
    else if lower (b2z a) =? 115 then match key' with b2 :: key2 => beq b xc5 && beq b2 xbf && fold_eq name' key2 | [] => false end
    else if lower (b2z a) =? 107 then match key' with b2 :: b3 :: key3 => beq b xe2 && beq b2 x84 && beq b3 xaa && fold_eq name' key3 | _ => false end
    else false
  | _, _ => false
  end.

(** strconv.ParseInt(s, 10, 64), ParseUint(s, 10, 64) on all digits; the result is compared with the range at the end. *)
Fixpoint dec_loop (n : Z) (s : list byte) : option Z :=
  match s with
  | [] => Some n
  | c :: s' => if isDigit c then dec_loop (n * 10 + (b2z c - 48)) s' else None
  end.
Definition ParseDec (s : list byte) : option Z := match s with [] => None | _ => dec_loop 0 s end.
Definition ParseInt64 (s : list byte) : option Z :=
  let '(neg, ds) := match s with c :: s' => if beq c "-" then (true, s') else if beq c "+" then (false, s') else (false, s) | [] => (false, []) end in
  match ParseDec ds with
  | None => None
  | Some n => if neg then if n <=? 2 ^ 63 then Some (- n) else None else if n <? 2 ^ 63 then Some n else None
  end.
Definition ParseUint8 (s : list byte) : option Z := match ParseDec s with Some n => if n <? 256 then Some n else None | None => None end.

(** Storing into a Go int, []byte, map.  [cur] is the value before: null leaves an int as it is.  Every error makes Unmarshal
    return an error in the end, so the first one is returned here.  An array is stored in a []byte element by element; a null
    element leaves what was there (what an earlier value left beyond the slice's end is taken as 0). *)
Definition d_int (cur : Z) (v : jval) : outcome Z :=
  match v with
  | JNull => Ret cur
  | JNum lit => oret_option "json: cannot unmarshal number" (ParseInt64 lit)
  | _ => Fail "json: cannot unmarshal"
  end.
Fixpoint d_byte_elems (cur : list byte) (l : list jval) : outcome (list byte) :=
  match l with
  | [] => Ret []
  | v :: l' =>
    let* b := match v with
              | JNull => Ret (hd x00 cur)
              | JNum lit => match ParseUint8 lit with Some z => Ret (z2b z) | None => Fail "json: cannot unmarshal number" end
              | _ => Fail "json: cannot unmarshal"
              end in
    let* r := d_byte_elems (tl cur) l' in Ret (b :: r)
  end.
Definition d_bytes (cur : list byte) (v : jval) : outcome (list byte) :=
  match v with
  | JNull => Ret []
  | JStr s => oret_option "illegal base64 data" (b64_decode s)
  | JArr l => d_byte_elems cur l
  | _ => Fail "json: cannot unmarshal"
  end.
(** A map with ID keys: the members are added to the map that is there. *)
Definition d_map {A} (f : jval -> outcome A) (cur : gmap ID A) (v : jval) : outcome (gmap ID A) :=
  match v with
  | JNull => Ret ∅
  | JObj l => ofold (fun (acc : gmap ID A) kv =>
                let* id := id_UnmarshalText (fst kv) in
                let* x := f (snd kv) in
                Ret (<[id := x]> acc)) cur l
  | _ => Fail "json: cannot unmarshal"
  end.

Section Json.
  Context `{Gr : group_ops} `{Hf : hash_fn}.

  (** ristretto.go:423-438 MarshalText, UnmarshalText, for the group interface. *)
  Definition el_MarshalText (e : G) : list byte := b64_encode (genc e).
  Definition el_UnmarshalText (text : list byte) : outcome G :=
    match b64_decode text with
    | None => Fail "illegal base64 data"
    | Some b => oret_option "invalid element" (gdec b)
    end.
  (** *ristretto.Element and *eddsa.PublicKey (public_key.go:43-51): a string, or null. *)
  Definition enc_el (e : G) : jval := JStr (el_MarshalText e).
  Definition d_el (v : jval) : outcome (option G) :=
    match v with
    | JNull => Ret None
    | JStr s => let* e := el_UnmarshalText s in Ret (Some e)
    | _ => Fail "json: cannot unmarshal"
    end.

  (** secret_share.go:59-62 jsonSecretShare, encoded (65-70) and decoded (73-77). *)
  Definition enc_share (x : Z * list byte) : jval := JObj [(bs "id", JNum (FormatInt (fst x))); (bs "secret", JStr (b64_encode (snd x)))].
  Definition d_share (v : jval) : outcome (Z * list byte) :=
    match v with
    | JNull => Ret (0, [])
    | JObj l => ofold (fun (acc : Z * list byte) kv =>
        if fold_eq (bs "id") (fst kv) then let* z := d_int (fst acc) (snd kv) in Ret (z, snd acc)
        else if fold_eq (bs "secret") (fst kv) then let* b := d_bytes (snd acc) (snd kv) in Ret (fst acc, b)
        else Ret acc) (0, []) l
    | _ => Fail "json: cannot unmarshal"
    end.
  Definition share_MarshalJSON_text (sk : SecretShare) : list byte := jprint None (enc_share (share_MarshalJSON sk)).
  Definition share_of_json (v : jval) : outcome SecretShare := let* out := d_share v in share_UnmarshalJSON out.
  Definition share_UnmarshalJSON_text (data : list byte) : outcome SecretShare :=
    match parse_json data with
    | None => Fail "json: syntax error"
    | Some v => share_of_json v
    end.

  (** public.go:65-69 sharesJSON, encoded (72-78) and decoded (81-86).  js_shares of a missing or null map is empty. *)
  Definition enc_public (x : sharesJSON) : jval :=
    JObj [(bs "t", JNum (FormatInt (js_t x))); (bs "groupkey", enc_ptr enc_el (js_groupkey x)); (bs "shares", enc_map (enc_ptr enc_el) (js_shares x))].
  Definition d_public (v : jval) : outcome sharesJSON :=
    match v with
    | JNull => Ret (mkSharesJSON 0 None ∅)
    | JObj l => ofold (fun (acc : sharesJSON) kv =>
        if fold_eq (bs "t") (fst kv) then let* z := d_int (js_t acc) (snd kv) in Ret (mkSharesJSON z (js_groupkey acc) (js_shares acc))
        else if fold_eq (bs "groupkey") (fst kv) then let* g := d_el (snd kv) in Ret (mkSharesJSON (js_t acc) g (js_shares acc))
        else if fold_eq (bs "shares") (fst kv) then let* m := d_map d_el (js_shares acc) (snd kv) in Ret (mkSharesJSON (js_t acc) (js_groupkey acc) m)
        else Ret acc) (mkSharesJSON 0 None ∅) l
    | _ => Fail "json: cannot unmarshal"
    end.
  Definition pub_MarshalJSON_text (p : Public) : list byte := jprint None (enc_public (pub_MarshalJSON p)).
  Definition public_of_json (sched : list ID) (v : jval) : outcome Public := let* out := d_public v in pub_UnmarshalJSON sched out.
  Definition pub_UnmarshalJSON_text (sched : list ID) (data : list byte) : outcome Public :=
    match parse_json data with
    | None => Fail "json: syntax error"
    | Some v => public_of_json sched v
    end.

  (** keygen.go:119-134: the text of keygenout.json. *)
  Definition enc_file (f : KeyGenFile) : jval := JObj [(bs "Secrets", enc_map (enc_ptr enc_share) (kf_Secrets f)); (bs "Shares", enc_ptr enc_public (kf_Shares f))].
  Definition file_text (out : gmap ID SecretShare * Public) : list byte := jprint (Some 0%nat) (enc_file (kf_encode out)).

  (** signer.go:52-56: json.Unmarshal into KeyGenOutput.  An error of UnmarshalJSON ends the decoding; Secrets of the wrong kind
      is an error only at the end ([bad]). *)
  Definition d_secret (v : jval) : outcome (option SecretShare) :=
    match v with JNull => Ret None | _ => let* sk := share_of_json v in Ret (Some sk) end.
  Definition file_fields (sched : list ID) (acc : gmap ID (option SecretShare) * option Public * bool) (kv : list byte * jval)
    : outcome (gmap ID (option SecretShare) * option Public * bool) :=
    let '(secrets, public, bad) := acc in
    if fold_eq (bs "Secrets") (fst kv) then
      match snd kv with
      | JNull | JObj _ => let* m := d_map d_secret secrets (snd kv) in Ret (m, public, bad)
      | _ => Ret (secrets, public, true)
      end
    else if fold_eq (bs "Shares") (fst kv) then
      match snd kv with
      | JNull => Ret (secrets, None, bad)
      | v => let* p := public_of_json sched v in Ret (secrets, Some p, bad)
      end
    else Ret (secrets, public, bad).
  Definition file_of_json (sched : list ID) (v : jval) : outcome (gmap ID (option SecretShare) * option Public) :=
    match v with
    | JNull => Ret (∅, None)
    | JObj l =>
      let* r := ofold (file_fields sched) (∅, None, false) l in
      if snd r then Fail "json: cannot unmarshal" else Ret (fst r)
    | _ => Fail "json: cannot unmarshal"
    end.
  Definition read_file (sched : list ID) (data : list byte) : outcome (gmap ID (option SecretShare) * option Public) :=
    match parse_json data with
    | None => Fail "json: syntax error"
    | Some v => file_of_json sched v
    end.

  (** strconv.Atoi: decimal digits with an optional sign, within int64. *)
  Definition Atoi (s : list byte) : option Z := ParseInt64 s.

  (** keygen.go:25-137 main with os.Args (the program name included): the text written to the file. *)
  Definition keygen_main (fuel : nat) (rg : ID -> rng) (now : ID -> Z) (v : nat -> loop_env) (args : list (list byte)) : option (outcome (list byte)) :=
    match args with
    | [_; a1; a2] =>
      match Atoi a1, Atoi a2 with
      | Some t, Some n =>
        match keygen_cmd fuel rg now v t n with
        | Some (Ret out) => Some (Ret (file_text out))
        | Some (Fail e) => Some (Fail e)
        | Some (Panics w) => Some (Panics w)
        | None => None
        end
      | _, _ => Some (Fail "invalid syntax")
      end
    | _ => Some (Fail "usage")
    end.
  (** signer.go:22-125 main with os.Args; [fs] maps file names to contents. *)
  Definition signer_main (edv : list byte -> list byte -> list byte -> bool) (fuel : nat) (sched : list ID) (rg : ID -> rng) (now : ID -> Z)
      (v : nat -> loop_env) (fs : list byte -> option (list byte)) (args : list (list byte)) : option (outcome Signature) :=
    match args with
    | [_; filename; message] =>
      match fs filename with
      | None => Some (Fail "open")
      | Some data => signer_run edv fuel rg now v (read_file sched data) message
      end
    | _ => Some (Fail "usage")
    end.
End Json.
