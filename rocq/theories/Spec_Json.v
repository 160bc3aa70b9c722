(** The JSON grammar (RFC 8259) and the value of a text; strings are byte strings in UTF-8. *)
From Coq Require Import ZArith Lia List Bool.
From Coq.Strings Require Import Byte.
From Verif Require Import Bytes Spec_Text.
Import ListNotations.
Local Open Scope Z_scope.

(** A number keeps its text; the members of an object keep their order and repetitions. *)
Inductive jval :=
| JNull
| JBool (b : bool)
| JNum (lit : list byte)
| JStr (s : list byte)
| JArr (l : list jval)
| JObj (l : list (list byte * jval)).

(** ** Unicode *)
Definition surrogate (r : Z) : Prop := 0xD800 <= r < 0xE000.
(** RFC 3629: the encoding of a code point. *)
Definition utf8 (r : Z) : list byte :=
  if r <? 0x80 then [z2b r] else
  if r <? 0x800 then [z2b (0xC0 + r / 64); z2b (0x80 + r mod 64)] else
  if r <? 0x10000 then [z2b (0xE0 + r / 4096); z2b (0x80 + r / 64 mod 64); z2b (0x80 + r mod 64)] else
  [z2b (0xF0 + r / 262144); z2b (0x80 + r / 4096 mod 64); z2b (0x80 + r / 64 mod 64); z2b (0x80 + r mod 64)].
(** The encoding of a code point outside ASCII. *)
Definition multibyte (u : list byte) : Prop := exists r, 0x80 <= r < 0x110000 /\ ~ surrogate r /\ u = utf8 r.
(** U+FFFD, which replaces what is not Unicode. *)
Definition replacement : list byte := [xef; xbf; xbd].

(** ** Strings *)
Definition hex_digits : list byte := ["0";"1";"2";"3";"4";"5";"6";"7";"8";"9";"a";"b";"c";"d";"e";"f"]%byte.
Definition hex_digits_upper : list byte := ["0";"1";"2";"3";"4";"5";"6";"7";"8";"9";"A";"B";"C";"D";"E";"F"]%byte.
Definition hex (c : byte) (d : Z) : Prop :=
  0 <= d /\ (nth_error hex_digits (Z.to_nat d) = Some c \/ nth_error hex_digits_upper (Z.to_nat d) = Some c).
(** [t] is \uXXXX with value [r]. *)
Definition u_escape (t : list byte) (r : Z) : Prop := exists a b c d za zb zc zd,
  t = ["\"; "u"; a; b; c; d]%byte /\ hex a za /\ hex b zb /\ hex c zc /\ hex d zd /\ r = ((za * 16 + zb) * 16 + zc) * 16 + zd.
Definition escapes : list (byte * byte) :=
  [("034", "034"); ("\", "\"); ("/", "/"); ("b", "008"); ("f", "012"); ("n", "010"); ("r", "013"); ("t", "009")]%byte.

(** [raw], between the quotes, stands for the bytes [v]. *)
Inductive jchars : list byte -> list byte -> Prop :=
| jc_nil : jchars [] []
| jc_ascii c raw v : 32 <= b2z c < 128 -> c <> "034"%byte -> c <> "\"%byte -> jchars raw v -> jchars (c :: raw) (c :: v)
| jc_utf8 u raw v : multibyte u -> jchars raw v -> jchars (u ++ raw) (u ++ v)
| jc_bad c raw v : 128 <= b2z c -> (forall u rest, multibyte u -> c :: raw <> u ++ rest) -> jchars raw v -> jchars (c :: raw) (replacement ++ v)
| jc_esc e c raw v : In (e, c) escapes -> jchars raw v -> jchars ("\"%byte :: e :: raw) (c :: v)
| jc_u t r raw v : u_escape t r -> ~ surrogate r -> jchars raw v -> jchars (t ++ raw) (utf8 r ++ v)
| jc_pair t1 t2 r1 r2 raw v : u_escape t1 r1 -> u_escape t2 r2 -> 0xD800 <= r1 < 0xDC00 -> 0xDC00 <= r2 < 0xE000 -> jchars raw v ->
    jchars (t1 ++ t2 ++ raw) (utf8 ((r1 - 0xD800) * 1024 + (r2 - 0xDC00) + 0x10000) ++ v)
| jc_lone t r raw v : u_escape t r -> surrogate r ->
    (forall t2 r2 rest, raw = t2 ++ rest -> u_escape t2 r2 -> r < 0xDC00 -> 0xDC00 <= r2 < 0xE000 -> False) ->
    jchars raw v -> jchars (t ++ raw) (replacement ++ v).

(** ** Numbers *)
Definition digits1 (t : list byte) : Prop := t <> [] /\ Forall digit t.
Definition number_lit (t : list byte) : Prop := exists sign int frac exp,
  t = sign ++ int ++ frac ++ exp /\ (sign = [] \/ sign = ["-"%byte]) /\ digits1 int /\ shortest int /\
  (frac = [] \/ exists ds, frac = "."%byte :: ds /\ digits1 ds) /\
  (exp = [] \/ exists e s ds, exp = e :: s ++ ds /\ (e = "e"%byte \/ e = "E"%byte) /\ (s = [] \/ s = ["+"%byte] \/ s = ["-"%byte]) /\ digits1 ds).

(** ** Values *)
Definition is_space (c : byte) : Prop := In c [" "; "009"; "010"; "013"]%byte.
Definition ws (w : list byte) : Prop := Forall is_space w.

Inductive jtext : jval -> list byte -> Prop :=
| jt_null : jtext JNull ["n";"u";"l";"l"]%byte
| jt_true : jtext (JBool true) ["t";"r";"u";"e"]%byte
| jt_false : jtext (JBool false) ["f";"a";"l";"s";"e"]%byte
| jt_num lit : number_lit lit -> jtext (JNum lit) lit
| jt_str raw v : jchars raw v -> jtext (JStr v) ("034"%byte :: raw ++ ["034"%byte])
| jt_arr0 w : ws w -> jtext (JArr []) ("["%byte :: w ++ ["]"%byte])
| jt_arr l t : jelems l t -> jtext (JArr l) ("["%byte :: t ++ ["]"%byte])
| jt_obj0 w : ws w -> jtext (JObj []) ("{"%byte :: w ++ ["}"%byte])
| jt_obj l t : jmembers l t -> jtext (JObj l) ("{"%byte :: t ++ ["}"%byte])
with jelems : list jval -> list byte -> Prop :=
| je_one w1 v t w2 : ws w1 -> jtext v t -> ws w2 -> jelems [v] (w1 ++ t ++ w2)
| je_more w1 v t w2 l t' : ws w1 -> jtext v t -> ws w2 -> jelems l t' -> jelems (v :: l) (w1 ++ t ++ w2 ++ ","%byte :: t')
with jmembers : list (list byte * jval) -> list byte -> Prop :=
| jm_one w1 raw k w2 w3 v t w4 : ws w1 -> jchars raw k -> ws w2 -> ws w3 -> jtext v t -> ws w4 ->
    jmembers [(k, v)] (w1 ++ "034"%byte :: raw ++ "034"%byte :: w2 ++ ":"%byte :: w3 ++ t ++ w4)
| jm_more w1 raw k w2 w3 v t w4 l t' : ws w1 -> jchars raw k -> ws w2 -> ws w3 -> jtext v t -> ws w4 -> jmembers l t' ->
    jmembers ((k, v) :: l) (w1 ++ "034"%byte :: raw ++ "034"%byte :: w2 ++ ":"%byte :: w3 ++ t ++ w4 ++ ","%byte :: t').

(** A JSON text: one value between white space. *)
Definition json_text (v : jval) (t : list byte) : Prop := exists w1 t' w2, t = w1 ++ t' ++ w2 /\ ws w1 /\ jtext v t' /\ ws w2.

(** How deep arrays and objects are nested. *)
Fixpoint jdepth (v : jval) : nat :=
  match v with
  | JArr l => S (fold_right Nat.max 0%nat (map jdepth l))
  | JObj l => S (fold_right Nat.max 0%nat (map (fun kv => jdepth (snd kv)) l))
  | _ => 0%nat
  end.

(** ** Field names *)
(** The texts that fold to the ASCII character [a]: itself, the other case of a letter, U+017F for s, U+212A for k. *)
Definition folds_to (a : byte) (u : list byte) : Prop :=
  u = [a] \/
  (exists b, u = [b] /\ (65 <= b2z a <= 90 /\ b2z b = b2z a + 32 \/ 97 <= b2z a <= 122 /\ b2z b = b2z a - 32)) \/
  (In a [x53; x73] /\ u = utf8 0x17F) \/
  (In a [x4b; x6b] /\ u = utf8 0x212A).
