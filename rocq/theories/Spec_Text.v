(** Specification of the text forms. *)
From Coq Require Import ZArith Lia List Bool.
From Coq.Strings Require Import Byte.
From Verif Require Import Bytes.
Import ListNotations.
Local Open Scope Z_scope.

(** Decimal numerals. *)
Definition digit (c : byte) : Prop := 48 <= b2z c <= 57.
Definition dec_value (t : list byte) : Z := fold_left (fun n c => 10 * n + (b2z c - 48)) t 0.
(** No superfluous zeros. *)
Definition shortest (t : list byte) : Prop := exists c t', t = c :: t' /\ (b2z c = 48 -> t' = []).

(** RFC 4648: the alphabet, and a number in base 64. *)
Definition b64_alphabet : list byte :=
  ["A";"B";"C";"D";"E";"F";"G";"H";"I";"J";"K";"L";"M";"N";"O";"P";"Q";"R";"S";"T";"U";"V";"W";"X";"Y";"Z";
   "a";"b";"c";"d";"e";"f";"g";"h";"i";"j";"k";"l";"m";"n";"o";"p";"q";"r";"s";"t";"u";"v";"w";"x";"y";"z";
   "0";"1";"2";"3";"4";"5";"6";"7";"8";"9";"+";"/"]%byte.
Definition sextets (t : list byte) (ds : list Z) : Prop :=
  Forall2 (fun c d => 0 <= d /\ nth_error b64_alphabet (Z.to_nat d) = Some c) t ds.
Definition number (base : Z) (ds : list Z) : Z := fold_left (fun n d => base * n + d) ds 0.
(** [t] is the base64 form of the bytes [b], 6 bits a character, the last sextet filled with zero bits and '=' up to a multiple of 4. *)
Definition b64_of (b t : list byte) : Prop :=
  exists cs ds k, t = cs ++ repeat "="%byte k /\ sextets cs ds /\ (k < 3)%nat /\ ((List.length b + k) mod 3 = 0)%nat /\
    (List.length t * 3 = (List.length b + k) * 4)%nat /\
    number 64 ds = number 256 (map b2z b) * 4 ^ Z.of_nat k.
(** [t] is read as [b]: as above once the line breaks are taken out, except that the unused bits of the last sextet may have any value. *)
Definition no_line_break (c : byte) : bool := negb ((b2z c =? 10) || (b2z c =? 13)).
Definition b64_text (b t : list byte) : Prop :=
  exists cs ds k r, List.filter no_line_break t = cs ++ repeat "="%byte k /\ sextets cs ds /\ (k < 3)%nat /\ ((List.length b + k) mod 3 = 0)%nat /\
    (List.length (cs ++ repeat "="%byte k) * 3 = (List.length b + k) * 4)%nat /\ 0 <= r < 4 ^ Z.of_nat k /\
    number 64 ds = number 256 (map b2z b) * 4 ^ Z.of_nat k + r.
