(** Byte layouts of the wire formats, written out field by field.
    Numbers: [hi n; lo n] is a 16-bit big-endian integer; scalars are 32 bytes little-endian. *)
From Coq Require Import ZArith List.
From Coq.Strings Require Import Byte.
From Verif Require Import ZField Primes Bytes Scalar Group.
Import ListNotations.
Local Open Scope Z_scope.

Definition hi (n : Z) : byte := z2b (n / 256).
Definition lo (n : Z) : byte := z2b (n mod 256).
(** 32 bytes, the i-th one being digit i of the integer in base 256. *)
Definition le32 (z : Z) : list byte := map (fun i => z2b (z / 256 ^ Z.of_nat i)) (seq 0 32).

Section Wire.
  Context `{Gr : group_ops}.
  Definition wire_KeyGen1 (from : Z) (s r : Fq) (A : list G) : list byte :=
    [x01; hi from; lo from; x00; x00] ++ le32 (fz s) ++ le32 (fz r) ++
    [hi (Z.of_nat (length A) - 1); lo (Z.of_nat (length A) - 1)] ++ concat (map genc A).
  Definition wire_KeyGen2 (from to : Z) (s : Fq) : list byte :=
    [x02; hi from; lo from; hi to; lo to] ++ le32 (fz s).
  Definition wire_Sign1 (from : Z) (D E : G) : list byte :=
    [x03; hi from; lo from; x00; x00] ++ genc D ++ genc E.
  Definition wire_Sign2 (from : Z) (z : Fq) : list byte :=
    [x04; hi from; lo from; x00; x00] ++ le32 (fz z).
End Wire.
