(** pkg/ristretto: the operations that only its callers outside this repository or its tests use, and ristretto_test.go, each test as a
    function of its table.  [Ret true]: the test passes; [Ret false]: it reports a failure; [Panics]: it crashes.  Definitions only. *)
From Coq Require Import ZArith Lia List Bool String.
From Coq.Strings Require Import Byte.
From Verif Require Import ZField Primes Bytes Scalar Go Fp Edwards EdPoint Ristretto Text Spec_Json Json.
Import ListNotations.
Local Open Scope Z_scope.

(** ristretto.go:84-95 NewIdentityElement, NewGeneratorElement *)
Definition r_NewIdentityElement : xpt := xid.
Definition r_NewGeneratorElement : xpt := xbase.

(** Point.MultiScalarMult, Point.VarTimeMultiScalarMult (dependency): the sum; its coordinates may differ by a common factor. *)
Definition point_msm (ss : list Fq) (ps : list xpt) : xpt :=
  fold_right (fun sp acc => xadd (xmul (fz (fst sp)) (snd sp)) acc) xid (combine ss ps).
(** ristretto.go:368-378 MultiScalarMult: the points are copied in the order of the scalars. *)
Definition r_MultiScalarMult (s : list Fq) (p : list xpt) : outcome xpt :=
  if negb (Nat.eqb (List.length p) (List.length s)) then Panics "ristretto: MultiScalarMult invoked with mismatched slice lengths" else
  let points := map (fun i => nth i p xid) (seq 0 (List.length s)) in
  Ret (point_msm s points).
(** ristretto.go:383-393 VarTimeMultiScalarMult *)
Definition r_VarTimeMultiScalarMult (s : list Fq) (p : list xpt) : outcome xpt :=
  if negb (Nat.eqb (List.length p) (List.length s)) then Panics "ristretto: VarTimeMultiScalarMult invoked with mismatched slice lengths" else
  let points := map (fun i => nth i p xid) (seq 0 (List.length s)) in
  Ret (point_msm s points).
(** ristretto.go:399-402 VarTimeDoubleScalarBaseMult *)
Definition r_VarTimeDoubleScalarBaseMult (a : Fq) (A : xpt) (b : Fq) : xpt := xadd (xmul (fz a) A) (xmul (fz b) xbase).
(** ristretto.go:441-444 String *)
Definition r_String (e : xpt) : list byte := r_MarshalText e.

(** Variables that hold values of a type: a pointer is the number of the variable. *)
Definition memory (A : Type) := nat -> A.
Definition store {A} (m : memory A) (e : nat) (v : A) : memory A := fun k => if Nat.eqb k e then v else m k.
(** ristretto.go:98-101 Set; the Set of Scalar (dependency) is the same assignment. *)
Definition Set_ {A} (e x : nat) (m : memory A) : memory A := store m e (m x).
(** ristretto.go:405-408 Add on variables. *)
Definition Add_ {A} (add : A -> A -> A) (e p q : nat) (m : memory A) : memory A := store m e (add (m p) (m q)).

(** ristretto_test.go:18-39 TestRistrettoBasepointRoundTrip, for any bytes in place of the constant.  The first failure is fatal. *)
Definition test_Basepoint (compressed : list byte) : outcome bool :=
  match r_SetCanonicalBytes compressed with
  | Panics w => Panics w
  | Fail _ => Ret false
  | Ret decodedBasepoint =>
    Ret (r_Equal decodedBasepoint r_NewGeneratorElement && bytes_eqb compressed (r_Bytes decodedBasepoint) &&
         bytes_eqb compressed (r_Bytes r_NewGeneratorElement))
  end.

(** ristretto_test.go:71-101, the loop of TestRistrettoSmallMultiplesTestVectors, for any table of encodings. *)
Fixpoint test_SmallMultiples_loop (basepointMultiple : xpt) (testVectors : list (list byte)) : outcome bool :=
  match testVectors with
  | [] => Ret true
  | encoding :: rest =>
    match r_SetCanonicalBytes encoding with
    | Panics w => Panics w
    | Fail _ => Ret false
    | Ret decodedPoint =>
      let ok := bytes_eqb encoding (r_Bytes decodedPoint) && r_Equal basepointMultiple decodedPoint && bytes_eqb encoding (r_Bytes basepointMultiple) in
      obind (test_SmallMultiples_loop (r_Add basepointMultiple r_NewGeneratorElement) rest) (fun b => Ret (ok && b))
    end
  end.
(** ristretto_test.go:45-102 TestRistrettoSmallMultiplesTestVectors *)
Definition test_SmallMultiples (testVectors : list (list byte)) : outcome bool := test_SmallMultiples_loop r_NewIdentityElement testVectors.

(** ristretto_test.go:104-156 TestRistrettoBadEncodingsTestVectors, for any table. *)
Fixpoint test_BadEncodings (testVectors : list (list byte)) : outcome bool :=
  match testVectors with
  | [] => Ret true
  | encoding :: rest =>
    match r_SetCanonicalBytes encoding with
    | Panics w => Panics w
    | Ret _ => Ret false
    | Fail _ => test_BadEncodings rest
    end
  end.

(** ristretto_test.go:180-185 and 203-212: one round of the loops of TestRistrettoFromUniformBytesTestVectors and TestEquivalentFromUniformBytes,
    for the bytes given to SetUniformBytes (whose error is ignored: then [element] keeps its value) and the expected encoding. *)
Definition test_Uniform_step (element : xpt) (h expected : list byte) : outcome (xpt * bool) :=
  match r_SetUniformBytes h with
  | Panics w => Panics w
  | Fail _ => Ret (element, bytes_eqb (r_Bytes element) expected)
  | Ret e => Ret (e, bytes_eqb (r_Bytes e) expected)
  end.
(** ristretto_test.go:158-186, 188-213 *)
Fixpoint test_Uniform (element : xpt) (table : list (list byte * list byte)) : outcome bool :=
  match table with
  | [] => Ret true
  | (h, expected) :: rest =>
    obind (test_Uniform_step element h expected) (fun r => obind (test_Uniform (fst r) rest) (fun b => Ret (snd r && b)))
  end.

(** ristretto_test.go:215-230 TestMarshalElement, for any 64 bytes in place of the hash: json.Marshal writes the text as a string, json.Unmarshal
    reads a string. *)
Definition test_MarshalElement (xbytes : list byte) : outcome bool :=
  match r_SetUniformBytes xbytes with
  | Ret x =>
    let text := jprint None (JStr (r_MarshalText x)) in
    match parse_json text with
    | Some (JStr s) => match r_UnmarshalText s with Ret y => Ret (r_Equal y x) | Fail _ => Ret false | Panics w => Panics w end
    | _ => Ret false
    end
  | Fail _ => Panics "edwards25519: use of uninitialized Point"
  | Panics w => Panics w
  end.

(** ristretto_test.go:232-255 TestElementSet, for any two elements and any memory; el1 and el2 point to variables 0 and 1. *)
Definition test_ElementSet (m : memory xpt) : bool :=
  let c1 := negb (r_Equal (m 0%nat) (m 1%nat)) in
  let m := Set_ 0 1 m in
  let c2 := r_Equal (m 0%nat) (m 1%nat) in
  let m := Add_ r_Add 1 1 1 m in
  let c3 := negb (r_Equal (m 0%nat) (m 1%nat)) in
  c1 && c2 && c3.
(** ristretto_test.go:257-289 TestScalarSet, for any two scalars; sc1 and sc2 point to variables 0 and 1. *)
Definition test_ScalarSet (m : memory Fq) : bool :=
  let c1 := negb (feqb (m 0%nat) (m 1%nat)) in
  let m := Set_ 1 0 m in
  let c2 := feqb (m 0%nat) (m 1%nat) in
  let m := Add_ fadd 0 0 0 m in
  let c3 := negb (feqb (m 0%nat) (m 1%nat)) in
  c1 && c2 && c3.

(** ristretto_test.go:319-331 testConstant; [b]: what SetString made of the text, None if it is not a number.  FillBytes writes the absolute value,
    big endian, and panics if it does not fit; the loop exchanges the two halves. *)
Fixpoint swap_loop (k : nat) (i : nat) (buf : list byte) : list byte :=
  match k with
  | O => buf
  | S k' => let j := (List.length buf - i - 1)%nat in
            let a := nth i buf x00 in let b := nth j buf x00 in
            swap_loop k' (S i) (map (fun n => if Nat.eqb n i then b else if Nat.eqb n j then a else nth n buf x00) (seq 0 (List.length buf)))
  end.
Definition testConstant (f : Fp) (b : option Z) : outcome bool :=
  match b with
  | None => Ret false
  | Some z =>
    if 2 ^ 256 <=? Z.abs z then Panics "math/big: buffer too small to fit value" else
    let buf := rev (le_bytes 32 (Z.abs z)) in
    Ret (bytes_eqb (fe_bytes f) (swap_loop (List.length buf / 2) 0 buf))
  end.
