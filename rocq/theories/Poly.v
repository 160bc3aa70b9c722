(** pkg/internal/polynomial: Polynomial and Exponent. *)
From Coq Require Import ZArith Lia List Bool Ring Field String Setoid Morphisms.
From Coq.Strings Require Import Byte.
From Verif Require Import ZField Primes Bytes Scalar Go Group Party.
Import ListNotations.
Local Open Scope Z_scope.

(** polynomial.go:11-13 *)
Definition Polynomial := list Fq.

(** polynomial.go:17-35 NewPolynomial.  [degree + 1] is computed in uint16: for degree 65535 it is 0
    and [coefficients[0]] is out of range.  Coefficient i (i >= 1) is the read number [k + i - 1] of [r];
    the panic on a failing random source is in RandFail.v. *)
Definition NewPolynomial (r : rng) (k : nat) (degree : Z) (constant : Fq) : outcome Polynomial :=
  if u16 (degree + 1) =? 0 then Panics "index out of range [0] with length 0"
  else Ret (constant :: map (fun i => SetScalarRandom r (k + i)) (seq 0 (Z.to_nat degree))).

(** polynomial.go:39-51 Evaluate: Horner from the highest coefficient, panics at 0. *)
Definition poly_eval (p : Polynomial) (index : Fq) : outcome Fq :=
  if feqb index f0 then Panics "attempt to leak secret"
  else Ret (fold_left (fun result c => fadd (fmul result index) c) (rev p) f0).

(** polynomial.go:53-57 Constant *)
Definition poly_constant (p : Polynomial) : outcome Fq :=
  match p with [] => Panics "index out of range" | c :: _ => Ret c end.

(** polynomial.go:60-62 Degree: uint16 arithmetic. *)
Definition poly_degree (p : Polynomial) : Z := u16 (u16 (Z.of_nat (List.length p)) - 1).

(** polynomial.go:71-76 Reset *)
Definition poly_reset (p : Polynomial) : Polynomial := map (fun _ => f0) p.

Section Exponent.
  Context `{Gr : group_ops}.

  (** exponent.go:12-14.  The coefficient pointers are never nil once built. *)
  Definition Exponent := list G.

  (** exponent.go:18-28 NewPolynomialExponent *)
  Definition NewPolynomialExponent (p : Polynomial) : Exponent := map gbmul p.

  (** exponent.go:39-58 evaluateClassic: state (x, result). *)
  Definition exp_eval_classic (p : Exponent) (index : Fq) : outcome G :=
    if feqb index f0 then Panics "you should be using .Constant() instead" else
    Ret (snd (fold_left (fun st A => let '(x, result) := st in
                (fmul x index, gadd result (gdsmul x A f0))) p (f1, gid))).

  (** exponent.go:70-81: the table of powers 1, index, index*index, ... *)
  Fixpoint powers_from (prev index : Fq) (n : nat) : list Fq :=
    match n with O => [] | S k => let c := fmul prev index in c :: powers_from c index k end.
  Definition powers (index : Fq) (n : nat) : list Fq :=
    match n with
    | O => []
    | S O => [f1]
    | S (S k) => f1 :: index :: powers_from index index k
    end.

  (** exponent.go:63-82 evaluateVar *)
  Definition exp_eval_var (p : Exponent) (index : Fq) : outcome G :=
    if feqb index f0 then Panics "you should be using .Constant() instead" else
    Ret (gmsmul (powers index (List.length p)) p).

  (** exponent.go:87-102 evaluateHorner *)
  Definition exp_eval_horner (p : Exponent) (index : Fq) : outcome G :=
    if feqb index f0 then Panics "you should be using .Constant() instead" else
    Ret (fold_left (fun result A => gadd (gdsmul index result f0) A) (rev p) gid).

  (** exponent.go:31-35 Evaluate *)
  Definition exp_eval (p : Exponent) (index : Fq) : outcome G := exp_eval_var p index.

  (** exponent.go:105-112 EvaluateMulti: the map is given as the association list in
      insertion order (callers pass duplicate-free lists or later entries overwrite equal values). *)
  Definition EvaluateMulti (p : Exponent) (indices : list ID) : outcome (list (ID * G)) :=
    ofold (fun acc id => let* s := id_scalar id in let* e := exp_eval p s in Ret (acc ++ [(id, e)])) [] indices.

  (** exponent.go:115-117 Degree *)
  Definition exp_degree (p : Exponent) : Z := u16 (u16 (Z.of_nat (List.length p)) - 1).

  Fixpoint map2 {A B C} (f : A -> B -> C) (l : list A) (l' : list B) : list C :=
    match l, l' with x :: t, y :: t' => f x y :: map2 f t t' | _, _ => [] end.

  (** exponent.go:121-131 Add: receiver's new value, or the error (receiver unchanged). *)
  Definition exp_add (p q : Exponent) : outcome Exponent :=
    if negb (Nat.eqb (List.length p) (List.length q)) then Fail "q is not the same length as p"
    else Ret (map2 gadd p q).

  (** exponent.go:134-148 Sum *)
  Definition exp_sum (ps : list Exponent) : outcome Exponent :=
    match ps with
    | [] => Panics "index out of range [0] with length 0"
    | p :: ps' => ofold exp_add p ps'
    end.

  (** exponent.go:151-155 Reset *)
  Definition exp_reset (p : Exponent) : Exponent := map (fun _ => gid) p.

  (** exponent.go:158-161 Constant *)
  Definition exp_constant (p : Exponent) : outcome G :=
    match p with [] => Panics "index out of range [0] with length 0" | A :: _ => Ret A end.

  (** exponent.go:215-221 BytesAppend (to an empty prefix) *)
  Definition exp_bytes (p : Exponent) : list byte := id_bytes (exp_degree p) ++ flat_map genc p.

  (** exponent.go:223-225 Size *)
  Definition exp_size (p : Exponent) : Z := 2 + 32 * Z.of_nat (List.length p).

  (** exponent.go:204-211: decode [n] elements of 32 bytes. *)
  Fixpoint exp_decode_loop (n : nat) (remaining : list byte) : outcome Exponent :=
    match n with
    | O => Ret []
    | S k =>
      match gdec (firstn 32 remaining) with
      | None => Fail "ristretto: invalid element encoding"
      | Some A => let* rest := exp_decode_loop k (skipn 32 remaining) in Ret (A :: rest)
      end
    end.

  (** exponent.go:185-213 UnmarshalBinary: the value decoded on success.  [degree + 1] is uint16.
      On failure the receiver may be half-updated; every caller in /repo discards it. *)
  Definition exp_unmarshal (data : list byte) : outcome Exponent :=
    let* degree := FromBytes data in
    let coefficientCount := u16 (degree + 1) in
    let remaining := skipn 2 data in
    let count := Z.of_nat (List.length remaining) in
    if negb (count mod 32 =? 0) then Fail "length of data is wrong" else
    if negb (count =? coefficientCount * 32) then Fail "wrong number of coefficients embedded" else
    exp_decode_loop (Z.to_nat coefficientCount) remaining.

  (** exponent.go:227-241 Equal *)
  Fixpoint all2 {A B} (f : A -> B -> bool) (l : list A) (l' : list B) : bool :=
    match l, l' with x :: t, y :: t' => f x y && all2 f t t' | _, _ => true end.
  Definition exp_equal (p q : Exponent) : bool :=
    Nat.eqb (List.length p) (List.length q) && all2 geqb p q.
End Exponent.
