(** Specification of polynomial evaluation and Shamir sharing, in textbook terms. *)
From Coq Require Import ZArith List.
From Verif Require Import ZField Primes Scalar.
Import ListNotations.
Local Open Scope Z_scope.

(** Sum and product of a list of scalars. *)
Definition Fsum (l : list Fq) : Fq := fold_right fadd f0 l.
Definition Fprod (l : list Fq) : Fq := fold_right fmul f1 l.

(** a_0 + a_1 x + ... + a_n x^n, for the coefficient list [a_0; ...; a_n]. *)
Definition spoly (a : list Fq) (x : Fq) : Fq :=
  Fsum (map (fun i => fmul (nth i a f0) (fpow x (N.of_nat i))) (seq 0 (length a))).

(** [f] is a polynomial of degree at most [t]. *)
Definition degree_le (t : nat) (f : list Fq) : Prop := (length f <= S t)%nat.

(** The textbook Lagrange coefficient: product over the other points m of m / (m - j). *)
Definition lagrange_spec (j : Z) (ids : list Z) : Fq :=
  Fprod (map (fun m => fdiv (qof m) (fsub (qof m) (qof j))) (filter (fun m => negb (m =? j)) ids)).
