(** Specification vocabulary over the group: sums, polynomials with group coefficients. *)
From Coq Require Import ZArith List.
From Verif Require Import ZField Primes Scalar Group Spec_Poly.
Import ListNotations.

Section Spec.
  Context `{Gr : group_ops}.
  (** Sum of a list of elements. *)
  Definition Gsum (l : list G) : G := fold_right gadd gid l.
  (** [x^0]A_0 + [x^1]A_1 + ... *)
  Definition gpoly (A : list G) (x : Fq) : G :=
    Gsum (map (fun i => gsmul (fpow x (N.of_nat i)) (nth i A gid)) (seq 0 (length A))).
End Spec.
