(** Specification of ristretto255 (RFC 9496) over the points of the curve. *)
From Coq Require Import ZArith Lia List Bool.
From Coq.Strings Require Import Byte.
From Verif Require Import ZField Primes Bytes Fp Edwards EdPoint.
Import ListNotations.
Local Open Scope Z_scope.

(** The four coordinates of a Point denote the curve point (x, y). *)
Definition denotes (c : xpt) (P : ept) : Prop :=
  (xZ c <> 0 /\ xX c = ex P * xZ c /\ xY c = ey P * xZ c /\ xT c = ex P * ey P * xZ c)%Fp.

(** The points with 4P = 0. *)
Definition four_torsion (P : ept) : Prop := emul 4 P = e0.

(** An element of the ristretto group: a point of 2E, up to 4-torsion. *)
Definition valid_element (c : xpt) : Prop := exists P Q, denotes c P /\ P = eadd Q Q.
Definition same_element (P Q : ept) : Prop := four_torsion (eadd P (eneg Q)).

(** The representative of a class that is encoded, and the field element: x and xy are
    even residues, y is not 0 or -1, and s is the even root of (1-y)/(1+y). *)
Definition even_residue (x : Fp) : Prop := fz x mod 2 = 0.
Definition encodes (P : ept) (s : Fp) : Prop :=
  even_residue (ex P) /\ even_residue (ex P * ey P)%Fp /\ ey P <> 0%Fp /\ ey P <> (- (1))%Fp /\
  even_residue s /\ (s * s * (1 + ey P) = 1 - ey P)%Fp.

(** RFC 9496 4.3.4: the map from field elements. *)
Local Open Scope Fp_scope.
Definition elligator (t : Fp) (P : ept) : Prop :=
  let d := ed_d in
  let r := sqrtM1 * (t * t) in
  let u := (r + 1) * (1 - d * d) in
  let v := (- (1) - r * d) * (r + d) in
  exists s c : Fp,
    ((c = - (1) /\ v * (s * s) = u /\ even_residue s) \/
     (c = r /\ ~ (exists z, v * (z * z) = u) /\ (v = 0 /\ s = 0 \/ v <> 0 /\ v * (s * s) = r * u) /\ even_residue (- s))) /\
    let N := c * (r - 1) * ((d - 1) * (d - 1)) - v in
    N <> 0 /\ ey P * (1 + s * s) = 1 - s * s /\
    exists a, a * a = - d - 1 /\ even_residue (- a) /\ ex P * (N * a) = 2 * s * v.
