(** The group key interpolated from a map of public shares, written from the textbook formula. *)
From Coq Require Import ZArith List Sorted.
From stdpp Require Import base gmap.
From Verif Require Import ZField Primes Scalar Group Spec_Poly Spec_Group.
Import ListNotations.
Local Open Scope Z_scope.

Section SpecPublic.
  Context `{Gr : group_ops}.
  (** The sum over the IDs j of [lambda_j] P_j (an ID without share counts as the identity). *)
  Definition interpolated (ids : list Z) (shares : gmap Z G) : G :=
    Gsum (map (fun j => gsmul (lagrange_spec j ids) (default gid (shares !! j))) ids).
  (** Every key of the map is a usable ID: non-zero, 16 bits. *)
  Definition usable (shares : gmap Z G) : Prop := forall j P, shares !! j = Some P -> 1 <= j < 65536.
  (** [ids] are the keys of the map, in increasing order. *)
  Definition key_list (ids : list Z) (shares : gmap Z G) : Prop :=
    StronglySorted Z.lt ids /\ forall j, In j ids <-> exists P, shares !! j = Some P.
End SpecPublic.
