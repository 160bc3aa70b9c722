(** What a signing run is about, in terms of the messages given to the State. *)
From Coq Require Import ZArith List.
From Coq.Strings Require Import Byte.
From stdpp Require Import base gmap list.
From Verif Require Import ZField Primes Bytes Scalar Go Group Party Eddsa Messages State Spec_Poly Spec_Group Spec_Sign.
Import ListNotations.
Local Open Scope Z_scope.

Section SpecSignRun.
  Context `{Gr : group_ops} `{Hf : hash_fn}.

  (** [m] was handed to HandleMessage in the history [es]. *)
  Definition given (es : list event) (m : Message) : Prop := exists now, In (EHandle now m) es.

  (** A public key share weighted by its coefficient: [lambda_i]A_i. *)
  Definition weighted (ids : list Z) (shares : Public) (i : Z) : G :=
    match pub_Shares shares !! i with Some A => gsmul (lagrange_spec i ids) A | None => gid end.

  (** The equation of round 2 for the share [z] of party [i]: [z]B = R_i + [c][lambda_i]A_i. *)
  Definition share_equation (ids : list Z) (shares : Public) (m : list byte) (cl : commitment_list) (i : Z) (z : Fq) : Prop :=
    forall D E, In (i, (D, E)) cl ->
      geq (gbmul z) (gadd (nonce_point m cl (i, (D, E)))
                          (gsmul (chal (group_nonce m cl) (pub_GroupKey shares) m) (weighted ids shares i))).

  (** The commitments of a run: one pair per signer, in the order of the party list; our own pair is ([d]B, [e]B) and
      the others' pairs were sent by them, with no identity element. *)
  Record commitments_of (es : list event) (ids : list Z) (self : Z) (d e : Fq) (cl : commitment_list) : Prop := {
    co_ids : map fst cl = ids;
    co_own : forall D E, In (self, (D, E)) cl -> D = gbmul d /\ E = gbmul e;
    co_other : forall i D E, In (i, (D, E)) cl -> i <> self ->
      exists m, given es m /\ m_From m = i /\ m_Type m = MTSign1 /\ m_Sign1 m = Some (mkSign1 D E) /\ ~ geq D gid /\ ~ geq E gid
  }.
End SpecSignRun.
