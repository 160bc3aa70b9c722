(** What a keygen run is about, in terms of the messages given to the State. *)
From Coq Require Import ZArith List.
From Coq.Strings Require Import Byte.
From stdpp Require Import base gmap list.
From Verif Require Import ZField Primes Bytes Scalar Go Group Party Zk Eddsa Messages State Spec_Poly Spec_Group Spec_Wire Spec_Sign Spec_SignRun.
Import ListNotations.
Local Open Scope Z_scope.

Section SpecKeygen.
  Context `{Gr : group_ops} `{Hf : hash_fn}.

  (** The polynomial dealt by a party: the scalars made from its first t+1 reads of crypto/rand. *)
  Definition dealt (rg : rng) (t : nat) : list Fq := map (SetScalarRandom rg) (seq 0 (S t)).
  (** Commitment to a polynomial, coefficient by coefficient. *)
  Definition commitment (f : list Fq) : list G := map gbmul f.

  (** [C] was sent by [j] as its commitment. *)
  Definition committed (es : list event) (j : Z) (C : list G) : Prop :=
    exists m pr, given es m /\ m_From m = j /\ m_Type m = MTKeyGen1 /\ m_KeyGen1 m = Some (mkKeyGen1 pr C).
  (** [s] was sent by [j] to [self] as its share. *)
  Definition share_sent (es : list event) (self j : Z) (s : Fq) : Prop :=
    exists m, given es m /\ m_From m = j /\ (m_To m = 0 \/ m_To m = self) /\ m_Type m = MTKeyGen2 /\ m_KeyGen2 m = Some (mkKeyGen2 s).
  (** The share [s] lies on the polynomial committed to by [C]. *)
  Definition on_commitment (self : Z) (C : list G) (s : Fq) : Prop := geq (gbmul s) (gpoly C (qof self)).

  (** Fiat-Shamir: the challenge of the proof of knowledge of the discrete logarithm of [A] by party [i], for the commitment [M]. *)
  Definition zk_hash (i : Z) (ctx : list byte) (A M : G) : Fq := hash_scalar (hi i :: lo i :: firstn 32 ctx ++ genc A ++ genc M).
End SpecKeygen.
