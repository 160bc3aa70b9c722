(** A small instance of the group interface: the scalars themselves, with B = 1.
    It is only used for concrete examples (non-vacuity) of theorems proved for
    every group satisfying the laws. *)
From Coq Require Import ZArith Lia List Bool Ring Field Setoid Morphisms.
From Coq.Strings Require Import Byte.
From Verif Require Import ZField Primes Bytes Scalar Group.
Import ListNotations.
Local Open Scope Z_scope.

Definition toy_group : group_ops := {|
  G := Fq; gid := 0%Fq; gbase := 1%Fq;
  gadd := fadd; gneg := fopp; gsmul := fmul; geqb := feqb;
  genc := scalar_bytes; gdec := scalar_set_canonical; gencEd := fun x => rev (scalar_bytes x)
|}.

Lemma toy_geq (x y : Fq) : @geq toy_group x y <-> x = y.
Proof. unfold geq; simpl. apply feqb_eq. Qed.

Lemma toy_mul1 (x : Fq) : x = (x * 1)%Fq.
Proof. ring. Qed.

Lemma toy_laws : group_laws toy_group.
Proof.
  constructor.
  - split; red; intros *; rewrite ?toy_geq; congruence.
  - intros a b E c d F. rewrite toy_geq in *. simpl. congruence.
  - intros a b E. rewrite toy_geq in *. simpl. congruence.
  - intros a b -> c d F. rewrite toy_geq in *. simpl. congruence.
  - intros. apply toy_geq. simpl. ring.
  - intros. apply toy_geq. simpl. ring.
  - intros. apply toy_geq. simpl. ring.
  - intros. apply toy_geq. simpl. ring.
  - intros. apply toy_geq. simpl. ring.
  - intros. apply toy_geq. simpl. ring.
  - intros. apply toy_geq. simpl. ring.
  - intros. apply toy_geq. simpl. ring.
  - intros a. rewrite toy_geq. simpl. intros E. rewrite <- E. exact (toy_mul1 a).
  - intros x. exists x. apply toy_geq. exact (toy_mul1 x).
  - intros. apply scalar_bytes_length.
  - intros x y. rewrite toy_geq. split; [apply scalar_bytes_inj|congruence].
  - intros x. exists x. rewrite toy_geq. split; auto. apply scalar_canonical_bytes.
  - intros b x. apply scalar_bytes_canonical.
  - intros x. change (length (rev (scalar_bytes x)) = 32%nat). rewrite rev_length. apply scalar_bytes_length.
  - intros x y. rewrite toy_geq. split; [|congruence]. intros E. change (rev (scalar_bytes x) = rev (scalar_bytes y)) in E.
    apply (f_equal (@rev byte)) in E. rewrite !rev_involutive in E. now apply scalar_bytes_inj.
Qed.

(** A toy hash with 64-byte results. *)
Definition toy_hash : hash_fn := fun m =>
  le_bytes 64 (fold_left (fun a b => (a * 257 + b2z b + 1) mod (2 ^ 61 - 1)) m 7).

Lemma toy_hash_ok : hash_ok toy_hash.
Proof. intros m. apply le_bytes_length. Qed.
