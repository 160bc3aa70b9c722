(** Interface of the ristretto255 group as used by the protocol code, its laws
    (proved for the concrete group in RistrettoGroup.v), and hashing. *)
From Coq Require Import ZArith Lia List Bool Ring Field Setoid Morphisms.
From Coq.Strings Require Import Byte.
From Verif Require Import ZField Primes Bytes Scalar.
Import ListNotations.
Local Open Scope Z_scope.

(** The operations of pkg/ristretto/ristretto.go's Element used by the other packages. *)
Class group_ops := {
  G : Type;
  gid : G;                        (* NewIdentityElement *)
  gbase : G;                      (* NewGeneratorElement, the B of ScalarBaseMult *)
  gadd : G -> G -> G;             (* Add *)
  gneg : G -> G;                  (* Negate *)
  gsmul : Fq -> G -> G;           (* ScalarMult *)
  geqb : G -> G -> bool;          (* Equal(..) == 1 *)
  genc : G -> list byte;          (* Bytes *)
  gdec : list byte -> option G;   (* SetCanonicalBytes *)
  gencEd : G -> list byte         (* BytesEd25519 *)
}.

Definition geq `{group_ops} (x y : G) : Prop := geqb x y = true.

Class group_laws (Gr : group_ops) : Prop := {
  geq_equiv :> Equivalence geq;
  gadd_proper :> Proper (geq ==> geq ==> geq) gadd;
  gneg_proper :> Proper (geq ==> geq) gneg;
  gsmul_proper :> Proper (eq ==> geq ==> geq) gsmul;
  gadd_assoc : forall x y z, geq (gadd x (gadd y z)) (gadd (gadd x y) z);
  gadd_comm : forall x y, geq (gadd x y) (gadd y x);
  gadd_id_l : forall x, geq (gadd gid x) x;
  gadd_neg_l : forall x, geq (gadd (gneg x) x) gid;
  gsmul_add_l : forall a b x, geq (gsmul (a + b)%Fq x) (gadd (gsmul a x) (gsmul b x));
  gsmul_mul : forall a b x, geq (gsmul (a * b)%Fq x) (gsmul a (gsmul b x));
  gsmul_add_r : forall a x y, geq (gsmul a (gadd x y)) (gadd (gsmul a x) (gsmul a y));
  gsmul_1 : forall x, geq (gsmul 1%Fq x) x;
  gbase_order : forall a, geq (gsmul a gbase) gid -> a = 0%Fq;
  gbase_gen : forall x, exists a, geq x (gsmul a gbase);
  genc_len : forall x, length (genc x) = 32%nat;
  genc_eq : forall x y, genc x = genc y <-> geq x y;
  gdec_genc : forall x, exists x', gdec (genc x) = Some x' /\ geq x' x;
  genc_gdec : forall b x, gdec b = Some x -> genc x = b;
  gencEd_len : forall x, length (gencEd x) = 32%nat;
  gencEd_eq : forall x y, gencEd x = gencEd y <-> geq x y
}.

(** SHA-512: an arbitrary function to 64-byte strings. *)
Class hash_fn := sha512 : list byte -> list byte.
Definition hash_ok (H : hash_fn) : Prop := forall m, length (sha512 m) = 64%nat.

Section Derived.
  Context `{Gr : group_ops}.
  (** ScalarBaseMult *)
  Definition gbmul (s : Fq) : G := gsmul s gbase.
  (** Subtract *)
  Definition gsub (x y : G) : G := gadd x (gneg y).
  (** VarTimeDoubleScalarBaseMult(a, A, b) = [a]A + [b]B *)
  Definition gdsmul (a : Fq) (A : G) (b : Fq) : G := gadd (gsmul a A) (gbmul b).
  (** VarTimeMultiScalarMult: sum of [s_i]P_i, from the identity. *)
  Fixpoint gmsmul (ss : list Fq) (ps : list G) : G :=
    match ss, ps with
    | s :: ss', P :: ps' => gadd (gsmul s P) (gmsmul ss' ps')
    | _, _ => gid
    end.
End Derived.

Section Laws.
  Context `{L : group_laws}.

  Global Instance gsub_proper : Proper (geq ==> geq ==> geq) gsub.
  Proof. intros a b E c d F. unfold gsub. now rewrite E, F. Qed.
  Global Instance geqb_proper : Proper (geq ==> geq ==> eq) geqb.
  Proof.
    intros a b E c d F. apply Bool.eq_iff_eq_true. split; intros X.
    - change (geq b d). now rewrite <- E, <- F.
    - change (geq a c). now rewrite E, F.
  Qed.
  Global Instance genc_proper : Proper (geq ==> eq) genc.
  Proof. intros a b E. now apply genc_eq. Qed.
  Global Instance gencEd_proper : Proper (geq ==> eq) gencEd.
  Proof. intros a b E. now apply gencEd_eq. Qed.

  Lemma geq_sym_iff x y : geq x y <-> geq y x.
  Proof. split; intros; now symmetry. Qed.
  Lemma geqb_false x y : geqb x y = false <-> ~ geq x y.
  Proof. unfold geq. destruct (geqb x y); intuition congruence. Qed.
  Lemma gadd_id_r x : geq (gadd x gid) x.
  Proof. now rewrite gadd_comm, gadd_id_l. Qed.
  Lemma gadd_neg_r x : geq (gadd x (gneg x)) gid.
  Proof. now rewrite gadd_comm, gadd_neg_l. Qed.
  Lemma gadd_cancel_l x y z : geq (gadd x y) (gadd x z) -> geq y z.
  Proof.
    intros E. rewrite <- (gadd_id_l y), <- (gadd_id_l z), <- (gadd_neg_l x), <- !gadd_assoc. now rewrite E.
  Qed.
  Lemma gsmul_0 x : geq (gsmul 0%Fq x) gid.
  Proof.
    apply (gadd_cancel_l (gsmul 0%Fq x)). rewrite <- gsmul_add_l, gadd_id_r.
    replace (0 + 0)%Fq with 0%Fq by ring. reflexivity.
  Qed.
  Lemma gneg_smul x : geq (gneg x) (gsmul (- (1))%Fq x).
  Proof.
    apply (gadd_cancel_l x). rewrite gadd_neg_r. symmetry.
    rewrite <- (gsmul_1 x) at 1. rewrite <- gsmul_add_l.
    replace (1 + - (1))%Fq with 0%Fq by ring. apply gsmul_0.
  Qed.

  (** Everything is a multiple of the base point. *)
  Lemma gb_add a b : geq (gadd (gbmul a) (gbmul b)) (gbmul (a + b)%Fq).
  Proof. unfold gbmul. now rewrite gsmul_add_l. Qed.
  Lemma gb_neg a : geq (gneg (gbmul a)) (gbmul (- a)%Fq).
  Proof.
    rewrite gneg_smul. unfold gbmul. rewrite <- gsmul_mul.
    replace (- (1) * a)%Fq with (- a)%Fq by ring. reflexivity.
  Qed.
  Lemma gb_smul a b : geq (gsmul a (gbmul b)) (gbmul (a * b)%Fq).
  Proof. unfold gbmul. now rewrite gsmul_mul. Qed.
  Lemma gb_sub a b : geq (gsub (gbmul a) (gbmul b)) (gbmul (a - b)%Fq).
  Proof.
    unfold gsub. rewrite gb_neg, gb_add. replace (a + - b)%Fq with (a - b)%Fq by ring. reflexivity.
  Qed.
  Lemma gb_id : geq gid (gbmul 0%Fq).
  Proof. unfold gbmul. now rewrite gsmul_0. Qed.
  Lemma gb_base : geq gbase (gbmul 1%Fq).
  Proof. unfold gbmul. now rewrite gsmul_1. Qed.
  Lemma gb_inj a b : geq (gbmul a) (gbmul b) <-> a = b.
  Proof.
    split; [|now intros ->]. intros E. apply Fq_sub_eq0.
    apply gbase_order. change (geq (gbmul (a - b)%Fq) gid). rewrite <- gb_sub, E, gb_sub.
    replace (b - b)%Fq with 0%Fq by ring. symmetry; apply gb_id.
  Qed.
  Lemma gb_gen x : exists a, geq x (gbmul a).
  Proof. apply gbase_gen. Qed.
  Lemma gb_dsmul a A b c : geq A (gbmul c) -> geq (gdsmul a A b) (gbmul (a * c + b)%Fq).
  Proof. intros E. unfold gdsmul. now rewrite E, gb_smul, gb_add. Qed.

  Global Instance gdsmul_proper : Proper (eq ==> geq ==> eq ==> geq) gdsmul.
  Proof. intros a b -> c d E e f ->. unfold gdsmul. now rewrite E. Qed.
End Laws.

(** Reduce a group equation to an equation between scalars: every element is
    written as a multiple of the base point. *)
Ltac glog x :=
  let a := fresh "lg" in let E := fresh "Elg" in
  destruct (gb_gen x) as [a E].
Ltac gcollapse := unfold gdsmul;
  repeat first [rewrite gb_id | rewrite gb_base | rewrite gb_smul | rewrite gb_neg | rewrite gb_sub | rewrite gb_add].
Ltac gring :=
  repeat match goal with E : geq ?x (gbmul _) |- _ => is_var x; rewrite !E in *; clear E end;
  gcollapse; apply gb_inj; try ring.
