(** Scalars: filippo.io/edwards25519's Scalar (a dependency, assumed to be
    arithmetic mod q), and pkg/internal/scalar/scalar.go. *)
From Coq Require Import ZArith Znumtheory Lia List Bool Ring Field.
From Coq.Strings Require Import Byte.
From Verif Require Import ZField Primes Bytes.
Import ListNotations.
Local Open Scope Z_scope.

Notation Fq := (F q25519).
Definition qof (z : Z) : Fq := fof q25519 z.

Lemma q_pos : 0 < q25519. Proof. reflexivity. Qed.
Lemma q_gt_u16 : 65536 < q25519. Proof. reflexivity. Qed.
Lemma q_lt_256_32 : q25519 < 256 ^ 32. Proof. reflexivity. Qed.

Global Opaque p25519 q25519.

Definition Fq_field_theory := F_field_theory prime_q25519.
Definition Fq_morph := F_morph q25519.

Ltac is_Zcst t :=
  match t with
  | Z0 => constr:(true) | Zpos ?p => is_Zcst p | Zneg ?p => is_Zcst p
  | xH => constr:(true) | xO ?p => is_Zcst p | xI ?p => is_Zcst p
  | _ => constr:(false) end.
Ltac Fq_cst t :=
  match t with
  | fof q25519 ?z => match is_Zcst z with true => constr:(z) | _ => constr:(NotConstant) end
  | qof ?z => match is_Zcst z with true => constr:(z) | _ => constr:(NotConstant) end
  | @f0 q25519 => constr:(0%Z)
  | @f1 q25519 => constr:(1%Z)
  | _ => constr:(NotConstant) end.
Ltac F_Ncst t := match t with N0 => t | Npos ?p => match is_Zcst p with true => t | _ => constr:(NotConstant) end | _ => constr:(NotConstant) end.

Add Field FqField : Fq_field_theory
  (morphism Fq_morph, constants [Fq_cst], power_tac (F_power_theory q25519) [F_Ncst]).

Declare Scope Fq_scope.
Delimit Scope Fq_scope with Fq.
Bind Scope Fq_scope with F.
Infix "+" := (@fadd q25519) : Fq_scope.
Infix "-" := (@fsub q25519) : Fq_scope.
Infix "*" := (@fmul q25519) : Fq_scope.
Infix "/" := (@fdiv q25519) : Fq_scope.
Notation "- x" := (@fopp q25519 x) : Fq_scope.
Notation "0" := (@f0 q25519) : Fq_scope.
Notation "1" := (@f1 q25519) : Fq_scope.

Lemma Fq_integral (x y : Fq) : (x * y)%Fq = 0%Fq -> x = 0%Fq \/ y = 0%Fq.
Proof. apply fmul_integral, prime_q25519. Qed.
Lemma Fq_1_neq_0 : (1 <> 0)%Fq.
Proof. apply f1_neq_f0, prime_q25519. Qed.
Lemma Fq_inv_l (x : Fq) : (x <> 0 -> finv x * x = 1)%Fq.
Proof. apply finv_l, prime_q25519. Qed.
Lemma Fq_mul_neq0 (x y : Fq) : (x <> 0 -> y <> 0 -> x * y <> 0)%Fq.
Proof. intros Hx Hy E. apply Fq_integral in E. tauto. Qed.
Lemma Fq_inv_neq0 (x : Fq) : (x <> 0 -> finv x <> 0)%Fq.
Proof. intros Hx E. apply Fq_1_neq_0. rewrite <- (Fq_inv_l x Hx), E. ring. Qed.
Lemma Fq_sub_eq0 (x y : Fq) : (x - y = 0 -> x = y)%Fq.
Proof. intros H. transitivity (x - y + y)%Fq; [ring|rewrite H; ring]. Qed.

Lemma fz_qof z : fz (qof z) = z mod q25519. Proof. reflexivity. Qed.
Lemma fz_Fq_range (x : Fq) : 0 <= fz x < q25519.
Proof. apply fz_range. exact q_pos. Qed.

(** Scalar.Bytes: 32 bytes, little endian (dependency). *)
Definition scalar_bytes (s : Fq) : list byte := le_bytes 32 (fz s).

(** Scalar.SetCanonicalBytes (dependency): 32 bytes encoding an integer below q, else an error. *)
Definition scalar_set_canonical (b : list byte) : option Fq :=
  if (Nat.eqb (length b) 32 && (le_val b <? q25519))%bool then Some (qof (le_val b)) else None.

(** Scalar.SetUniformBytes (dependency): 64 bytes reduced mod q; any other length is an
    error and leaves the receiver [old] unchanged.  The callers in /repo ignore the error. *)
Definition scalar_set_uniform (old : Fq) (b : list byte) : Fq :=
  if Nat.eqb (length b) 64 then qof (le_val b) else old.

(** The randomness: the i-th 64-byte read of crypto/rand, as a little-endian integer
    (only its value mod 2^512 matters). *)
Definition rng := nat -> Z.

(** pkg/internal/scalar/scalar.go:11-27 SetScalarRandom: read 64 bytes, SetUniformBytes.
    The panic on a failing random source is in RandFail.v. *)
Definition SetScalarRandom (r : rng) (i : nat) : Fq :=
  scalar_set_uniform 0%Fq (le_bytes 64 (r i)).

(** scalar.go:11-20 when Reader.Read fills only the first bytes of the buffer ([got]) and returns no error: the count it
    returns is dropped, and the rest of the buffer is zero. *)
Definition SetScalarRandomRead (got : list byte) : Fq :=
  scalar_set_uniform 0%Fq (got ++ repeat x00 (64 - length got)).

Lemma scalar_bytes_length s : length (scalar_bytes s) = 32%nat.
Proof. apply le_bytes_length. Qed.

Lemma scalar_canonical_bytes s : scalar_set_canonical (scalar_bytes s) = Some s.
Proof.
  unfold scalar_set_canonical. rewrite scalar_bytes_length. unfold scalar_bytes. rewrite le_val_le_bytes.
  pose proof (fz_Fq_range s). pose proof q_lt_256_32. rewrite Z.mod_small by (change (Z.of_nat 32) with 32; lia).
  simpl Nat.eqb. rewrite (proj2 (Z.ltb_lt _ _)) by lia. simpl. f_equal. apply fof_fz.
Qed.

Lemma scalar_bytes_canonical b s : scalar_set_canonical b = Some s -> scalar_bytes s = b.
Proof.
  unfold scalar_set_canonical. destruct (Nat.eqb (length b) 32) eqn:E1; simpl; [|discriminate].
  destruct (Z.ltb_spec (le_val b) q25519); [|discriminate]. injection 1; intros <-.
  apply Nat.eqb_eq in E1. unfold scalar_bytes. rewrite fz_qof, Z.mod_small by (pose proof (le_val_range b); lia).
  rewrite <- E1. apply le_bytes_le_val.
Qed.

Lemma scalar_bytes_inj s t : scalar_bytes s = scalar_bytes t -> s = t.
Proof. intros E. apply (f_equal scalar_set_canonical) in E. rewrite !scalar_canonical_bytes in E. congruence. Qed.

Lemma scalar_set_canonical_iff b :
  (exists s, scalar_set_canonical b = Some s) <-> (length b = 32%nat /\ le_val b < q25519).
Proof.
  unfold scalar_set_canonical. destruct (Nat.eqb (length b) 32) eqn:E1; simpl.
  - apply Nat.eqb_eq in E1. destruct (Z.ltb_spec (le_val b) q25519); split; try (intros []; discriminate); intuition eauto; lia.
  - apply Nat.eqb_neq in E1. split; [intros []; discriminate|tauto].
Qed.

(** Every scalar can be drawn. *)
Lemma SetScalarRandom_surj (s : Fq) : exists z, forall r i, r i = z -> SetScalarRandom r i = s.
Proof.
  exists (fz s). intros r i E. unfold SetScalarRandom, scalar_set_uniform. rewrite le_bytes_length. simpl Nat.eqb. cbv iota.
  rewrite E, le_val_le_bytes, Z.mod_small. apply fof_fz. pose proof (fz_Fq_range s). pose proof q_lt_256_32.
  split; [lia|]. eapply Z.lt_trans; [apply H|]. eapply Z.lt_trans; [apply q_lt_256_32|]. reflexivity.
Qed.

(** scalar.go:29-52 SetScalarUInt32, NewScalarUInt32: always canonical, so the inner panic is dead. *)
Definition NewScalarUInt32 (x : Z) : Fq := qof (x mod 2 ^ 32).
