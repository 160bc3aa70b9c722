(** Byte strings and fixed-length integer encodings. *)
From Coq Require Import ZArith Lia List Bool NArith.
From Coq.Strings Require Import Byte.
Import ListNotations.
Local Open Scope Z_scope.

Definition b2z (b : byte) : Z := Z.of_N (Byte.to_N b).
Definition z2b (z : Z) : byte :=
  match Byte.of_N (Z.to_N (z mod 256)) with Some b => b | None => x00 end.

Lemma b2z_range b : 0 <= b2z b < 256.
Proof. unfold b2z. destruct b; cbn; lia. Qed.

Lemma z2b_b2z b : z2b (b2z b) = b.
Proof. destruct b; reflexivity. Qed.

Lemma b2z_z2b z : b2z (z2b z) = z mod 256.
Proof.
  unfold z2b, b2z. pose proof (Z.mod_pos_bound z 256 ltac:(lia)).
  destruct (Byte.of_N (Z.to_N (z mod 256))) eqn:E.
  - apply Byte.to_of_N in E. rewrite E. rewrite Z2N.id; lia.
  - apply Byte.of_N_None_iff in E. lia.
Qed.

Lemma b2z_inj a b : b2z a = b2z b -> a = b.
Proof. intros H. rewrite <- (z2b_b2z a), <- (z2b_b2z b). congruence. Qed.

Lemma z2b_mod z : z2b (z mod 256) = z2b z.
Proof. apply b2z_inj. rewrite !b2z_z2b. apply Zmod_mod. Qed.

Definition byte_eqb (a b : byte) : bool := Byte.eqb a b.

Fixpoint bytes_eqb (a b : list byte) : bool :=
  match a, b with
  | [], [] => true
  | x :: a', y :: b' => Byte.eqb x y && bytes_eqb a' b'
  | _, _ => false
  end.

Lemma Byte_eqb_eq a b : Byte.eqb a b = true <-> a = b.
Proof. split; [apply Byte.byte_dec_bl|apply Byte.byte_dec_lb]. Qed.

Lemma bytes_eqb_eq a b : bytes_eqb a b = true <-> a = b.
Proof.
  revert b. induction a as [|x a IH]; intros [|y b]; simpl; split; intros; try congruence.
  - apply andb_true_iff in H as [H1 H2]. apply Byte_eqb_eq in H1. apply IH in H2. congruence.
  - inversion H; subst. apply andb_true_iff. split; [now apply Byte_eqb_eq|now apply IH].
Qed.

(** Little-endian encoding of an integer on n bytes, and the converse. *)
Fixpoint le_bytes (n : nat) (z : Z) : list byte :=
  match n with O => [] | S k => z2b z :: le_bytes k (z / 256) end.

Fixpoint le_val (l : list byte) : Z :=
  match l with [] => 0 | b :: l' => b2z b + 256 * le_val l' end.

Lemma le_bytes_length n z : length (le_bytes n z) = n.
Proof. revert z; induction n; simpl; auto. Qed.

Lemma le_val_range l : 0 <= le_val l < 256 ^ Z.of_nat (length l).
Proof.
  induction l as [|b l IH]; cbn [le_val length]; [cbn; lia|].
  rewrite Nat2Z.inj_succ, Z.pow_succ_r by lia. pose proof (b2z_range b). nia.
Qed.

Lemma le_val_le_bytes n z : le_val (le_bytes n z) = z mod 256 ^ Z.of_nat n.
Proof.
  revert z. induction n as [|n IH]; intros z; cbn [le_val le_bytes].
  - cbn. now rewrite Z.mod_1_r.
  - rewrite IH, b2z_z2b, Nat2Z.inj_succ, Z.pow_succ_r by lia.
    rewrite Z.rem_mul_r by lia. reflexivity.
Qed.

Lemma le_bytes_le_val l : le_bytes (length l) (le_val l) = l.
Proof.
  induction l as [|b l IH]; cbn [le_val le_bytes length]; auto.
  pose proof (b2z_range b). f_equal.
  - apply b2z_inj. rewrite b2z_z2b, (Z.mul_comm 256), Z_mod_plus_full. now apply Z.mod_small.
  - rewrite Z.add_comm, Z.mul_comm, Z.div_add_l, Z.div_small, Z.add_0_r by lia. exact IH.
Qed.

Lemma le_val_inj a b : length a = length b -> le_val a = le_val b -> a = b.
Proof. intros H E. rewrite <- (le_bytes_le_val a), <- (le_bytes_le_val b). congruence. Qed.

Lemma le_bytes_inj n x y : 0 <= x < 256 ^ Z.of_nat n -> 0 <= y < 256 ^ Z.of_nat n ->
  le_bytes n x = le_bytes n y -> x = y.
Proof.
  intros Hx Hy E. apply (f_equal le_val) in E. rewrite !le_val_le_bytes, !Z.mod_small in E by lia. exact E.
Qed.

(** Big-endian 16-bit integers (encoding/binary's BigEndian.PutUint16 / Uint16). *)
Definition be16 (z : Z) : list byte := [z2b (z / 256); z2b z].
Definition be16_val (a b : byte) : Z := b2z a * 256 + b2z b.

Lemma be16_val_range a b : 0 <= be16_val a b < 65536.
Proof. unfold be16_val. pose proof (b2z_range a). pose proof (b2z_range b). lia. Qed.

Lemma be16_val_be16 z : 0 <= z < 65536 -> be16_val (z2b (z / 256)) (z2b z) = z.
Proof.
  intros H. unfold be16_val. rewrite !b2z_z2b, (Z.mod_small (z / 256)).
  - pose proof (Z.div_mod z 256 ltac:(lia)). lia.
  - split; [apply Z.div_pos; lia|apply Z.div_lt_upper_bound; lia].
Qed.

Lemma be16_be16_val a b : be16 (be16_val a b) = [a; b].
Proof.
  unfold be16, be16_val. pose proof (b2z_range a). pose proof (b2z_range b). f_equal; [|f_equal].
  - apply b2z_inj. rewrite b2z_z2b, Z.div_add_l, Z.div_small, Z.add_0_r by lia. apply Z.mod_small; lia.
  - apply b2z_inj. rewrite b2z_z2b, Z.add_comm, Z_mod_plus_full. apply Z.mod_small; lia.
Qed.

Lemma be16_inj x y : 0 <= x < 65536 -> 0 <= y < 65536 -> be16 x = be16 y -> x = y.
Proof.
  intros Hx Hy E. unfold be16 in E. injection E; intros E1 E2.
  rewrite <- (be16_val_be16 x), <- (be16_val_be16 y) by auto. congruence.
Qed.

Definition u16 (z : Z) : Z := z mod 65536.
Definition is_u16 (z : Z) : Prop := 0 <= z < 65536.

Lemma u16_small z : is_u16 z -> u16 z = z.
Proof. intros. apply Z.mod_small. exact H. Qed.

Lemma app_inj_len {A} (a b c d : list A) : length a = length c -> a ++ b = c ++ d -> a = c /\ b = d.
Proof.
  revert c. induction a as [|x a IH]; intros [|y c] H E; simpl in *; try discriminate; auto.
  injection E; intros. injection H; intros. destruct (IH c); auto. subst; auto.
Qed.
