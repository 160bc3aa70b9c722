(** Integers modulo m as a type with Leibniz equality, and the field structure
    when m is prime.  This is mathematics used by the model: the Go code uses
    filippo.io/edwards25519's Scalar (mod q) and its internal field (mod p). *)
From Coq Require Import ZArith Znumtheory Lia List Permutation Eqdep_dec Bool.
From Coq Require Import Ring Field Ring_theory Field_theory.
Import ListNotations.
Local Open Scope Z_scope.

(** An element of Z/m: an integer equal to its own remainder. *)
Record F (m : Z) : Set := mkF { fz : Z; fz_ok : (fz =? fz mod m) = true }.
Arguments mkF {m} _ _.
Arguments fz {m} _.
Arguments fz_ok {m} _.

Lemma mod_idem (m z : Z) : (z mod m =? (z mod m) mod m) = true.
Proof. rewrite Zmod_mod. apply Z.eqb_refl. Qed.

(** Reduction of an integer. *)
Definition fof (m z : Z) : F m := mkF (z mod m) (mod_idem m z).

Lemma F_ext {m} (x y : F m) : fz x = fz y -> x = y.
Proof.
  destruct x as [x hx], y as [y hy]; simpl; intros ->.
  f_equal. apply UIP_dec. apply bool_dec.
Qed.

Definition f0 {m} : F m := fof m 0.
Definition f1 {m} : F m := fof m 1.
Definition fadd {m} (x y : F m) : F m := fof m (fz x + fz y).
Definition fsub {m} (x y : F m) : F m := fof m (fz x - fz y).
Definition fmul {m} (x y : F m) : F m := fof m (fz x * fz y).
Definition fopp {m} (x : F m) : F m := fof m (- fz x).
Definition feqb {m} (x y : F m) : bool := fz x =? fz y.

Lemma fz_mod {m} (x : F m) : fz x mod m = fz x.
Proof. symmetry. apply Z.eqb_eq, fz_ok. Qed.

Lemma fof_fz {m} (x : F m) : fof m (fz x) = x.
Proof. apply F_ext; simpl. apply fz_mod. Qed.

Lemma fz_range {m} (x : F m) : 0 < m -> 0 <= fz x < m.
Proof. intros. rewrite <- fz_mod. apply Z.mod_pos_bound; lia. Qed.

Lemma feqb_eq {m} (x y : F m) : feqb x y = true <-> x = y.
Proof.
  unfold feqb. rewrite Z.eqb_eq. split; [apply F_ext|congruence].
Qed.

Lemma feqb_refl {m} (x : F m) : feqb x x = true.
Proof. apply feqb_eq; reflexivity. Qed.

Lemma feqb_neq {m} (x y : F m) : feqb x y = false <-> x <> y.
Proof. rewrite <- feqb_eq. destruct (feqb x y); intuition congruence. Qed.

Definition F_eq_dec {m} (x y : F m) : {x = y} + {x <> y}.
Proof.
  destruct (feqb x y) eqn:E; [left; now apply feqb_eq|right; now apply feqb_neq].
Defined.

Lemma fof_eq m a b : a mod m = b mod m -> fof m a = fof m b.
Proof. intros. apply F_ext; simpl; auto. Qed.

Lemma fof_add m a b : fof m (a + b) = fadd (fof m a) (fof m b).
Proof. apply fof_eq; simpl. now rewrite <- Zplus_mod. Qed.
Lemma fof_sub m a b : fof m (a - b) = fsub (fof m a) (fof m b).
Proof. apply fof_eq; simpl. now rewrite <- Zminus_mod. Qed.
Lemma fof_mul m a b : fof m (a * b) = fmul (fof m a) (fof m b).
Proof. apply fof_eq; simpl. now rewrite <- Zmult_mod. Qed.
Lemma fof_opp m a : fof m (- a) = fopp (fof m a).
Proof.
  apply fof_eq; simpl. rewrite <- (Z.sub_0_l a), <- (Z.sub_0_l (a mod m)).
  now rewrite Zminus_mod_idemp_r.
Qed.

Lemma F_ring_theory m : ring_theory (@f0 m) f1 fadd fmul fsub fopp eq.
Proof.
  constructor; intros;
    repeat match goal with x : F m |- _ => rewrite <- (fof_fz x); generalize (fz x); clear x; intro end;
    unfold f0, f1; rewrite <- ?fof_opp, <- ?fof_mul, <- ?fof_sub, <- ?fof_add, <- ?fof_mul, <- ?fof_add, <- ?fof_opp, <- ?fof_add;
    f_equal; ring.
Qed.

(** The morphism that lets [ring] compute with integer constants. *)
Lemma F_morph m :
  ring_morph (@f0 m) f1 fadd fmul fsub fopp eq 0 1 Z.add Z.mul Z.sub Z.opp Z.eqb (fof m).
Proof.
  constructor; intros; try reflexivity.
  - apply fof_add. - apply fof_sub. - apply fof_mul. - apply fof_opp.
  - apply Z.eqb_eq in H. congruence.
Qed.

(** Powers (square and multiply). *)
Definition fpow {m} (x : F m) (n : N) : F m := pow_N f1 fmul x n.

Lemma F_power_theory m : power_theory (@f1 m) fmul eq (fun n => n) fpow.
Proof. constructor. reflexivity. Qed.

Section Pow.
  Context {m : Z}.
  Add Ring FmR : (F_ring_theory m).
  Implicit Types x y : F m.
  Lemma fpow_pos_S x p : pow_pos fmul x (Pos.succ p) = fmul x (pow_pos fmul x p).
  Proof.
    apply pow_pos_succ; try typeclasses eauto; repeat intro; subst; ring.
  Qed.
  Lemma fpow_pos_add x p q : pow_pos fmul x (p + q) = fmul (pow_pos fmul x p) (pow_pos fmul x q).
  Proof.
    apply pow_pos_add; try typeclasses eauto; repeat intro; subst; ring.
  Qed.
  Lemma fpow_0 x : fpow x 0 = f1. Proof. reflexivity. Qed.
  Lemma fpow_1 x : fpow x 1 = x. Proof. reflexivity. Qed.
  Lemma fpow_S x n : fpow x (N.succ n) = fmul x (fpow x n).
  Proof. destruct n; simpl; [cbn; ring|apply fpow_pos_S]. Qed.
  Lemma fpow_add x a b : fpow x (a + b) = fmul (fpow x a) (fpow x b).
  Proof. destruct a, b; unfold fpow; cbn [pow_N N.add]; try ring. apply fpow_pos_add. Qed.
  Lemma fpow_one n : fpow (@f1 m) n = f1.
  Proof. induction n using N.peano_ind; [reflexivity|rewrite fpow_S, IHn; ring]. Qed.
  Lemma fpow_mul x a b : fpow x (a * b) = fpow (fpow x a) b.
  Proof.
    induction b using N.peano_ind; [now rewrite N.mul_0_r|].
    rewrite N.mul_succ_r, N.add_comm, fpow_add, IHb, fpow_S. reflexivity.
  Qed.
  Lemma fpow_mul_l x y n : fpow (fmul x y) n = fmul (fpow x n) (fpow y n).
  Proof. induction n using N.peano_ind; [cbn; ring|rewrite !fpow_S, IHn; ring]. Qed.
  Lemma fpow_2 x : fpow x 2 = fmul x x. Proof. reflexivity. Qed.
End Pow.

(** Modular inverse by the extended Euclidean algorithm; the result is checked
    and exponentiation is the fallback, so no correctness proof of the loop is needed. *)
Fixpoint egcd_loop (fuel : nat) (r0 r1 s0 s1 : Z) : Z :=
  match fuel with
  | O => s0
  | S k => if r1 =? 0 then s0
           else let q := r0 / r1 in egcd_loop k r1 (r0 - q * r1) s1 (s0 - q * s1)
  end.

Definition finv {m} (x : F m) : F m :=
  let c := fof m (egcd_loop (2 * Z.to_nat (Z.log2 m) + 4) m (fz x) 0 1) in
  if feqb (fmul c x) f1 then c else fpow x (Z.to_N (m - 2)).

Definition fdiv {m} (x y : F m) : F m := fmul x (finv y).

(** ** Prime modulus *)
Section Prime.
  Context {m : Z} (pm : prime m).
  Add Ring FmR2 : (F_ring_theory m).
  Implicit Types x y : F m.

  Lemma m_ge_2 : 2 <= m. Proof. now apply prime_ge_2. Qed.

  Lemma f1_neq_f0 : @f1 m <> f0.
  Proof.
    intros H. apply (f_equal fz) in H; simpl in H. pose proof m_ge_2.
    rewrite !Z.mod_small in H; lia.
  Qed.

  Lemma fmul_integral x y : fmul x y = f0 -> x = f0 \/ y = f0.
  Proof.
    intros H. apply (f_equal fz) in H; simpl in H. rewrite Z.mod_0_l in H by (pose proof m_ge_2; lia).
    apply Zmod_divide in H; [|pose proof m_ge_2; lia].
    apply prime_mult in H; auto.
    destruct H as [H|H]; [left|right]; apply F_ext; simpl; rewrite Z.mod_0_l by (pose proof m_ge_2; lia);
      rewrite <- fz_mod; apply Zdivide_mod; auto.
  Qed.

  Lemma fmul_cancel_l a x y : a <> f0 -> fmul a x = fmul a y -> x = y.
  Proof.
    intros ha H.
    assert (fmul a (fsub x y) = f0) as E by (transitivity (fsub (fmul a x) (fmul a y)); [ring|rewrite H; ring]).
    apply fmul_integral in E as [E|E]; [tauto|].
    transitivity (fadd (fsub x y) y); [ring|rewrite E; ring].
  Qed.

  Definition nonzeros : list (F m) := map (fun n => fof m (Z.of_nat n)) (seq 1 (Z.to_nat m - 1)).

  Lemma nonzeros_len : length nonzeros = (Z.to_nat m - 1)%nat.
  Proof. unfold nonzeros. now rewrite map_length, seq_length. Qed.

  Lemma in_nonzeros x : In x nonzeros <-> x <> f0.
  Proof.
    pose proof m_ge_2. unfold nonzeros. rewrite in_map_iff. split.
    - intros (n & <- & Hn). apply in_seq in Hn. intros E. apply (f_equal fz) in E; simpl in E.
      rewrite Z.mod_0_l, Z.mod_small in E; lia.
    - intros Hx. exists (Z.to_nat (fz x)). pose proof (fz_range x ltac:(lia)).
      split.
      + rewrite Z2Nat.id by lia. apply fof_fz.
      + apply in_seq. assert (fz x <> 0).
        { intros E. apply Hx, F_ext. simpl. rewrite Z.mod_0_l; lia. }
        lia.
  Qed.

  Lemma nonzeros_nodup : NoDup nonzeros.
  Proof.
    pose proof m_ge_2. unfold nonzeros.
    apply (NoDup_map_inv fz). rewrite map_map.
    rewrite (map_ext_in _ Z.of_nat).
    - apply FinFun.Injective_map_NoDup; [intros a b; lia|apply seq_NoDup].
    - intros n Hn. apply in_seq in Hn. simpl. rewrite Z.mod_small; lia.
  Qed.

  Definition fprod (l : list (F m)) : F m := fold_right fmul f1 l.

  Lemma fprod_perm l l' : Permutation l l' -> fprod l = fprod l'.
  Proof. induction 1; simpl; try congruence. ring. Qed.

  Lemma fprod_scale a l : fprod (map (fmul a) l) = fmul (fpow a (N.of_nat (length l))) (fprod l).
  Proof.
    induction l as [|x l IH]; [cbn; ring|].
    cbn [map fprod fold_right length]. change (fold_right fmul f1) with fprod. rewrite IH. replace (N.of_nat (S (length l))) with (N.succ (N.of_nat (length l))) by lia. rewrite fpow_S. ring.
  Qed.

  Lemma fprod_neq0 l : (forall x, In x l -> x <> f0) -> fprod l <> f0.
  Proof.
    induction l as [|x l IH]; simpl; intros H; [apply f1_neq_f0|].
    intros E. apply fmul_integral in E as [E|E]; [apply (H x); auto|apply IH; auto].
  Qed.

  (** Fermat's little theorem. *)
  Lemma fermat (a : F m) : a <> f0 -> fpow a (Z.to_N (m - 1)) = f1.
  Proof.
    intros Ha. pose proof m_ge_2.
    assert (Permutation (map (fmul a) nonzeros) nonzeros) as P.
    { apply NoDup_Permutation_bis.
      - apply FinFun.Injective_map_NoDup; [|apply nonzeros_nodup].
        intros x y. now apply fmul_cancel_l.
      - now rewrite map_length.
      - intros x Hx. apply in_map_iff in Hx as (y & <- & Hy). apply in_nonzeros in Hy. apply in_nonzeros.
        intros E. apply fmul_integral in E. tauto. }
    apply fprod_perm in P. rewrite fprod_scale, nonzeros_len in P.
    replace (N.of_nat (Z.to_nat m - 1)) with (Z.to_N (m - 1)) in P by lia.
    apply (fmul_cancel_l (fprod nonzeros)).
    - apply fprod_neq0. intros x. apply in_nonzeros.
    - transitivity (fmul (fpow a (Z.to_N (m - 1))) (fprod nonzeros)); [ring|rewrite P; ring].
  Qed.

  Lemma finv_l x : x <> f0 -> fmul (finv x) x = f1.
  Proof.
    intros Hx. unfold finv.
    set (c := fof m _). destruct (feqb (fmul c x) f1) eqn:E; [now apply feqb_eq|].
    pose proof m_ge_2.
    transitivity (fpow x (Z.to_N (m - 2) + 1)); [rewrite fpow_add, fpow_1; reflexivity|].
    replace (Z.to_N (m - 2) + 1)%N with (Z.to_N (m - 1)) by lia. now apply fermat.
  Qed.

  Lemma F_field_theory : field_theory (@f0 m) f1 fadd fmul fsub fopp fdiv finv eq.
  Proof.
    constructor; [apply F_ring_theory|apply f1_neq_f0|reflexivity|apply finv_l].
  Qed.

  Lemma finv_0 : 2 < m -> finv (@f0 m) = f0.
  Proof.
    intros Hm. unfold finv. set (c := fof m _). destruct (feqb (fmul c f0) f1) eqn:E.
    - exfalso. apply feqb_eq in E. apply f1_neq_f0. rewrite <- E. ring.
    - destruct (Z.to_N (m - 2)) as [|p] eqn:Ep; [lia|].
      rewrite <- (N.succ_pred (N.pos p)) by lia. rewrite fpow_S. ring.
  Qed.
End Prime.
