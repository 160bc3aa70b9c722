(** The base field of the curve: integers mod p = 2^255 - 19.  This models
    filippo.io/edwards25519/field (a dependency): field.Element is taken to be an
    integer mod p, with the square roots and signs computed as in that package. *)
From Coq Require Import ZArith Znumtheory Lia List Bool Ring Field.
From Coq.Strings Require Import Byte.
From Verif Require Import ZField Primes Bytes Scalar.
Import ListNotations.
Local Open Scope Z_scope.

Notation Fp := (F p25519).
Definition pof (z : Z) : Fp := fof p25519 z.

Definition Fp_field_theory := F_field_theory prime_p25519.
Definition Fp_morph := F_morph p25519.

Ltac Fp_cst t :=
  match t with
  | fof p25519 ?z => match is_Zcst z with true => constr:(z) | _ => constr:(NotConstant) end
  | pof ?z => match is_Zcst z with true => constr:(z) | _ => constr:(NotConstant) end
  | @f0 p25519 => constr:(0%Z)
  | @f1 p25519 => constr:(1%Z)
  | _ => constr:(NotConstant) end.

Add Field FpField : Fp_field_theory
  (morphism Fp_morph, constants [Fp_cst], power_tac (F_power_theory p25519) [F_Ncst]).

Declare Scope Fp_scope.
Delimit Scope Fp_scope with Fp.
Bind Scope Fp_scope with F.
Infix "+" := (@fadd p25519) : Fp_scope.
Infix "-" := (@fsub p25519) : Fp_scope.
Infix "*" := (@fmul p25519) : Fp_scope.
Infix "/" := (@fdiv p25519) : Fp_scope.
Notation "- x" := (@fopp p25519 x) : Fp_scope.
Notation "0" := (@f0 p25519) : Fp_scope.
Notation "1" := (@f1 p25519) : Fp_scope.
Notation "2" := (pof 2) : Fp_scope.

Lemma p_val : p25519 = 57896044618658097711785492504343953926634992332820282019728792003956564819949.
Proof. reflexivity. Qed.
Lemma q_val : q25519 = 7237005577332262213973186563042994240857116359379907606001950938285454250989.
Proof. reflexivity. Qed.

Lemma Fp_integral (x y : Fp) : (x * y)%Fp = 0%Fp -> x = 0%Fp \/ y = 0%Fp.
Proof. apply fmul_integral, prime_p25519. Qed.
Lemma Fp_1_neq_0 : (1 <> 0)%Fp.
Proof. apply f1_neq_f0, prime_p25519. Qed.
Lemma Fp_inv_l (x : Fp) : (x <> 0 -> finv x * x = 1)%Fp.
Proof. apply finv_l, prime_p25519. Qed.
Lemma Fp_mul_neq0 (x y : Fp) : (x <> 0 -> y <> 0 -> x * y <> 0)%Fp.
Proof. intros Hx Hy E. apply Fp_integral in E. tauto. Qed.
Lemma Fp_inv_neq0 (x : Fp) : (x <> 0 -> finv x <> 0)%Fp.
Proof. intros Hx E. apply Fp_1_neq_0. rewrite <- (Fp_inv_l x Hx), E. ring. Qed.
Lemma Fp_sub_eq0 (x y : Fp) : (x - y = 0 -> x = y)%Fp.
Proof. intros H. transitivity (x - y + y)%Fp; [ring|rewrite H; ring]. Qed.
Lemma Fp_eq_sub (x y : Fp) : (x = y -> x - y = 0)%Fp.
Proof. intros ->. ring. Qed.
Lemma Fp_cancel (a x y : Fp) : (a <> 0 -> a * x = a * y -> x = y)%Fp.
Proof. apply fmul_cancel_l, prime_p25519. Qed.
Lemma Fp_opp_neq0 (x : Fp) : (x <> 0 -> - x <> 0)%Fp.
Proof. intros H E. apply H. transitivity (- - x)%Fp; [ring|rewrite E; ring]. Qed.
Lemma Fp_inv_0 : finv (0%Fp) = 0%Fp.
Proof. apply finv_0; [apply prime_p25519|]. rewrite p_val. lia. Qed.
Lemma Fp_sqr_eq (x y : Fp) : (x * x = y * y -> x = y \/ x = - y)%Fp.
Proof.
  intros E. assert ((x - y) * (x + y) = 0)%Fp as E2.
  { transitivity (x * x - y * y)%Fp; [ring|rewrite E; ring]. }
  apply Fp_integral in E2 as [E2|E2]; [left; now apply Fp_sub_eq0|right].
  transitivity (x + y - y)%Fp; [ring|rewrite E2; ring].
Qed.
Lemma Fp_sqr_0 (x : Fp) : (x * x = 0 -> x = 0)%Fp.
Proof. intros E. now apply Fp_integral in E as [E|E]. Qed.

Lemma fz_pof z : fz (pof z) = z mod p25519. Proof. reflexivity. Qed.
Lemma fz_Fp_range (x : Fp) : 0 <= fz x < p25519.
Proof. apply fz_range. rewrite p_val. lia. Qed.

(** Constants are distinguished by their residues. *)
Lemma pof_neq a b : (a mod p25519 =? b mod p25519) = false -> pof a <> pof b.
Proof. intros H E. apply (f_equal fz) in E. rewrite !fz_pof in E. apply Z.eqb_neq in H. auto. Qed.
Lemma pof_2_neq0 : (2 <> 0)%Fp.
Proof. apply pof_neq. rewrite p_val. reflexivity. Qed.
Lemma pof_0 : pof 0 = 0%Fp. Proof. reflexivity. Qed.
Lemma pof_1 : pof 1 = 1%Fp. Proof. reflexivity. Qed.

(** ** Powers computed on integers *)
Fixpoint zpow_pos (m x : Z) (e : positive) : Z :=
  match e with
  | xH => x
  | xO e' => let y := zpow_pos m x e' in (y * y) mod m
  | xI e' => let y := zpow_pos m x e' in (x * ((y * y) mod m)) mod m
  end.

Lemma zpow_pos_ok m x e : fof m (zpow_pos m x e) = fpow (fof m x) (Npos e).
Proof.
  induction e as [e IH|e IH|]; cbn [zpow_pos]; [| |reflexivity].
  - replace (Npos e~1) with (1 + (Npos e + Npos e))%N by lia. rewrite !fpow_add, <- IH, fpow_1, <- !fof_mul.
    apply fof_eq. rewrite Zmod_mod. rewrite Zmult_mod_idemp_r. reflexivity.
  - replace (Npos e~0) with (Npos e + Npos e)%N by lia. rewrite !fpow_add, <- IH, <- !fof_mul.
    apply fof_eq. now rewrite Zmod_mod.
Qed.

(** ** Squares *)
Definition sq (x : Fp) : Prop := exists y, (y * y)%Fp = x.

(** (p-1)/2 and (p-5)/8. *)
Definition p_half : N := Z.to_N ((p25519 - 1) / 2).
Definition p_58 : N := Z.to_N ((p25519 - 5) / 8).

Lemma p_half_2 : (p_half * 2 = Z.to_N (p25519 - 1))%N.
Proof. unfold p_half. rewrite p_val. reflexivity. Qed.
Lemma p_58_4 : (2 + p_58 * 4 = p_half)%N.
Proof. unfold p_half, p_58. rewrite p_val. reflexivity. Qed.

Lemma p_half_neq0 : p_half <> 0%N.
Proof. apply N.eqb_neq. unfold p_half. rewrite p_val. vm_compute. reflexivity. Qed.

Lemma fpow_2 {m} (x : F m) : fpow x 2 = fmul x x.
Proof. reflexivity. Qed.
Lemma fpow_0_l n : (n <> 0)%N -> fpow 0%Fp n = 0%Fp.
Proof. intros H. rewrite <- (N.succ_pred n H), fpow_S. ring. Qed.

Lemma euler_pm (x : Fp) : (x <> 0 -> fpow x p_half = 1 \/ fpow x p_half = - (1))%Fp.
Proof.
  intros H. apply Fp_sqr_eq. rewrite <- fpow_2, <- fpow_mul, p_half_2.
  rewrite (fermat prime_p25519) by auto. ring.
Qed.
Lemma sq_euler (x : Fp) : sq x -> (x <> 0 -> fpow x p_half = 1)%Fp.
Proof.
  intros [y <-] H. rewrite <- fpow_2, <- fpow_mul, N.mul_comm, p_half_2. apply (fermat prime_p25519).
  intros ->. apply H. ring.
Qed.

Lemma minus1_neq_1 : (1 <> - (1))%Fp.
Proof. intros E. apply pof_2_neq0. transitivity (1 - - (1))%Fp; [ring|rewrite <- E; ring]. Qed.

Lemma nonsq_euler (x : Fp) : (fpow x p_half = - (1))%Fp -> ~ sq x.
Proof.
  intros E H. destruct (F_eq_dec x 0%Fp) as [->|Hx].
  - rewrite fpow_0_l in E by apply p_half_neq0.
    apply Fp_1_neq_0. transitivity (- - (1))%Fp; [ring|]. rewrite <- E. ring.
  - rewrite (sq_euler x H Hx) in E. now apply minus1_neq_1.
Qed.

(** sqrt(-1), the even root. *)
Definition sqrtm1_Z : Z := 19681161376707505956807079304988542015446066515923890162744021073123829784752.
Definition sqrtM1 : Fp := pof sqrtm1_Z.

Lemma sqrtM1_sq : (sqrtM1 * sqrtM1 = - (1))%Fp.
Proof. apply F_ext. unfold sqrtM1, fmul. rewrite !fz_pof. unfold fopp, fof, fz, f1. rewrite p_val. vm_compute. reflexivity. Qed.

Lemma sqrtM1_neq0 : sqrtM1 <> 0%Fp.
Proof. apply (pof_neq _ 0). rewrite p_val. reflexivity. Qed.

Lemma ZField_mul_comm (x y : Fp) : (x * y = y * x)%Fp. Proof. ring. Qed.
Lemma Fp_mul_0_l (x : Fp) : (0 * x = 0)%Fp. Proof. ring. Qed.

(** ** Signs: field.Element.IsNegative is the low bit of the canonical encoding. *)
Definition is_neg (x : Fp) : bool := Z.odd (fz x).
(** field.Element.Absolute *)
Definition fabs (x : Fp) : Fp := if is_neg x then (- x)%Fp else x.

Lemma is_neg_0 : is_neg 0%Fp = false. Proof. reflexivity. Qed.
Lemma fz_opp (x : Fp) : x <> 0%Fp -> fz (- x)%Fp = p25519 - fz x.
Proof.
  intros H. pose proof (fz_Fp_range x). assert (fz x <> 0).
  { intros E. apply H, F_ext. rewrite E. reflexivity. }
  unfold fopp, fof, fz at 1. replace (- fz x) with (p25519 - fz x + (-1) * p25519) by ring.
  rewrite Z_mod_plus_full. apply Z.mod_small. lia.
Qed.
Lemma is_neg_opp (x : Fp) : x <> 0%Fp -> is_neg (- x)%Fp = negb (is_neg x).
Proof.
  intros H. unfold is_neg. rewrite fz_opp, Z.odd_sub by auto.
  replace (Z.odd p25519) with true by (rewrite p_val; reflexivity). reflexivity.
Qed.
Lemma fabs_nonneg x : is_neg (fabs x) = false.
Proof.
  unfold fabs. destruct (is_neg x) eqn:E; auto. rewrite is_neg_opp, E; auto.
  intros ->. discriminate.
Qed.
Lemma fabs_cases x : fabs x = x \/ fabs x = (- x)%Fp.
Proof. unfold fabs. destruct (is_neg x); auto. Qed.
Lemma fabs_sqr x : (fabs x * fabs x = x * x)%Fp.
Proof. destruct (fabs_cases x) as [-> | ->]; ring. Qed.
Lemma nonneg_sqr x y : is_neg x = is_neg y -> (x * x = y * y)%Fp -> x = y.
Proof.
  intros N E. apply Fp_sqr_eq in E as [E|E]; auto. subst x.
  destruct (F_eq_dec y 0%Fp) as [->|H]; [ring|]. rewrite is_neg_opp in N by auto. now destruct (is_neg y).
Qed.
Lemma fabs_id x : is_neg x = false -> fabs x = x.
Proof. unfold fabs. now intros ->. Qed.

(** ** field.Element.SqrtRatio
    r = (u v^3) (u v^7)^((p-5)/8), corrected by sqrt(-1) according to v r^2, made non-negative. *)
Definition sqrt_ratio (u v : Fp) : Fp * bool :=
  let v2 := (v * v)%Fp in
  let uv3 := (u * (v2 * v))%Fp in
  let uv7 := (uv3 * (v2 * v2))%Fp in
  let rr := (uv3 * fpow uv7 p_58)%Fp in
  let check := (v * (rr * rr))%Fp in
  let correct := feqb check u in
  let flipped := feqb check (- u)%Fp in
  let flippedI := feqb check (- u * sqrtM1)%Fp in
  let rr' := if (flipped || flippedI)%bool then (rr * sqrtM1)%Fp else rr in
  (fabs rr', (correct || flipped)%bool).

Lemma fourth_roots (c : Fp) : (c * c * (c * c) = 1)%Fp ->
  (c = 1 \/ c = - (1) \/ c = sqrtM1 \/ c = - sqrtM1)%Fp.
Proof.
  intros E. assert ((c * c) * (c * c) = 1 * 1)%Fp as E2 by (rewrite E; ring).
  apply Fp_sqr_eq in E2 as [E2|E2].
  - replace 1%Fp with (1 * 1)%Fp in E2 by ring. apply Fp_sqr_eq in E2. tauto.
  - rewrite <- sqrtM1_sq in E2. apply Fp_sqr_eq in E2. tauto.
Qed.

Lemma fpow_mul_base (x y : Fp) n : fpow (x * y)%Fp n = (fpow x n * fpow y n)%Fp.
Proof. induction n as [|n IH] using N.peano_ind; [cbn; ring|]. rewrite !fpow_S, IH. ring. Qed.

(** What the square root computes. *)
Lemma sqrt_ratio_spec u v r b : sqrt_ratio u v = (r, b) ->
  is_neg r = false /\
  ((b = true /\ (v * (r * r) = u)%Fp) \/
   (b = false /\ (v * (r * r) = sqrtM1 * u)%Fp /\ u <> 0%Fp /\ v <> 0%Fp) \/
   (b = false /\ v = 0%Fp /\ u <> 0%Fp /\ r = 0%Fp)).
Proof.
  unfold sqrt_ratio. intros [= <- <-]. split; [apply fabs_nonneg|].
  set (uv3 := (u * (v * v * v))%Fp). set (w := (uv3 * (v * v * (v * v)))%Fp).
  set (rr := (uv3 * fpow w p_58)%Fp). rewrite fabs_sqr.
  destruct (F_eq_dec u 0%Fp) as [Eu|Hu].
  { left. assert (rr = 0%Fp) as -> by (unfold rr, uv3; rewrite Eu; ring).
    rewrite Eu. replace (v * (0 * 0))%Fp with 0%Fp by ring. replace (- 0)%Fp with 0%Fp by ring.
    rewrite feqb_refl. cbn [orb]. split; [reflexivity|ring]. }
  destruct (F_eq_dec v 0%Fp) as [Ev|Hv].
  { right; right. assert (rr = 0%Fp) as -> by (unfold rr, uv3; rewrite Ev; ring).
    rewrite Ev. replace (0 * (0 * 0))%Fp with 0%Fp by ring.
    assert (feqb 0%Fp u = false) as -> by (apply feqb_neq; congruence).
    assert (feqb 0%Fp (- u)%Fp = false) as ->.
    { apply feqb_neq. intros E. symmetry in E. revert E. now apply Fp_opp_neq0. }
    assert (feqb 0%Fp (- u * sqrtM1)%Fp = false) as ->.
    { apply feqb_neq. intros E. symmetry in E. revert E. apply Fp_mul_neq0; [now apply Fp_opp_neq0|apply sqrtM1_neq0]. }
    cbn [orb]. repeat split; auto. }
  assert (w <> 0%Fp) as Hw by (unfold w, uv3; repeat apply Fp_mul_neq0; auto).
  set (c := (w * (fpow w p_58 * fpow w p_58))%Fp).
  assert (v * (rr * rr) = u * c)%Fp as EC by (unfold rr, c; unfold w at 3; unfold uv3; ring).
  assert (c * c * (c * c) = 1)%Fp as C4.
  { rewrite <- (fermat prime_p25519 w Hw), <- p_half_2, <- p_58_4, fpow_mul, fpow_add, fpow_mul, !fpow_2.
    set (x := fpow w p_58) in *. replace (fpow x 4) with (x * x * (x * x))%Fp by (cbn; ring). unfold c. ring. }
  rewrite EC. pose proof minus1_neq_1 as N1.
  assert (forall a, u * a = u -> a = 1)%Fp as U1.
  { intros a E. apply (Fp_cancel u); auto. rewrite E. ring. }
  assert (forall a b, u * a = u * b -> a = b)%Fp as UC by (intros a b; now apply Fp_cancel).
  assert (sqrtM1 <> 1)%Fp as I1.
  { intros E. apply N1. rewrite <- sqrtM1_sq, E. ring. }
  assert (sqrtM1 <> - (1))%Fp as I2.
  { intros E. apply N1. rewrite <- sqrtM1_sq, E. ring. }
  assert (sqrtM1 <> - sqrtM1)%Fp as I3.
  { intros E. assert (2 * sqrtM1 = 0)%Fp as E2 by (transitivity (sqrtM1 - - sqrtM1)%Fp; [ring|rewrite <- E; ring]).
    apply Fp_integral in E2 as [E2|E2]; [now apply pof_2_neq0|now apply sqrtM1_neq0]. }
  assert (- u = u * - (1))%Fp as Eo by ring.
  assert (- u * sqrtM1 = u * - sqrtM1)%Fp as Ei by ring.
  assert (u = u * 1)%Fp as E1 by ring.
  assert (forall a b, feqb (u * a)%Fp (u * b)%Fp = feqb a b) as FE.
  { intros a b. apply Bool.eq_iff_eq_true. rewrite !feqb_eq. split; [apply UC|congruence]. }
  rewrite Ei, Eo. assert (feqb (u * c)%Fp u = feqb c 1%Fp) as -> by (rewrite <- (FE c 1%Fp), <- E1; reflexivity).
  rewrite !FE.
  apply fourth_roots in C4 as [C|[C|[C|C]]]; rewrite C in *.
  - left. rewrite feqb_refl, (proj2 (feqb_neq _ _) N1).
    assert (1 <> - sqrtM1)%Fp as I4 by (intros E; apply I2; transitivity (- - sqrtM1)%Fp; [ring|rewrite <- E; reflexivity]).
    rewrite (proj2 (feqb_neq _ _) I4). cbn [orb]. split; [reflexivity|]. rewrite EC. ring.
  - left. rewrite feqb_refl. cbn [orb]. rewrite orb_true_r. split; [reflexivity|].
    transitivity (v * (rr * rr) * (sqrtM1 * sqrtM1))%Fp; [ring|]. rewrite EC, sqrtM1_sq. ring.
  - right; left. rewrite (proj2 (feqb_neq _ _) I1), (proj2 (feqb_neq _ _) I2), (proj2 (feqb_neq _ _) I3).
    cbn [orb]. refine (conj eq_refl (conj _ (conj Hu Hv))). rewrite EC. ring.
  - right; left. rewrite feqb_refl.
    assert (- sqrtM1 <> 1)%Fp as I4 by (intros E; apply I2; transitivity (- - sqrtM1)%Fp; [ring|rewrite E; reflexivity]).
    assert (- sqrtM1 <> - (1))%Fp as I5 by (intros E; apply I1; transitivity (- - sqrtM1)%Fp; [ring|rewrite E; ring]).
    rewrite (proj2 (feqb_neq _ _) I4), (proj2 (feqb_neq _ _) I5). cbn [orb]. refine (conj eq_refl (conj _ (conj Hu Hv))).
    transitivity (v * (rr * rr) * (sqrtM1 * sqrtM1))%Fp; [ring|]. rewrite EC, sqrtM1_sq. ring.
Qed.

(** The square root of -1 is not a square: (p-1)/2 is 2 modulo 4. *)
Lemma sqrtM1_euler : (fpow sqrtM1 p_half = - (1))%Fp.
Proof.
  rewrite <- p_58_4, fpow_add, (N.mul_comm p_58), fpow_mul. change 4%N with (2 * 2)%N. rewrite fpow_mul, !fpow_2, sqrtM1_sq.
  replace (- (1) * - (1))%Fp with 1%Fp by ring. change 1%Fp with (f1 : Fp) at 2. rewrite fpow_one. unfold f1. ring.
Qed.
(** Nor is what it makes a square of. *)
Lemma euler_nonsq (x w : Fp) : x <> 0%Fp -> (sqrtM1 * x = w * w)%Fp -> (fpow x p_half = - (1))%Fp.
Proof.
  intros Hx E. assert (sq (sqrtM1 * x)%Fp) as HS by (exists w; auto). apply sq_euler in HS; [|apply Fp_mul_neq0; [apply sqrtM1_neq0|auto]].
  rewrite fpow_mul_base, sqrtM1_euler in HS. transitivity (- (- (1) * fpow x p_half))%Fp; [ring|]. now rewrite HS.
Qed.

Lemma sqrtM1_nonsq : ~ sq sqrtM1.
Proof. apply nonsq_euler, sqrtM1_euler. Qed.

(** Squares are exactly what the flag reports. *)
Lemma sqrt_ratio_flag u v r b : sqrt_ratio u v = (r, b) -> (v <> 0 -> (b = true <-> sq (u * v)))%Fp.
Proof.
  intros E Hv. apply sqrt_ratio_spec in E as (_ & [(-> & E)|[(-> & E & Hu & _)|(-> & E & _)]]).
  - split; auto. intros _. exists (v * r)%Fp. rewrite <- E. ring.
  - split; [discriminate|]. intros [y Y]. exfalso. apply sqrtM1_nonsq.
    exists (v * r * y * finv (u * v))%Fp.
    assert (finv (u * v) * (u * v) = 1)%Fp as EI by (apply Fp_inv_l; now apply Fp_mul_neq0).
    transitivity (v * (v * (r * r)) * (y * y) * (finv (u * v) * finv (u * v)))%Fp; [ring|].
    rewrite E, Y. transitivity (sqrtM1 * ((finv (u * v) * (u * v)) * (finv (u * v) * (u * v))))%Fp; [ring|].
    rewrite EI. ring.
  - tauto.
Qed.

Lemma euler_sq (x : Fp) : (fpow x p_half = 1)%Fp -> sq x.
Proof.
  intros E. destruct (sqrt_ratio x 1%Fp) as [r b] eqn:ER.
  pose proof (sqrt_ratio_spec _ _ _ _ ER) as (_ & [(-> & ER2)|[(-> & ER2 & Hx & _)|(-> & ER2 & _)]]).
  - exists r. rewrite <- ER2. ring.
  - exfalso. assert (fpow sqrtM1 p_half = 1)%Fp as E3.
    { assert (sq (sqrtM1 * x)%Fp) as HS by (exists r; rewrite <- ER2; ring).
      apply sq_euler in HS; [|apply Fp_mul_neq0; [apply sqrtM1_neq0|auto]].
      rewrite fpow_mul_base, E in HS. rewrite <- HS. ring. }
    rewrite sqrtM1_euler in E3. symmetry in E3. now apply minus1_neq_1.
  - exfalso. now apply Fp_1_neq_0.
Qed.
