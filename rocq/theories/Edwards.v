(** The twisted Edwards curve -x^2 + y^2 = 1 + d x^2 y^2 over Fp (affine points), its
    group law, and its group: cyclic of order 8q.  This is the mathematics behind
    filippo.io/edwards25519's Point, which pkg/ristretto wraps. *)
From Coq Require Import ZArith Znumtheory Lia List Bool Ring Field Eqdep_dec.
From Coq.Strings Require Import Byte.
From Verif Require Import ZField Primes Bytes Scalar Fp.
Import ListNotations.
Local Open Scope Z_scope.

(** ** Constants *)
Definition d_Z : Z := 37095705934669439343138083508754565189542113879843219016388785533085940283555.
Definition ed_d : Fp := pof d_Z.

Lemma d_neq0 : ed_d <> 0%Fp.
Proof. apply (pof_neq _ 0). rewrite p_val. reflexivity. Qed.
Lemma d_euler : (fpow ed_d p_half = - (1))%Fp.
Proof.
  apply (euler_nonsq _ (pof 55317625704484474054323040104211100889138369048739196775942058122275509756997)); [apply d_neq0|].
  unfold ed_d, sqrtM1, pof. rewrite <- !fof_mul. apply fof_eq. rewrite p_val. vm_compute. reflexivity.
Qed.
Lemma d_nonsq : ~ sq ed_d.
Proof. apply nonsq_euler, d_euler. Qed.

Global Opaque ed_d sqrtM1.
Local Opaque fadd fsub fmul fopp finv fdiv fof pof f0 f1.

Lemma sq_sqr (x : Fp) : sq (x * x)%Fp. Proof. now exists x. Qed.
Lemma sq_mul x y : sq x -> sq y -> sq (x * y)%Fp.
Proof. intros [a <-] [b <-]. exists (a * b)%Fp. ring. Qed.
Lemma sq_div x y : y <> 0%Fp -> sq (x * (y * y))%Fp -> sq x.
Proof.
  intros H [a E]. exists (a * finv y)%Fp.
  transitivity (a * a * (finv y * finv y))%Fp; [ring|]. rewrite E.
  transitivity (x * ((finv y * y) * (finv y * y)))%Fp; [ring|]. rewrite Fp_inv_l by auto. ring.
Qed.
Lemma sq_m1 : sq (- (1))%Fp. Proof. exists sqrtM1. apply sqrtM1_sq. Qed.
Lemma sq_opp x : sq x -> sq (- x)%Fp.
Proof. intros H. replace (- x)%Fp with (- (1) * x)%Fp by ring. apply sq_mul; auto using sq_m1. Qed.

(** d times a non-zero square is not a square. *)
Lemma d_times_sq (a b : Fp) : (ed_d * (a * a) = b * b)%Fp -> a = 0%Fp.
Proof.
  intros E. destruct (F_eq_dec a 0%Fp) as [|H]; auto. exfalso. apply d_nonsq.
  apply (sq_div ed_d a); auto. rewrite E. apply sq_sqr.
Qed.

(** ** The curve *)
Definition on_curve (x y : Fp) : Prop := (y * y - x * x = 1 + ed_d * (x * x) * (y * y))%Fp.
Definition on_curveb (x y : Fp) : bool := feqb (y * y - x * x)%Fp (1 + ed_d * (x * x) * (y * y))%Fp.
Lemma on_curveb_ok x y : on_curveb x y = true <-> on_curve x y.
Proof. apply feqb_eq. Qed.

(** An affine point. *)
Record ept := mkE { ex : Fp; ey : Fp; eok : on_curveb ex ey = true }.

Lemma ept_ext P Q : ex P = ex Q -> ey P = ey Q -> P = Q.
Proof.
  destruct P as [a b H], Q as [a' b' H']; cbn. intros -> ->. f_equal. apply UIP_dec, bool_dec.
Qed.
Lemma ept_curve P : on_curve (ex P) (ey P).
Proof. apply on_curveb_ok, eok. Qed.

Definition ept_eq_dec (P Q : ept) : {P = Q} + {P <> Q}.
Proof.
  destruct (F_eq_dec (ex P) (ex Q)) as [E1|N]; [|right; congruence].
  destruct (F_eq_dec (ey P) (ey Q)) as [E2|N]; [|right; congruence].
  left. now apply ept_ext.
Defined.

(** Completeness: the denominators of the addition law never vanish, as d is not a square. *)
Lemma complete x1 y1 x2 y2 e : on_curve x1 y1 -> on_curve x2 y2 ->
  (e * e = 1 -> ed_d * x1 * x2 * y1 * y2 = e -> False)%Fp.
Proof.
  unfold on_curve. intros C1 C2 E2 E.
  (* over the field, with X = sqrt(-1) x the curve is X^2 + y^2 = 1 - d X^2 y^2 *)
  pose proof sqrtM1_sq as I2. set (i := sqrtM1) in *.
  assert (forall s, s * s = 1 -> ed_d * ((x1 * y1 * (i * x2 + s * y2)) * (x1 * y1 * (i * x2 + s * y2))) =
            (i * (i * x1 + s * e * y1)) * (i * (i * x1 + s * e * y1)) * - (1) )%Fp as K.
  { intros s Hs.
    transitivity (ed_d * (x1 * x1) * (y1 * y1) * ((i * i) * (x2 * x2) + (s * s) * (y2 * y2)) + 2 * i * s * (x1 * y1) * (ed_d * x1 * x2 * y1 * y2))%Fp; [ring|].
    transitivity (- (i * i) * ((i * i) * (x1 * x1) + s * s * (e * e) * (y1 * y1) + 2 * i * s * e * (x1 * y1)))%Fp; [|ring].
    rewrite E, I2, Hs, E2.
    transitivity (ed_d * (x1 * x1) * (y1 * y1) * (y2 * y2 - x2 * x2) + 2 * i * s * (x1 * y1) * e)%Fp; [ring|].
    rewrite C2.
    transitivity (ed_d * (x1 * x1) * (y1 * y1) + (ed_d * x1 * x2 * y1 * y2) * (ed_d * x1 * x2 * y1 * y2) + 2 * i * s * (x1 * y1) * e)%Fp; [ring|].
    rewrite E, E2.
    transitivity (1 + ed_d * (x1 * x1) * (y1 * y1) + 2 * i * s * (x1 * y1) * e)%Fp; [ring|]. rewrite <- C1. ring. }
  assert (forall s, s * s = 1 -> x1 * y1 * (i * x2 + s * y2) = 0)%Fp as K2.
  { intros s Hs. specialize (K s Hs).
    apply (d_times_sq _ (i * (i * (i * x1 + s * e * y1)))%Fp). rewrite K. rewrite <- I2. ring. }
  assert (x1 <> 0 /\ y1 <> 0 /\ x2 <> 0 /\ y2 <> 0)%Fp as (N1 & N2 & N3 & N4).
  { assert (e <> 0)%Fp as Ne by (intros ->; apply Fp_1_neq_0; rewrite <- E2; ring).
    repeat split; intros ->; apply Ne; rewrite <- E; ring. }
  assert (forall s, s * s = 1 -> i * x2 + s * y2 = 0)%Fp as K3.
  { intros s Hs. specialize (K2 s Hs). apply Fp_integral in K2 as [K2|K2]; auto.
    apply Fp_integral in K2 as [K2|K2]; contradiction. }
  pose proof (K3 1%Fp ltac:(ring)) as Ka. pose proof (K3 (- (1))%Fp ltac:(ring)) as Kb.
  assert (2 * y2 = 0)%Fp as Kc.
  { transitivity ((i * x2 + 1 * y2) - (i * x2 + - (1) * y2))%Fp; [ring|]. rewrite Ka, Kb. ring. }
  apply Fp_integral in Kc as [Kc|Kc]; [now apply pof_2_neq0|contradiction].
Qed.

Definition kap (P Q : ept) : Fp := (ed_d * ex P * ex Q * ey P * ey Q)%Fp.
Lemma den_plus P Q : (1 + kap P Q <> 0)%Fp.
Proof.
  intros E. apply (complete (ex P) (ey P) (ex Q) (ey Q) (- (1))%Fp); [apply ept_curve|apply ept_curve|ring|].
  fold (kap P Q). transitivity (1 + kap P Q - 1)%Fp; [ring|rewrite E; ring].
Qed.
Lemma den_minus P Q : (1 - kap P Q <> 0)%Fp.
Proof.
  intros E. apply (complete (ex P) (ey P) (ex Q) (ey Q) (1)%Fp); [apply ept_curve|apply ept_curve|ring|].
  fold (kap P Q). transitivity (1 - (1 - kap P Q))%Fp; [ring|rewrite E; ring].
Qed.

(** 1/d, used to orient the curve equation as a rewriting rule. *)
Definition ed_e : Fp := finv ed_d.
Lemma d_e : (ed_d * ed_e = 1)%Fp.
Proof. unfold ed_e. rewrite <- (Fp_inv_l ed_d d_neq0). ring. Qed.
Lemma curve_rule x y : on_curve x y -> (x * x * (y * y) = ed_e * (y * y - x * x - 1))%Fp.
Proof.
  unfold on_curve. intros H.
  assert (y * y - x * x - 1 = ed_d * (x * x) * (y * y))%Fp as -> by (rewrite H; ring).
  transitivity (ed_d * ed_e * (x * x * (y * y)))%Fp; [rewrite d_e; ring|ring].
Qed.

Definition sum_x (P Q : ept) : Fp := ((ex P * ey Q + ey P * ex Q) / (1 + kap P Q))%Fp.
Definition sum_y (P Q : ept) : Fp := ((ey P * ey Q + ex P * ex Q) / (1 - kap P Q))%Fp.

Lemma sum_x_eq P Q : (sum_x P Q * (1 + kap P Q) = ex P * ey Q + ey P * ex Q)%Fp.
Proof. unfold sum_x. field. apply den_plus. Qed.
Lemma sum_y_eq P Q : (sum_y P Q * (1 - kap P Q) = ey P * ey Q + ex P * ex Q)%Fp.
Proof. unfold sum_y. field. apply den_minus. Qed.

Lemma sum_curve P Q : on_curveb (sum_x P Q) (sum_y P Q) = true.
Proof.
  apply on_curveb_ok. unfold on_curve.
  pose proof (sum_x_eq P Q) as EX. pose proof (sum_y_eq P Q) as EY.
  pose proof (den_plus P Q) as D1. pose proof (den_minus P Q) as D2.
  pose proof (curve_rule _ _ (ept_curve P)) as C1. pose proof (curve_rule _ _ (ept_curve Q)) as C2.
  set (u := sum_x P Q) in *. set (v := sum_y P Q) in *.
  set (a := (1 + kap P Q)%Fp) in *. set (b := (1 - kap P Q)%Fp) in *.
  apply (Fp_cancel (a * a * (b * b))%Fp); [now repeat apply Fp_mul_neq0|].
  transitivity ((v * b) * (v * b) * (a * a) - (u * a) * (u * a) * (b * b))%Fp; [ring|].
  transitivity (a * a * (b * b) + ed_d * ((u * a) * (u * a)) * ((v * b) * (v * b)))%Fp; [|ring].
  rewrite EX, EY. unfold a, b, kap. pose proof d_e as DE.
  set (x1 := ex P) in *. set (y1 := ey P) in *. set (x2 := ex Q) in *. set (y2 := ey Q) in *.
  ring [C1 C2 DE].
Qed.

(** Point addition. *)
Definition eadd (P Q : ept) : ept := mkE (sum_x P Q) (sum_y P Q) (sum_curve P Q).

Lemma e0_ok : on_curveb 0%Fp 1%Fp = true.
Proof. apply on_curveb_ok. unfold on_curve. ring. Qed.
Definition e0 : ept := mkE 0%Fp 1%Fp e0_ok.
Lemma eneg_ok P : on_curveb (- ex P)%Fp (ey P) = true.
Proof. apply on_curveb_ok. pose proof (ept_curve P) as H. unfold on_curve in *. 
  transitivity (ey P * ey P - ex P * ex P)%Fp; [ring|]. rewrite H. ring. Qed.
Definition eneg (P : ept) : ept := mkE (- ex P)%Fp (ey P) (eneg_ok P).

Lemma kap_comm P Q : kap P Q = kap Q P. Proof. unfold kap. ring. Qed.
Lemma eadd_comm P Q : eadd P Q = eadd Q P.
Proof.
  apply ept_ext; cbn; unfold sum_x, sum_y; rewrite (kap_comm P Q); f_equal; ring.
Qed.
Lemma eadd_0_l P : eadd e0 P = P.
Proof.
  apply ept_ext; cbn.
  - apply (Fp_cancel (1 + kap e0 P)%Fp); [apply den_plus|]. rewrite (ZField_mul_comm (1 + kap e0 P)%Fp (sum_x e0 P)), sum_x_eq. unfold kap. cbn. ring.
  - apply (Fp_cancel (1 - kap e0 P)%Fp); [apply den_minus|]. rewrite (ZField_mul_comm (1 - kap e0 P)%Fp (sum_y e0 P)), sum_y_eq. unfold kap. cbn. ring.
Qed.

Section AssocAlg.
  Variables (d e x1 y1 x2 y2 x3 y3 : Fp).
  Hypotheses (H0 : (d * e = 1)%Fp)
    (H1 : (x1 * x1 * (y1 * y1) = e * (y1 * y1 - x1 * x1 - 1))%Fp)
    (H2 : (x2 * x2 * (y2 * y2) = e * (y2 * y2 - x2 * x2 - 1))%Fp)
    (H3 : (x3 * x3 * (y3 * y3) = e * (y3 * y3 - x3 * x3 - 1))%Fp).
  Let k12 := (d * x1 * x2 * y1 * y2)%Fp.
  Let k23 := (d * x2 * x3 * y2 * y3)%Fp.
  Let nx12 := (x1 * y2 + y1 * x2)%Fp.
  Let ny12 := (y1 * y2 + x1 * x2)%Fp.
  Let nx23 := (x2 * y3 + y2 * x3)%Fp.
  Let ny23 := (y2 * y3 + x2 * x3)%Fp.
  Lemma assoc_alg_x :
    ((nx12 * (1 - k12) * y3 + ny12 * (1 + k12) * x3) * ((1 + k23) * (1 - k23) + d * x1 * nx23 * y1 * ny23) =
     (x1 * (ny23 * (1 + k23)) + y1 * (nx23 * (1 - k23))) * ((1 + k12) * (1 - k12) + d * nx12 * x3 * ny12 * y3))%Fp.
  Proof. unfold k12, k23, nx12, ny12, nx23, ny23. ring [H0 H1 H2 H3]. Qed.
  Lemma assoc_alg_y :
    ((ny12 * (1 + k12) * y3 + nx12 * (1 - k12) * x3) * ((1 + k23) * (1 - k23) - d * x1 * nx23 * y1 * ny23) =
     (y1 * (ny23 * (1 + k23)) + x1 * (nx23 * (1 - k23))) * ((1 + k12) * (1 - k12) - d * nx12 * x3 * ny12 * y3))%Fp.
  Proof. unfold k12, k23, nx12, ny12, nx23, ny23. ring [H0 H1 H2 H3]. Qed.
End AssocAlg.

Lemma eadd_assoc P Q R : eadd P (eadd Q R) = eadd (eadd P Q) R.
Proof.
  pose proof (sum_x_eq P Q) as X1. pose proof (sum_y_eq P Q) as Y1.
  pose proof (sum_x_eq Q R) as X2. pose proof (sum_y_eq Q R) as Y2.
  pose proof (sum_x_eq P (eadd Q R)) as X3. pose proof (sum_y_eq P (eadd Q R)) as Y3.
  pose proof (sum_x_eq (eadd P Q) R) as X4. pose proof (sum_y_eq (eadd P Q) R) as Y4.
  pose proof (den_plus P Q) as A1. pose proof (den_minus P Q) as B1.
  pose proof (den_plus Q R) as A2. pose proof (den_minus Q R) as B2.
  pose proof (den_plus P (eadd Q R)) as A3. pose proof (den_minus P (eadd Q R)) as B3.
  pose proof (den_plus (eadd P Q) R) as A4. pose proof (den_minus (eadd P Q) R) as B4.
  pose proof (curve_rule _ _ (ept_curve P)) as C1. pose proof (curve_rule _ _ (ept_curve Q)) as C2.
  pose proof (curve_rule _ _ (ept_curve R)) as C3.
  apply ept_ext; cbn [ex ey eadd].
  - pose proof (assoc_alg_x _ _ _ _ _ _ _ _ d_e C1 C2 C3) as AL.
    set (s := sum_x P (eadd Q R)) in *. set (t := sum_x (eadd P Q) R) in *.
    clearbody s t. clear Y3 Y4 B3 B4. unfold kap in *. cbn [ex ey eadd] in *.
    set (u := sum_x P Q) in *. set (v := sum_y P Q) in *. set (u' := sum_x Q R) in *. set (v' := sum_y Q R) in *.
    clearbody u v u' v'.
    set (x1 := ex P) in *. set (y1 := ey P) in *. set (x2 := ex Q) in *. set (y2 := ey Q) in *.
    set (x3 := ex R) in *. set (y3 := ey R) in *. clearbody x1 y1 x2 y2 x3 y3.
    set (k := (ed_d * x1 * x2 * y1 * y2)%Fp) in *. set (k' := (ed_d * x2 * x3 * y2 * y3)%Fp) in *.
    rewrite <- X1, <- Y1, <- X2, <- Y2 in AL.
    apply (Fp_cancel (((1 + k) * (1 - k) * (1 + ed_d * u * x3 * v * y3)) * ((1 + k') * (1 - k') * (1 + ed_d * x1 * u' * y1 * v')))%Fp).
    + repeat apply Fp_mul_neq0; assumption.
    + transitivity (((1 + k) * (1 - k) * (1 + ed_d * u * x3 * v * y3)) * ((1 + k') * (1 - k')) * (s * (1 + ed_d * x1 * u' * y1 * v')))%Fp; [ring|].
      transitivity (((1 + k') * (1 - k') * (1 + ed_d * x1 * u' * y1 * v')) * ((1 + k) * (1 - k)) * (t * (1 + ed_d * u * x3 * v * y3)))%Fp; [|ring].
      rewrite X3, X4.
      match type of AL with ?l = ?r => transitivity r; [clear; ring|transitivity l; [now symmetry|clear; ring]] end.
  - pose proof (assoc_alg_y _ _ _ _ _ _ _ _ d_e C1 C2 C3) as AL.
    set (s := sum_y P (eadd Q R)) in *. set (t := sum_y (eadd P Q) R) in *.
    clearbody s t. clear X3 X4 A3 A4. unfold kap in *. cbn [ex ey eadd] in *.
    set (u := sum_x P Q) in *. set (v := sum_y P Q) in *. set (u' := sum_x Q R) in *. set (v' := sum_y Q R) in *.
    clearbody u v u' v'.
    set (x1 := ex P) in *. set (y1 := ey P) in *. set (x2 := ex Q) in *. set (y2 := ey Q) in *.
    set (x3 := ex R) in *. set (y3 := ey R) in *. clearbody x1 y1 x2 y2 x3 y3.
    set (k := (ed_d * x1 * x2 * y1 * y2)%Fp) in *. set (k' := (ed_d * x2 * x3 * y2 * y3)%Fp) in *.
    rewrite <- X1, <- Y1, <- X2, <- Y2 in AL.
    apply (Fp_cancel (((1 + k) * (1 - k) * (1 - ed_d * u * x3 * v * y3)) * ((1 + k') * (1 - k') * (1 - ed_d * x1 * u' * y1 * v')))%Fp).
    + repeat apply Fp_mul_neq0; assumption.
    + transitivity (((1 + k) * (1 - k) * (1 - ed_d * u * x3 * v * y3)) * ((1 + k') * (1 - k')) * (s * (1 - ed_d * x1 * u' * y1 * v')))%Fp; [ring|].
      transitivity (((1 + k') * (1 - k') * (1 - ed_d * x1 * u' * y1 * v')) * ((1 + k) * (1 - k)) * (t * (1 - ed_d * u * x3 * v * y3)))%Fp; [|ring].
      rewrite Y3, Y4.
      match type of AL with ?l = ?r => transitivity r; [clear; ring|transitivity l; [now symmetry|clear; ring]] end.
Qed.

Lemma eadd_neg_l P : eadd (eneg P) P = e0.
Proof.
  apply ept_ext; cbn [ex ey eadd e0].
  - apply (Fp_cancel (1 + kap (eneg P) P)%Fp); [apply den_plus|].
    rewrite (ZField_mul_comm _ (sum_x (eneg P) P)), sum_x_eq. cbn [ex ey eneg]. ring.
  - apply (Fp_cancel (1 - kap (eneg P) P)%Fp); [apply den_minus|].
    rewrite (ZField_mul_comm _ (sum_y (eneg P) P)), sum_y_eq. unfold kap. cbn [ex ey eneg].
    pose proof (ept_curve P) as C. unfold on_curve in C.
    transitivity (ey P * ey P - ex P * ex P)%Fp; [ring|]. rewrite C. ring.
Qed.
Lemma eadd_0_r P : eadd P e0 = P. Proof. now rewrite eadd_comm, eadd_0_l. Qed.
Lemma eadd_neg_r P : eadd P (eneg P) = e0. Proof. now rewrite eadd_comm, eadd_neg_l. Qed.

Lemma eadd_cancel_l P Q R : eadd P Q = eadd P R -> Q = R.
Proof.
  intros E. rewrite <- (eadd_0_l Q), <- (eadd_0_l R), <- (eadd_neg_l P), <- !eadd_assoc. congruence.
Qed.
Lemma eadd_move P Q R : eadd P Q = R -> Q = eadd R (eneg P).
Proof. intros <-. rewrite (eadd_comm P Q), <- eadd_assoc, eadd_neg_r, eadd_0_r. reflexivity. Qed.
Lemma eneg_unique P Q : eadd P Q = e0 -> Q = eneg P.
Proof. intros E. apply eadd_move in E. now rewrite eadd_0_l in E. Qed.
Lemma eadd_4 P Q R S' : eadd (eadd P Q) (eadd R S') = eadd (eadd P R) (eadd Q S').
Proof. rewrite <- !eadd_assoc. f_equal. rewrite !eadd_assoc. f_equal. apply eadd_comm. Qed.
Lemma eneg_add P Q : eneg (eadd P Q) = eadd (eneg P) (eneg Q).
Proof. symmetry. apply eneg_unique. now rewrite eadd_4, !eadd_neg_r, eadd_0_l. Qed.
Lemma eneg_neg P : eneg (eneg P) = P.
Proof. symmetry. apply eneg_unique, eadd_neg_l. Qed.
Lemma eneg_0 : eneg e0 = e0.
Proof. symmetry. apply eneg_unique, eadd_0_l. Qed.

(** ** Multiples *)
Definition emul (n : Z) (P : ept) : ept :=
  match n with
  | Z0 => e0
  | Zpos k => pow_pos eadd P k
  | Zneg k => eneg (pow_pos eadd P k)
  end.

Lemma emul_pos_S P k : pow_pos eadd P (Pos.succ k) = eadd P (pow_pos eadd P k).
Proof. apply (pow_pos_succ (Eqsth _)); [intros ? ? -> ? ? ->; reflexivity|apply eadd_assoc]. Qed.

Lemma emul_succ n P : emul (Z.succ n) P = eadd P (emul n P).
Proof.
  destruct n as [|k|k]; cbn [emul].
  - symmetry; apply eadd_0_r.
  - replace (Z.succ (Zpos k)) with (Zpos (Pos.succ k)) by lia. cbn [emul]. apply emul_pos_S.
  - destruct (Pos.eq_dec k 1) as [->|N]; [cbn; symmetry; apply eadd_neg_r|].
    rewrite <- (Pos.succ_pred k) by auto. set (j := Pos.pred k).
    replace (Z.succ (Zneg (Pos.succ j))) with (Zneg j) by lia. cbn [emul].
    rewrite emul_pos_S, eneg_add, eadd_assoc, eadd_neg_r, eadd_0_l. reflexivity.
Qed.
Lemma emul_0 P : emul 0 P = e0. Proof. reflexivity. Qed.
Lemma emul_1 P : emul 1 P = P. Proof. reflexivity. Qed.
Lemma emul_pred n P : emul (Z.pred n) P = eadd (eneg P) (emul n P).
Proof.
  rewrite <- (Z.succ_pred n) at 2. rewrite emul_succ, eadd_assoc, eadd_neg_l, eadd_0_l. reflexivity.
Qed.
Lemma emul_add a b P : emul (a + b) P = eadd (emul a P) (emul b P).
Proof.
  induction a as [|a IH|a IH] using Z.peano_ind.
  - now rewrite Z.add_0_l, emul_0, eadd_0_l.
  - rewrite Z.add_succ_l, !emul_succ, IH, eadd_assoc. reflexivity.
  - rewrite Z.add_pred_l, !emul_pred, IH, eadd_assoc. reflexivity.
Qed.
Lemma emul_opp a P : emul (- a) P = eneg (emul a P).
Proof. apply eneg_unique. rewrite <- emul_add, Z.add_opp_diag_r. reflexivity. Qed.
Lemma emul_sub a b P : emul (a - b) P = eadd (emul a P) (eneg (emul b P)).
Proof. unfold Z.sub. now rewrite emul_add, emul_opp. Qed.
Lemma emul_dist a P Q : emul a (eadd P Q) = eadd (emul a P) (emul a Q).
Proof.
  induction a as [|a IH|a IH] using Z.peano_ind.
  - rewrite !emul_0, eadd_0_l. reflexivity.
  - rewrite !emul_succ, IH. apply eadd_4.
  - rewrite !emul_pred, IH, eneg_add. apply eadd_4.
Qed.
Lemma emul_e0 a : emul a e0 = e0.
Proof.
  induction a as [|a IH|a IH] using Z.peano_ind; [reflexivity| |].
  - now rewrite emul_succ, IH, eadd_0_l.
  - now rewrite emul_pred, IH, eneg_0, eadd_0_l.
Qed.
Lemma emul_mul a b P : emul (a * b) P = emul a (emul b P).
Proof.
  induction a as [|a IH|a IH] using Z.peano_ind; [reflexivity| |].
  - now rewrite Z.mul_succ_l, Z.add_comm, emul_add, IH, emul_succ.
  - now rewrite Z.mul_pred_l, emul_sub, IH, emul_pred, eadd_comm.
Qed.
Lemma emul_neg a P : emul a (eneg P) = eneg (emul a P).
Proof. apply eneg_unique. now rewrite <- emul_dist, eadd_neg_r, emul_e0. Qed.
Lemma emul_2 P : emul 2 P = eadd P P. Proof. reflexivity. Qed.
