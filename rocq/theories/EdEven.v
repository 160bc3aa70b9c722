(** The even points 2E: the points whose y coordinate makes 1 - y^2 a square.
    Ristretto elements are even points up to the 4-torsion. *)
From Coq Require Import ZArith Znumtheory Lia List Bool Ring Field.
From Coq.Strings Require Import Byte.
From Verif Require Import ZField Primes Bytes Scalar Fp Edwards EdPoint.
Import ListNotations.
Local Open Scope Z_scope.
Local Opaque fadd fsub fmul fopp finv fdiv fof pof f0 f1.

Definition even (P : ept) : Prop := exists Q, P = eadd Q Q.
Definition phi (P : ept) : Fp := (1 - ey P * ey P)%Fp.

(** -1 - d is a square (the constant INVSQRT_A_MINUS_D is the inverse of its root). *)
Definition amd_Z : Z := 54469307008909316920995813868745141605393597292927456921205312896311721017578.
Definition inv_sqrt_amd : Fp := pof amd_Z.
Lemma amd_ok : (inv_sqrt_amd * inv_sqrt_amd * (- (1) - ed_d) = 1)%Fp.
Proof.
  unfold inv_sqrt_amd. replace ed_d with (pof d_Z) by reflexivity. replace (1%Fp) with (pof 1) by reflexivity.
  replace (- pof 1)%Fp with (pof (-1)) by reflexivity.
  rewrite <- !pof_mul, <- pof_sub, <- pof_mul. pof_compute.
Qed.
Lemma amd_neq0 : (1 + ed_d <> 0)%Fp.
Proof.
  intros E. apply Fp_1_neq_0. rewrite <- amd_ok. transitivity (inv_sqrt_amd * inv_sqrt_amd * - (1 + ed_d))%Fp; [ring|]. rewrite E. ring.
Qed.
Global Opaque inv_sqrt_amd.

(** ** Useful forms of the curve equation *)
Lemma curve_x x y : on_curve x y -> (1 - y * y = - (x * x) * (1 + ed_d * (y * y)))%Fp.
Proof.
  unfold on_curve. intros C. transitivity (- (x * x) + (1 + ed_d * (x * x) * (y * y)) - (y * y - x * x) - ed_d * (x * x) * (y * y))%Fp; [ring|].
  rewrite C. ring.
Qed.
Lemma curve_y x y : on_curve x y -> (y * y * (1 - ed_d * (x * x)) = 1 + x * x)%Fp.
Proof.
  unfold on_curve. intros C. transitivity (y * y - x * x + x * x - ed_d * (x * x) * (y * y))%Fp; [ring|]. rewrite C. ring.
Qed.
Lemma curve_prod x y : on_curve x y -> ((1 - y * y) * (1 + x * x) = - (1 + ed_d) * (x * x) * (y * y))%Fp.
Proof.
  intros C. pose proof (curve_rule _ _ C) as R. pose proof d_e as DE. unfold on_curve in C.
  transitivity (1 + (x * x - y * y) - x * x * (y * y))%Fp; [ring|].
  transitivity (1 - (y * y - x * x) - x * x * (y * y))%Fp; [ring|]. rewrite C. ring.
Qed.
Lemma one_minus_dxx x y : on_curve x y -> (1 - ed_d * (x * x) <> 0)%Fp.
Proof.
  intros C E. assert (x = 0%Fp) as X0.
  { apply (d_times_sq x 1%Fp). transitivity (1 - (1 - ed_d * (x * x)))%Fp; [ring|]. rewrite E. ring. }
  apply Fp_1_neq_0. rewrite <- E, X0. ring.
Qed.
Lemma x0_y x y : on_curve x y -> x = 0%Fp -> y = 1%Fp \/ y = (- (1))%Fp.
Proof.
  intros C ->. apply Fp_sqr_eq. apply curve_x in C. symmetry. apply Fp_sub_eq0.
  transitivity (1 - y * y)%Fp; [ring|]. rewrite C. ring.
Qed.
Lemma y1_x x y : on_curve x y -> (y * y = 1)%Fp -> x = 0%Fp.
Proof.
  intros C E. pose proof (curve_prod _ _ C) as H. rewrite E in H.
  assert ((1 + ed_d) * (x * x) = 0)%Fp as H0.
  { transitivity (- (- (1 + ed_d) * (x * x) * 1))%Fp; [ring|]. rewrite <- H. ring. }
  apply Fp_integral in H0 as [H0|H0]; [now apply amd_neq0 in H0|now apply Fp_sqr_0].
Qed.

(** ** Doubles *)
Lemma even_phi P : even P -> sq (phi P).
Proof.
  intros [Q ->]. unfold phi. cbn [ey eadd].
  pose proof (sum_y_eq Q Q) as EY. pose proof (den_minus Q Q) as D. pose proof (ept_curve Q) as C.
  set (v := sum_y Q Q) in *. unfold kap in *. set (x := ex Q) in *. set (y := ey Q) in *.
  set (k := (1 - ed_d * x * x * y * y)%Fp) in *.
  apply (sq_div _ k); auto. assert ((1 - v * v) * (k * k) = (k - v * k) * (k + v * k))%Fp as -> by ring.
  rewrite EY. assert (k = 1 + 1 - (y * y - x * x))%Fp as Ek.
  { rewrite C. unfold k. ring. }
  rewrite Ek.
  replace ((1 + 1 - (y * y - x * x) - (y * y + x * x)) * (1 + 1 - (y * y - x * x) + (y * y + x * x)))%Fp
    with (pof 4 * ((1 - y * y) * (1 + x * x)))%Fp by ring.
  rewrite (curve_prod _ _ C).
  apply (sq_div _ inv_sqrt_amd).
  { intros E. apply Fp_1_neq_0. rewrite <- amd_ok, E. ring. }
  exists (2 * x * y)%Fp. transitivity (pof 4 * (x * x) * (y * y) * (inv_sqrt_amd * inv_sqrt_amd * (- (1) - ed_d)))%Fp; [rewrite amd_ok|]; ring.
Qed.

Lemma comb_even a k : even (comb a (2 * k)).
Proof.
  exists (comb (a * ((q25519 + 1) / 2)) k). rewrite comb_add.
  rewrite (comb_mod a), (comb_mod (_ + _)). f_equal; [|f_equal; ring].
  replace (a * ((q25519 + 1) / 2) + a * ((q25519 + 1) / 2)) with (a * (2 * ((q25519 + 1) / 2))) by ring.
  assert (2 * ((q25519 + 1) / 2) = q25519 + 1) as -> by (rewrite q_val; vm_compute; reflexivity).
  rewrite Z.mul_add_distr_l, Z.add_comm, Z_mod_plus_full. f_equal. ring.
Qed.

Lemma even_add P Q : even P -> even Q -> even (eadd P Q).
Proof. intros [A ->] [B ->]. exists (eadd A B). apply eadd_4. Qed.
Lemma even_neg P : even P -> even (eneg P).
Proof. intros [A ->]. exists (eneg A). apply eneg_add. Qed.
Lemma even_mul n P : even P -> even (emul n P).
Proof. intros [A ->]. exists (emul n A). apply emul_dist. Qed.
Lemma even_0 : even e0.
Proof. exists e0. now rewrite eadd_0_l. Qed.
Lemma even_B : even eB.
Proof. pose proof (comb_even 1 0) as H. unfold comb in H. change (2 * 0) with 0 in H. now rewrite emul_1, emul_0, eadd_0_r in H. Qed.

(** ** The quadratic class of phi separates even from odd points *)
Lemma phi_pair M R :
  exists w, (phi (eadd M R) * phi (eadd M (eneg R)) = w * w)%Fp.
Proof.
  unfold phi. cbn [ey eadd].
  pose proof (sum_y_eq M R) as E1. pose proof (den_minus M R) as D1.
  pose proof (sum_y_eq M (eneg R)) as E2. pose proof (den_minus M (eneg R)) as D2.
  pose proof (curve_y _ _ (ept_curve M)) as C1. pose proof (curve_y _ _ (ept_curve R)) as C2.
  pose proof (one_minus_dxx _ _ (ept_curve M)) as N1. pose proof (one_minus_dxx _ _ (ept_curve R)) as N2.
  set (v := sum_y M R) in *. set (v' := sum_y M (eneg R)) in *. unfold kap in *. cbn [ex ey eneg] in *.
  set (x1 := ex M) in *. set (y1 := ey M) in *. set (x2 := ex R) in *. set (y2 := ey R) in *.
  clearbody v v' x1 y1 x2 y2.
  set (k := (1 - ed_d * x1 * x2 * y1 * y2)%Fp) in *. set (k' := (1 - ed_d * x1 * - x2 * y1 * y2)%Fp) in *.
  set (D := ((1 - ed_d * (x1 * x1)) * (1 - ed_d * (x2 * x2)))%Fp).
  assert (D <> 0%Fp) as DN by (apply Fp_mul_neq0; auto).
  assert (sq ((1 - v * v) * (1 - v' * v'))%Fp) as [w W]; [|exists w; congruence].
  apply (sq_div _ (k * k' * D)%Fp); [repeat apply Fp_mul_neq0; auto|].
  exists ((1 + ed_d) * (1 + ed_d * (x1 * x1) * (x2 * x2)) * (x1 * x1 - x2 * x2))%Fp.
  symmetry.
  transitivity ((k * k - (v * k) * (v * k)) * (k' * k' - (v' * k') * (v' * k')) * (D * D))%Fp; [ring|].
  rewrite E1, E2. unfold k, k'.
  set (b := (x1 * x2)%Fp). set (A := (y1 * y1 * (y2 * y2))%Fp).
  transitivity ((1 - b * b) * (1 - b * b) * (D * D) - 2 * (A * D) * D * ((1 + ed_d * (b * b)) * (1 + ed_d * (b * b)) + (1 + ed_d) * (1 + ed_d) * (b * b))
     + (A * D) * (A * D) * ((1 - ed_d * ed_d * (b * b)) * (1 - ed_d * ed_d * (b * b))))%Fp.
  { unfold A, b. ring. }
  assert (A * D = (1 + x1 * x1) * (1 + x2 * x2))%Fp as ->.
  { rewrite <- C1, <- C2. unfold A, D. ring. }
  unfold D, b. ring.
Qed.

Lemma T_phi_euler : (fpow (phi eT) p_half = - (1))%Fp.
Proof.
  assert (phi eT = pof (1 - ty_Z * ty_Z)) as ->.
  { unfold phi. cbn [ey eT]. replace (1%Fp) with (pof 1) by reflexivity. now rewrite <- pof_mul, <- pof_sub. }
  apply (euler_nonsq _ (pof 40487097017211283083821237002547715115294016329314347611073478177926827817429)).
  - apply (pof_neq _ 0). rewrite p_val. vm_compute. reflexivity.
  - replace sqrtM1 with (pof sqrtm1_Z) by reflexivity. rewrite <- !pof_mul. pof_compute.
Qed.

Lemma even_or_odd P : even P \/ exists R, even R /\ P = eadd R eT.
Proof.
  destruct (all_comb P) as (a & j & ->). pose proof (Z.div_mod j 2 ltac:(lia)) as E.
  pose proof (Z.mod_pos_bound j 2 ltac:(lia)). assert (j mod 2 = 0 \/ j mod 2 = 1) as [E0|E1] by lia.
  - left. replace j with (2 * (j / 2)) by lia. apply comb_even.
  - right. exists (comb a (2 * (j / 2))). split; [apply comb_even|].
    replace eT with (comb 0 1) by (unfold comb; now rewrite emul_0, eadd_0_l, emul_1). rewrite comb_add.
    f_equal; lia.
Qed.
Lemma comb_odd a k : ~ even (comb a (2 * k + 1)).
Proof.
  intros [Q E]. destruct (all_comb Q) as (b & j & ->). rewrite comb_add in E.
  assert (comb (a + - (b + b)) (2 * k + 1 + - (j + j)) = e0) as E0.
  { rewrite <- comb_add, <- comb_neg, E. apply eadd_neg_r. }
  apply comb_0 in E0 as [_ [c C]]. lia.
Qed.

Theorem even_iff P : even P <-> sq (phi P).
Proof.
  split; [apply even_phi|]. intros HS. destruct (even_or_odd P) as [|(R2 & [R ->] & ->)]; auto. exfalso.
  destruct (F_eq_dec (phi (eadd (eadd R R) eT)) 0%Fp) as [Z0|NZ].
  - (* phi P = 0: P is 0 or of order 2 *)
    set (P := eadd (eadd R R) eT) in *.
    assert (ey P * ey P = 1)%Fp as Y1.
    { unfold phi in Z0. symmetry. now apply Fp_sub_eq0. }
    pose proof (y1_x _ _ (ept_curve P) Y1) as X0. destruct (x0_y _ _ (ept_curve P) X0) as [Y|Y].
    + assert (P = e0) as E by (apply ept_ext; auto). destruct (all_comb R) as (a & j & ER).
      apply (comb_odd (a + a) j). subst R. replace (2 * j + 1) with (j + j + 1) by ring.
      replace (comb (a + a) (j + j + 1)) with P; [rewrite E; apply even_0|]. unfold P. rewrite comb_add.
      replace eT with (comb 0 1) by (unfold comb; now rewrite emul_0, eadd_0_l, emul_1). rewrite comb_add. f_equal. ring.
    + assert (P = eT4) as E by (apply ept_ext; auto). destruct (all_comb R) as (a & j & ER).
      apply (comb_odd (a + a) j). subst R. replace (2 * j + 1) with (j + j + 1) by ring.
      replace (comb (a + a) (j + j + 1)) with P; [rewrite E; exists eT2; symmetry; apply T2_double|]. unfold P. rewrite comb_add.
      replace eT with (comb 0 1) by (unfold comb; now rewrite emul_0, eadd_0_l, emul_1). rewrite comb_add. f_equal. ring.
  - destruct (phi_pair (eadd R eT) R) as [w W].
    rewrite <- eadd_assoc, (eadd_comm eT R), eadd_assoc in W.
    assert (eadd (eadd R eT) (eneg R) = eT) as ET.
    { rewrite (eadd_comm R eT), <- eadd_assoc, eadd_neg_r. apply eadd_0_r. }
    rewrite ET in W. apply (nonsq_euler (phi eT) T_phi_euler).
    destruct HS as [r Hr]. assert (r <> 0%Fp) as Nr by (intros ->; apply NZ; rewrite <- Hr; ring).
    apply (sq_div _ r); auto. exists w. rewrite <- W, <- Hr. ring.
Qed.
