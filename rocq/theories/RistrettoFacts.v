(** Correctness of the ristretto encoding, decoding and comparison with respect to
    even curve points up to the 4-torsion. *)
From Coq Require Import ZArith Znumtheory Lia List Bool String Ring Field.
From Coq.Strings Require Import Byte.
From Verif Require Import ZField Primes Bytes Scalar Go Fp Edwards EdPoint EdEven Ristretto.
Import ListNotations.
Local Open Scope Z_scope.

(** ** The constants *)
Lemma r_d_ok : r_d = ed_d.
Proof. replace ed_d with (pof d_Z) by reflexivity. apply pof_check. rewrite p_val. vm_compute. reflexivity. Qed.
Lemma r_sqrtM1_ok : r_sqrtM1 = sqrtM1.
Proof. replace sqrtM1 with (pof sqrtm1_Z) by reflexivity. apply pof_check. rewrite p_val. vm_compute. reflexivity. Qed.
Lemma r_invSqrtAMinusD_ok : r_invSqrtAMinusD = inv_sqrt_amd.
Proof. replace inv_sqrt_amd with (pof amd_Z) by reflexivity. apply pof_check. rewrite p_val. vm_compute. reflexivity. Qed.
Lemma r_oneMinusDSQ_ok : r_oneMinusDSQ = (1 - ed_d * ed_d)%Fp.
Proof.
  replace ed_d with (pof d_Z) by reflexivity. replace (1%Fp) with (pof 1) by reflexivity. rewrite <- pof_mul, <- pof_sub.
  apply pof_check. rewrite p_val. vm_compute. reflexivity.
Qed.
Lemma r_dMinusOneSQ_ok : r_dMinusOneSQ = ((ed_d - 1) * (ed_d - 1))%Fp.
Proof.
  replace ed_d with (pof d_Z) by reflexivity. replace (1%Fp) with (pof 1) by reflexivity. rewrite <- !pof_sub, <- !pof_mul.
  apply pof_check. rewrite p_val. vm_compute. reflexivity.
Qed.
Lemma r_sqrtADMinusOne_ok : (r_sqrtADMinusOne * r_sqrtADMinusOne = - ed_d - 1)%Fp.
Proof.
  replace ed_d with (pof d_Z) by reflexivity. replace (1%Fp) with (pof 1) by reflexivity.
  replace (- pof d_Z - pof 1)%Fp with (pof (- d_Z - 1)) by (rewrite pof_sub; f_equal; apply fof_opp).
  unfold r_sqrtADMinusOne, fe_set_bytes. rewrite <- pof_mul.
  apply pof_check. rewrite p_val. vm_compute. reflexivity.
Qed.
Lemma r_two_ok : r_two = 2%Fp.
Proof. unfold r_two. ring. Qed.
Lemma r_minusOne_ok : r_minusOne = (- (1))%Fp.
Proof. unfold r_minusOne. ring. Qed.

Local Opaque fadd fsub fmul fopp finv fdiv fof pof f0 f1.
Global Opaque r_d r_sqrtM1 r_invSqrtAMinusD r_oneMinusDSQ r_dMinusOneSQ r_sqrtADMinusOne r_two r_minusOne.

(** ** Cosets of the 4-torsion *)
Definition coset (P Q : ept) : Prop := exists k, Q = eadd P (emul k eT2).

Lemma T2_4 : emul 4 eT2 = e0.
Proof. rewrite <- T_2, <- emul_mul. apply T_8. Qed.
Lemma T2_mod k : emul k eT2 = emul (k mod 4) eT2.
Proof.
  rewrite (Z.div_mod k 4) at 1 by lia. rewrite emul_add, Z.mul_comm, emul_mul, T2_4, emul_e0, eadd_0_l. reflexivity.
Qed.
(** The four points of a coset. *)
Lemma coset_cases P Q : coset P Q <->
  ((ex Q = ex P /\ ey Q = ey P) \/ (ex Q = - ex P /\ ey Q = - ey P) \/
   (ex Q = sqrtM1 * ey P /\ ey Q = sqrtM1 * ex P) \/ (ex Q = - (sqrtM1 * ey P) /\ ey Q = - (sqrtM1 * ex P)))%Fp.
Proof.
  assert (Q2 : forall R, ex (eadd R (emul 2 eT2)) = (- ex R)%Fp /\ ey (eadd R (emul 2 eT2)) = (- ey R)%Fp).
  { intros R. rewrite emul_2, T2_double. apply add_T4. }
  assert (Q3 : (ex (eadd P (emul 3 eT2)) = - (sqrtM1 * ey P) /\ ey (eadd P (emul 3 eT2)) = - (sqrtM1 * ex P))%Fp).
  { change 3 with (1 + 2). rewrite emul_add, eadd_assoc, emul_1. destruct (Q2 (eadd P eT2)) as [-> ->].
    destruct (add_T2 P) as [-> ->]. auto. }
  split.
  - intros [k ->]. rewrite T2_mod. pose proof (Z.mod_pos_bound k 4 ltac:(lia)).
    assert (k mod 4 = 0 \/ k mod 4 = 1 \/ k mod 4 = 2 \/ k mod 4 = 3) as [->|[->|[->| ->]]] by lia.
    + left. rewrite emul_0, eadd_0_r. auto.
    + right; right; left. rewrite emul_1. apply add_T2.
    + right; left. apply Q2.
    + right; right; right. exact Q3.
  - intros [[E1 E2]|[[E1 E2]|[[E1 E2]|[E1 E2]]]].
    + exists 0. rewrite emul_0, eadd_0_r. now apply ept_ext.
    + exists 2. destruct (Q2 P). apply ept_ext; congruence.
    + exists 1. rewrite emul_1. destruct (add_T2 P). apply ept_ext; congruence.
    + exists 3. destruct Q3. apply ept_ext; congruence.
Qed.

Lemma coset_refl P : coset P P.
Proof. exists 0. now rewrite emul_0, eadd_0_r. Qed.
Lemma coset_sym P Q : coset P Q -> coset Q P.
Proof. intros [k ->]. exists (- k). rewrite <- eadd_assoc, <- emul_add, Z.add_opp_diag_r, emul_0, eadd_0_r. reflexivity. Qed.
Lemma coset_trans P Q R : coset P Q -> coset Q R -> coset P R.
Proof. intros [k ->] [l ->]. exists (k + l). now rewrite emul_add, eadd_assoc. Qed.
Lemma coset_add P Q P' Q' : coset P P' -> coset Q Q' -> coset (eadd P Q) (eadd P' Q').
Proof. intros [k ->] [l ->]. exists (k + l). now rewrite emul_add, eadd_4. Qed.
Lemma coset_neg P Q : coset P Q -> coset (eneg P) (eneg Q).
Proof. intros [k ->]. exists (- k). now rewrite eneg_add, emul_opp. Qed.
Lemma coset_mul n P Q : coset P Q -> coset (emul n P) (emul n Q).
Proof. intros [k ->]. exists (n * k). now rewrite emul_dist, emul_mul. Qed.
Lemma even_T2 : even eT2.
Proof. exists eT. symmetry. apply T_double. Qed.
Lemma coset_even P Q : coset P Q -> even P -> even Q.
Proof. intros [k ->] H. apply even_add; auto. apply even_mul, even_T2. Qed.

(** ** Equal decides the coset relation *)
Lemma proportional x y x' y' : on_curve x y -> on_curve x' y' -> (x * y' = y * x')%Fp ->
  (x' = x /\ y' = y)%Fp \/ (x' = - x /\ y' = - y)%Fp.
Proof.
  intros C C' E.
  assert (K : forall a b, on_curve a b -> (a = 0 -> b * b = 1)%Fp).
  { intros a b Cab Ea. destruct (x0_y _ _ Cab Ea) as [-> | ->]; ring. }
  destruct (F_eq_dec x 0%Fp) as [X0|XN].
  { (* x = 0: then y = +-1 and x' = 0 *)
    pose proof (K _ _ C X0) as Y1. assert (x' = 0%Fp) as X0'.
    { rewrite X0 in E. assert (y * x' = 0)%Fp as E0 by (rewrite <- E; ring).
      apply Fp_integral in E0 as [->|]; auto. exfalso. apply Fp_1_neq_0. rewrite <- Y1. ring. }
    pose proof (K _ _ C' X0') as Y1'. rewrite X0, X0'.
    assert (y' * y' = y * y)%Fp as YY by (rewrite Y1, Y1'; reflexivity).
    apply Fp_sqr_eq in YY as [->| ->]; [left|right]; split; ring. }
  set (l := (x' * finv x)%Fp). assert (x' = l * x)%Fp as EX.
  { unfold l. transitivity (x' * (finv x * x))%Fp; [rewrite Fp_inv_l by auto; ring|ring]. }
  assert (y' = l * y)%Fp as EY.
  { apply (Fp_cancel x); auto. rewrite E, EX. ring. }
  assert ((l * l - 1) * (1 - ed_d * ((l * x * y) * (l * x * y))) = 0)%Fp as EL.
  { unfold on_curve in *. rewrite EX, EY in C'.
    transitivity (l * l * (1 + ed_d * (x * x) * (y * y)) - (1 + ed_d * (l * x * (l * x)) * (l * y * (l * y))))%Fp; [ring|].
    rewrite <- C, <- C'. ring. }
  apply Fp_integral in EL as [EL|EL].
  - assert (l * l = 1 * 1)%Fp as L1 by (transitivity (l * l - 1 + 1)%Fp; [ring|rewrite EL; ring]).
    apply Fp_sqr_eq in L1 as [L1|L1]; rewrite EX, EY, L1; [left|right]; split; ring.
  - assert (l * x * y = 0)%Fp as Z0.
    { apply (d_times_sq _ 1%Fp). transitivity (1 - (1 - ed_d * ((l * x * y) * (l * x * y))))%Fp; [ring|]. rewrite EL. ring. }
    exfalso. rewrite Z0 in EL. apply Fp_1_neq_0. rewrite <- EL. ring.
Qed.

Lemma rot_curve P : on_curve (sqrtM1 * ey P)%Fp (sqrtM1 * ex P)%Fp.
Proof. destruct (add_T2 P) as [E1 E2]. rewrite <- E1, <- E2. apply ept_curve. Qed.

Theorem r_Equal_iff c c' P P' : rep c P -> rep c' P' -> (r_Equal c c' = true <-> coset P P').
Proof.
  intros (Z1 & X1 & Y1 & _) (Z2 & X2 & Y2 & _). unfold r_Equal. rewrite orb_true_iff, !feqb_eq.
  rewrite X1, X2, Y1, Y2.
  assert (H1 : (ex P * xZ c * (ey P' * xZ c') = ey P * xZ c * (ex P' * xZ c') <-> ex P * ey P' = ey P * ex P')%Fp).
  { split; intros E.
    - apply (Fp_cancel (xZ c * xZ c')%Fp); [now apply Fp_mul_neq0|].
      transitivity (ex P * xZ c * (ey P' * xZ c'))%Fp; [ring|]. rewrite E. ring.
    - transitivity (xZ c * xZ c' * (ex P * ey P'))%Fp; [ring|]. rewrite E. ring. }
  assert (H2 : (ey P * xZ c * (ey P' * xZ c') = ex P * xZ c * (ex P' * xZ c') <-> ey P * ey P' = ex P * ex P')%Fp).
  { split; intros E.
    - apply (Fp_cancel (xZ c * xZ c')%Fp); [now apply Fp_mul_neq0|].
      transitivity (ey P * xZ c * (ey P' * xZ c'))%Fp; [ring|]. rewrite E. ring.
    - transitivity (xZ c * xZ c' * (ey P * ey P'))%Fp; [ring|]. rewrite E. ring. }
  rewrite H1, H2, coset_cases. clear H1 H2. pose proof sqrtM1_sq as I2. split.
  - intros [E|E].
    + destruct (proportional _ _ _ _ (ept_curve P) (ept_curve P') E); auto.
    + assert (sqrtM1 * ey P * ey P' = sqrtM1 * ex P * ex P')%Fp as E2.
      { transitivity (sqrtM1 * (ey P * ey P'))%Fp; [ring|]. rewrite E. ring. }
      destruct (proportional _ _ _ _ (rot_curve P) (ept_curve P') E2); auto.
  - intros [[-> ->]|[[-> ->]|[[-> ->]|[-> ->]]]].
    + left. ring. + left. ring. + right. ring. + right. ring.
Qed.

(** ** Canonical representatives
    The point of a coset that the encoding describes, with its encoded field element. *)
Definition canon (P : ept) (s : Fp) : Prop :=
  is_neg (ex P) = false /\ is_neg (ex P * ey P)%Fp = false /\ ey P <> 0%Fp /\ ey P <> (- (1))%Fp /\
  is_neg s = false /\ (s * s * (1 + ey P) = 1 - ey P)%Fp.

Lemma both_nonneg x : is_neg x = false -> is_neg (- x)%Fp = false -> x = 0%Fp.
Proof.
  intros H1 H2. destruct (F_eq_dec x 0%Fp) as [|N]; auto. rewrite is_neg_opp, H1 in H2 by auto. discriminate.
Qed.

Lemma canon_unique P Q s t : canon P s -> canon Q t -> coset P Q -> P = Q /\ s = t.
Proof.
  intros (A1 & A2 & A3 & A4 & A5 & A6) (B1 & B2 & B3 & B4 & B5 & B6) C.
  pose proof sqrtM1_sq as I2.
  assert (P = Q) as <-.
  { apply coset_cases in C as [[E1 E2]|[[E1 E2]|[[E1 E2]|[E1 E2]]]].
    - symmetry. now apply ept_ext.
    - exfalso. rewrite E1 in B1. pose proof (both_nonneg _ A1 B1) as X0.
      destruct (x0_y _ _ (ept_curve P) X0) as [Y|Y]; [|contradiction]. apply B4. rewrite E2, Y. reflexivity.
    - exfalso. assert (ex Q * ey Q = - (ex P * ey P))%Fp as EP.
      { rewrite E1, E2. transitivity (sqrtM1 * sqrtM1 * (ex P * ey P))%Fp; [ring|]. rewrite I2. ring. }
      rewrite EP in B2. pose proof (both_nonneg _ A2 B2) as XY0.
      apply Fp_integral in XY0 as [X0|]; [|contradiction]. apply B3. rewrite E2, X0. ring.
    - exfalso. assert (ex Q * ey Q = - (ex P * ey P))%Fp as EP.
      { rewrite E1, E2. transitivity (sqrtM1 * sqrtM1 * (ex P * ey P))%Fp; [ring|]. rewrite I2. ring. }
      rewrite EP in B2. pose proof (both_nonneg _ A2 B2) as XY0.
      apply Fp_integral in XY0 as [X0|]; [|contradiction]. apply B3. rewrite E2, X0. ring. }
  split; auto. apply nonneg_sqr; [congruence|].
  apply (Fp_cancel (1 + ey P)%Fp).
  - intros E. apply A4. transitivity (1 + ey P - 1)%Fp; [ring|rewrite E; ring].
  - transitivity (s * s * (1 + ey P))%Fp; [ring|]. rewrite A6, <- B6. ring.
Qed.

Lemma one_plus_ss s y : (s * s * (1 + y) = 1 - y)%Fp -> (1 + s * s <> 0)%Fp.
Proof.
  intros E Z0. assert (s * s = - (1))%Fp as S by (transitivity (1 + s * s - 1)%Fp; [ring|rewrite Z0; ring]).
  rewrite S in E. apply pof_2_neq0. transitivity ((1 - y) - (- (1) * (1 + y)))%Fp; [ring|]. rewrite E. ring.
Qed.

Lemma canon_point P Q s : canon P s -> canon Q s -> P = Q.
Proof.
  intros (A1 & A2 & A3 & A4 & A5 & A6) (B1 & B2 & B3 & B4 & B5 & B6).
  assert (ey P = ey Q) as EY.
  { apply (Fp_cancel (1 + s * s)%Fp); [now apply (one_plus_ss s (ey P))|].
    transitivity (1 - s * s + ((s * s) * (1 + ey P) - (1 - ey P)))%Fp; [ring|]. rewrite A6.
    transitivity (1 - s * s + ((s * s) * (1 + ey Q) - (1 - ey Q)))%Fp; [rewrite B6; ring|ring]. }
  apply ept_ext; auto. apply nonneg_sqr; [congruence|]. now apply x_from_y.
Qed.

(** ** Encoding *)
Lemma enc_square z y D : (D * D * (z * z) * (1 - y * y) = 1)%Fp ->
  let s := fabs ((z - y * z) * D)%Fp in (s * s * (1 + y) = 1 - y)%Fp.
Proof.
  intros H s. unfold s. rewrite fabs_sqr.
  transitivity ((1 - y) * (D * D * (z * z) * (1 - y * y)))%Fp; [ring|]. rewrite H. ring.
Qed.

Lemma xy0_coset P : (ex P * ey P = 0)%Fp -> coset P e0.
Proof.
  intros E. apply coset_cases. cbn [ex ey e0]. apply Fp_integral in E as [E|E].
  - destruct (x0_y _ _ (ept_curve P) E) as [Y|Y]; rewrite E, Y.
    + left. split; ring. + right; left. split; ring.
  - assert (ex P * ex P = sqrtM1 * sqrtM1)%Fp as EX.
    { rewrite sqrtM1_sq. pose proof (ept_curve P) as C. unfold on_curve in C. rewrite E in C.
      transitivity (- (0 * 0 - ex P * ex P))%Fp; [ring|]. rewrite C. ring. }
    right; right. apply Fp_sqr_eq in EX as [EX|EX]; rewrite EX, E; [right|left]; (split; [ring|]).
    + rewrite sqrtM1_sq. ring.
    + transitivity (- (sqrtM1 * sqrtM1))%Fp; [rewrite sqrtM1_sq|]; ring.
Qed.

Lemma canon_e0 : canon e0 0%Fp.
Proof.
  unfold canon. cbn [ex ey e0]. refine (conj _ (conj _ (conj _ (conj _ (conj _ _))))).
  - apply is_neg_0.
  - replace (0 * 1)%Fp with 0%Fp by ring. apply is_neg_0.
  - apply Fp_1_neq_0.
  - apply minus1_neq_1.
  - apply is_neg_0.
  - ring.
Qed.

Lemma y_not_pm1 P : (ex P <> 0)%Fp -> (ey P * ey P <> 1)%Fp.
Proof. intros N E. apply N. exact (y1_x _ _ (ept_curve P) E). Qed.

Theorem encode_spec c P : rep c P -> even P -> exists Q, coset P Q /\ canon Q (r_encode c).
Proof.
  intros (Z1 & X1 & Y1 & T1) EV. apply even_iff in EV as [r Hr].
  unfold r_encode. rewrite r_sqrtM1_ok, r_invSqrtAMinusD_ok.
  destruct (sqrt_ratio 1%Fp (xX c * xY c * (xX c * xY c) * ((xZ c + xY c) * (xZ c - xY c)))%Fp) as [I b] eqn:EI.
  apply sqrt_ratio_spec in EI as [_ EI].
  pose proof (ept_curve P) as C. pose proof (curve_prod _ _ C) as CP. pose proof sqrtM1_sq as I2.
  unfold phi in Hr. rewrite X1, Y1, T1 in *. clear X1 Y1 T1. set (z := xZ c) in *.
  assert (ND : forall x, (x * x = 1 -> x <> 0)%Fp).
  { intros x E ->. apply Fp_1_neq_0. rewrite <- E. ring. }
  destruct (F_eq_dec (ex P * ey P)%Fp 0%Fp) as [XY0|XYN].
  { (* the coset of the identity *)
    exists e0. split; [now apply xy0_coset|].
    assert (W0 : (ex P * z * (ey P * z) * (ex P * z * (ey P * z)) * ((z + ey P * z) * (z - ey P * z)) = 0)%Fp).
    { transitivity (ex P * ey P * (ex P * ey P) * (z * z * z * z * ((z + ey P * z) * (z - ey P * z))))%Fp; [ring|]. rewrite XY0. ring. }
    rewrite W0 in EI. destruct EI as [(_ & E)|[(_ & _ & _ & E)|(_ & _ & _ & ->)]].
    - exfalso. apply Fp_1_neq_0. rewrite <- E. ring.
    - contradiction.
    - match goal with |- canon _ (fabs ?t) => replace t with 0%Fp end.
      + replace (fabs 0%Fp) with 0%Fp; [apply canon_e0|]. unfold fabs. now rewrite is_neg_0.
      + unfold fe_select. repeat match goal with |- context [if ?c then _ else _] => destruct c end; ring. }
  assert (XN : ex P <> 0%Fp) by (intros E; apply XYN; rewrite E; ring).
  assert (YN : ey P <> 0%Fp) by (intros E; apply XYN; rewrite E; ring).
  set (u1 := ((z + ey P * z) * (z - ey P * z))%Fp) in *. set (u2 := (ex P * z * (ey P * z))%Fp) in *.
  assert (U1 : (u1 = z * z * (1 - ey P * ey P))%Fp) by (unfold u1; ring).
  assert (U2 : (u2 = ex P * ey P * (z * z))%Fp) by (unfold u2; ring).
  assert (U2N : u2 <> 0%Fp) by (rewrite U2; repeat apply Fp_mul_neq0; auto).
  assert (U1N : u1 <> 0%Fp).
  { rewrite U1. repeat apply Fp_mul_neq0; auto. intros E. apply (y_not_pm1 P XN). symmetry. now apply Fp_sub_eq0. }
  assert (HI : (u2 * u2 * u1 * (I * I) = 1)%Fp).
  { destruct EI as [(_ & E)|[(_ & E & _ & _)|(_ & E & _)]].
    - exact E.
    - exfalso. apply sqrtM1_nonsq. exists (u2 * (z * r) * I)%Fp.
      transitivity (u2 * u2 * (z * z * (r * r)) * (I * I))%Fp; [ring|]. rewrite Hr, <- U1, E. ring.
    - exfalso. exact (Fp_mul_neq0 _ _ (Fp_mul_neq0 _ _ U2N U2N) U1N E). }
  set (zi := (I * u1 * (I * u2) * (ex P * ey P * z))%Fp).
  assert (ZI : (z * zi = 1)%Fp).
  { unfold zi. rewrite <- HI. transitivity (I * I * u1 * u2 * (ex P * ey P * (z * z)))%Fp; [ring|]. rewrite <- U2. ring. }
  assert (R1 : (ex P * ey P * z * zi = ex P * ey P)%Fp) by (transitivity (ex P * ey P * (z * zi))%Fp; [ring|rewrite ZI; ring]).
  rewrite R1.
  assert (CN : (inv_sqrt_amd * inv_sqrt_amd * (- (1) - ed_d) = 1)%Fp) by apply amd_ok.
  set (cc := inv_sqrt_amd) in *. clearbody cc.
  assert (YP1 : (ey P <> 1 /\ ey P <> - (1))%Fp).
  { pose proof (y_not_pm1 P XN) as N. split; intros E; apply N; rewrite E; ring. }
  assert (IXN : (sqrtM1 * ex P <> 1 /\ sqrtM1 * ex P <> - (1))%Fp).
  { split; intros E.
    - assert (ex P * ex P = - (1))%Fp as EX.
      { transitivity (- (sqrtM1 * sqrtM1) * (ex P * ex P))%Fp; [rewrite I2; ring|].
        transitivity (- ((sqrtM1 * ex P) * (sqrtM1 * ex P)))%Fp; [ring|]. rewrite E. ring. }
      pose proof (curve_y _ _ C) as CY. rewrite EX in CY.
      assert (ey P * ey P * (1 - ed_d * - (1)) = 0)%Fp as Z0 by (rewrite CY; ring).
      apply Fp_integral in Z0 as [Z0|Z0]; [now apply YN, Fp_sqr_0|]. apply amd_neq0. rewrite <- Z0. ring.
    - assert (ex P * ex P = - (1))%Fp as EX.
      { transitivity (- (sqrtM1 * sqrtM1) * (ex P * ex P))%Fp; [rewrite I2; ring|].
        transitivity (- ((sqrtM1 * ex P) * (sqrtM1 * ex P)))%Fp; [ring|]. rewrite E. ring. }
      pose proof (curve_y _ _ C) as CY. rewrite EX in CY.
      assert (ey P * ey P * (1 - ed_d * - (1)) = 0)%Fp as Z0 by (rewrite CY; ring).
      apply Fp_integral in Z0 as [Z0|Z0]; [now apply YN, Fp_sqr_0|]. apply amd_neq0. rewrite <- Z0. ring. }
  pose proof sqrtM1_neq0 as IN.
  destruct (is_neg (ex P * ey P)%Fp) eqn:NXY; unfold fe_select.
  - (* rotated *)
    assert (R2 : (ey P * z * sqrtM1 * zi = sqrtM1 * ey P)%Fp) by (transitivity (sqrtM1 * ey P * (z * zi))%Fp; [ring|rewrite ZI; ring]).
    rewrite R2.
    assert (DD : (I * u1 * cc * (I * u1 * cc) * (z * z) * (1 + ex P * ex P) = 1)%Fp).
    { apply (Fp_cancel (u2 * u2)%Fp); [now apply Fp_mul_neq0|].
      transitivity ((u2 * u2 * u1 * (I * I)) * (u1 * (cc * cc) * (z * z) * (1 + ex P * ex P)))%Fp; [ring|]. rewrite HI, U1.
      transitivity (((1 - ey P * ey P) * (1 + ex P * ex P)) * (z * z * (z * z)) * (cc * cc))%Fp; [ring|]. rewrite CP, U2.
      transitivity (ex P * ey P * (z * z) * (ex P * ey P * (z * z)) * (cc * cc * (- (1) - ed_d)))%Fp; [ring|]. rewrite CN. ring. }
    destruct (add_T2 P) as [TX TY]. set (Q1 := eadd P eT2) in *.
    assert (PQ : (ex Q1 * ey Q1 = - (ex P * ey P))%Fp).
    { rewrite TX, TY. transitivity (sqrtM1 * sqrtM1 * (ex P * ey P))%Fp; [ring|]. rewrite I2. ring. }
    destruct (is_neg (sqrtM1 * ey P)%Fp) eqn:NX.
    + destruct (add_T4 Q1) as [TX' TY']. set (Q := eadd Q1 eT4) in *. exists Q. split.
      { apply coset_cases. right; right; right. rewrite TX', TY', TX, TY. auto. }
      unfold canon. rewrite TX', TY', TX, TY. refine (conj _ (conj _ (conj _ (conj _ (conj _ _))))).
      * rewrite is_neg_opp, NX; auto using Fp_mul_neq0.
      * replace (- (sqrtM1 * ey P) * - (sqrtM1 * ex P))%Fp with (- (ex P * ey P))%Fp.
        2:{ transitivity (sqrtM1 * sqrtM1 * (ex P * ey P))%Fp; [rewrite I2|]; ring. }
        rewrite is_neg_opp, NXY; auto.
      * apply Fp_opp_neq0, Fp_mul_neq0; auto.
      * intros E. apply (proj1 IXN). transitivity (- - (sqrtM1 * ex P))%Fp; [ring|]. rewrite E. ring.
      * apply fabs_nonneg.
      * replace (z - - (ex P * z * sqrtM1))%Fp with (z - (- (sqrtM1 * ex P)) * z)%Fp by ring.
        apply enc_square. refine (eq_trans _ DD).
        transitivity (I * u1 * cc * (I * u1 * cc) * (z * z) * (1 - (sqrtM1 * sqrtM1) * (ex P * ex P)))%Fp; [ring|]. rewrite I2. ring.
    + exists Q1. split.
      { apply coset_cases. right; right; left. auto. }
      unfold canon. rewrite TX, TY. refine (conj _ (conj _ (conj _ (conj _ (conj _ _))))).
      * exact NX.
      * replace (sqrtM1 * ey P * (sqrtM1 * ex P))%Fp with (- (ex P * ey P))%Fp.
        2:{ transitivity (sqrtM1 * sqrtM1 * (ex P * ey P))%Fp; [rewrite I2|]; ring. }
        rewrite is_neg_opp, NXY; auto.
      * apply Fp_mul_neq0; auto.
      * apply (proj2 IXN).
      * apply fabs_nonneg.
      * replace (z - ex P * z * sqrtM1)%Fp with (z - (sqrtM1 * ex P) * z)%Fp by ring.
        apply enc_square. refine (eq_trans _ DD).
        transitivity (I * u1 * cc * (I * u1 * cc) * (z * z) * (1 - (sqrtM1 * sqrtM1) * (ex P * ex P)))%Fp; [ring|]. rewrite I2. ring.
  - assert (R2 : (ex P * z * zi = ex P)%Fp) by (transitivity (ex P * (z * zi))%Fp; [ring|rewrite ZI; ring]).
    rewrite R2.
    assert (DD : (I * u2 * (I * u2) * (z * z) * (1 - ey P * ey P) = 1)%Fp).
    { refine (eq_trans _ HI). rewrite U1. ring. }
    destruct (is_neg (ex P)) eqn:NX.
    + destruct (add_T4 P) as [TX TY]. set (Q := eadd P eT4) in *. exists Q. split.
      { apply coset_cases. right; left. auto. }
      unfold canon. rewrite TX, TY. refine (conj _ (conj _ (conj _ (conj _ (conj _ _))))).
      * rewrite is_neg_opp, NX; auto.
      * replace (- ex P * - ey P)%Fp with (ex P * ey P)%Fp by ring. exact NXY.
      * apply Fp_opp_neq0; auto.
      * intros E. apply (proj1 YP1). transitivity (- - ey P)%Fp; [ring|]. rewrite E. ring.
      * apply fabs_nonneg.
      * replace (z - - (ey P * z))%Fp with (z - (- ey P) * z)%Fp by ring.
        apply enc_square. refine (eq_trans _ DD). ring.
    + exists P. split; [apply coset_refl|].
      unfold canon. refine (conj NX (conj NXY (conj YN (conj _ (conj _ _))))).
      * apply (proj2 YP1).
      * apply fabs_nonneg.
      * apply enc_square. exact DD.
Qed.
