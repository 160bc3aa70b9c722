(** Decoding of the 32 byte form of ristretto elements: what it accepts and what it
    returns, and the map from uniform bytes. *)
From Coq Require Import ZArith Znumtheory Lia List Bool String Ring Field.
From Coq.Strings Require Import Byte.
From Verif Require Import ZField Primes Bytes Scalar Go Fp Edwards EdPoint EdEven Ristretto RistrettoFacts.
Import ListNotations.
Local Open Scope Z_scope.
Local Opaque fadd fsub fmul fopp finv fdiv fof pof f0 f1.

(** ** Decoding *)
Lemma fe_bytes_len s : List.length (fe_bytes s) = 32%nat.
Proof. apply le_bytes_length. Qed.
Lemma p_lt_255 : p25519 < 2 ^ 255.
Proof. rewrite p_val. vm_compute. reflexivity. Qed.
Lemma fe_val_bytes s : le_val (fe_bytes s) = fz s.
Proof.
  unfold fe_bytes. rewrite le_val_le_bytes. pose proof (fz_Fp_range s). pose proof p_lt_255.
  apply Z.mod_small. split; [lia|]. eapply Z.lt_trans; [apply H|]. eapply Z.lt_trans; [apply p_lt_255|].
  vm_compute. reflexivity.
Qed.
Lemma fe_set_fe_bytes s : fe_set_bytes (fe_bytes s) = s.
Proof.
  unfold fe_set_bytes. rewrite fe_val_bytes. pose proof (fz_Fp_range s). pose proof p_lt_255.
  rewrite Z.mod_small by lia. exact (fof_fz s).
Qed.
Lemma fe_bytes_inj s t : fe_bytes s = fe_bytes t -> s = t.
Proof. intros E. rewrite <- (fe_set_fe_bytes s), <- (fe_set_fe_bytes t). congruence. Qed.

Definition dv (s : Fp) : Fp := (- ((1 - s * s) * (1 - s * s) * ed_d) - (1 + s * s) * (1 + s * s))%Fp.

Lemma dec_core s I :
  let u1 := (1 - s * s)%Fp in let u2 := (1 + s * s)%Fp in
  let X := fabs (2 * s * (I * u2))%Fp in let Y := (u1 * (I * (I * u2) * dv s))%Fp in
  (dv s * (u2 * u2) * (I * I) = 1)%Fp -> u2 <> 0%Fp /\ (Y * u2 = u1)%Fp /\ (X * X * dv s = pof 4 * (s * s))%Fp /\ on_curve X Y.
Proof.
  intros u1 u2 X Y H.
  assert (UN : u2 <> 0%Fp) by (intros E; apply Fp_1_neq_0; rewrite <- H, E; ring).
  assert (VN : dv s <> 0%Fp) by (intros E; apply Fp_1_neq_0; rewrite <- H, E; ring).
  assert (EY : (Y * u2 = u1)%Fp).
  { unfold Y. transitivity (u1 * (dv s * (u2 * u2) * (I * I)))%Fp; [ring|]. rewrite H. ring. }
  assert (EX : (X * X * dv s = pof 4 * (s * s))%Fp).
  { unfold X. rewrite fabs_sqr. transitivity (pof 4 * (s * s) * (dv s * (u2 * u2) * (I * I)))%Fp; [ring|]. rewrite H. ring. }
  refine (conj UN (conj EY (conj EX _))).
  unfold on_curve. apply (Fp_cancel (u2 * u2 * dv s)%Fp); [repeat apply Fp_mul_neq0; auto|].
  clearbody X Y. transitivity ((Y * u2) * (Y * u2) * dv s - (X * X * dv s) * (u2 * u2))%Fp; [ring|].
  transitivity (u2 * u2 * dv s + ed_d * (X * X * dv s) * ((Y * u2) * (Y * u2)))%Fp; [|ring].
  rewrite EX, EY. unfold dv, u1, u2. ring.
Qed.

Lemma SetExt_ok X Y : on_curve X Y -> SetExtendedCoordinates X Y 1%Fp (X * Y)%Fp = Some (mkX X Y 1%Fp (X * Y)%Fp).
Proof.
  intros C. unfold SetExtendedCoordinates.
  assert (feqb (Y * Y - X * X)%Fp (ed_d * (X * Y * (X * Y)) + 1 * 1)%Fp = true) as ->.
  { apply feqb_eq. unfold on_curve in C. rewrite C. ring. }
  assert (feqb (X * Y)%Fp (X * Y * 1)%Fp = true) as -> by (apply feqb_eq; ring). reflexivity.
Qed.

Lemma four_neq0 : pof 4 <> 0%Fp.
Proof. apply (pof_neq _ 0). rewrite p_val. reflexivity. Qed.

(** What decoding accepts, and what it returns. *)
Theorem decode_sound b : match r_SetCanonicalBytes b with
  | Ret c => exists P s, rep c P /\ even P /\ canon P s /\ b = fe_bytes s
  | Fail _ => True
  | Panics _ => False
  end.
Proof.
  unfold r_SetCanonicalBytes. destruct (negb (Nat.eqb (List.length b) 32)) eqn:L; [exact Logic.I|].
  set (s := fe_set_bytes b). destruct (negb (bytes_eqb (fe_bytes s) b)) eqn:EB; [exact Logic.I|].
  destruct (is_neg s) eqn:NS; [exact Logic.I|]. apply negb_false_iff, bytes_eqb_eq in EB.
  rewrite r_d_ok, r_two_ok. change (- ((1 - s * s) * (1 - s * s) * ed_d) - (1 + s * s) * (1 + s * s))%Fp with (dv s).
  destruct (sqrt_ratio 1%Fp (dv s * ((1 + s * s) * (1 + s * s)))%Fp) as [I w] eqn:EI.
  apply sqrt_ratio_spec in EI as [_ EI].
  destruct w; cbn [negb orb]; [|exact Logic.I].
  assert (HI : (dv s * ((1 + s * s) * (1 + s * s)) * (I * I) = 1)%Fp).
  { destruct EI as [(_ & E)|[(E & _)|(E & _)]]; [exact E|discriminate|discriminate]. }
  destruct (dec_core s I HI) as (UN & EY & EX & CV).
  set (X := fabs (2 * s * (I * (1 + s * s)))%Fp) in *.
  set (Y := ((1 - s * s) * (I * (I * (1 + s * s)) * dv s))%Fp) in *.
  destruct (is_neg (X * Y)%Fp) eqn:NT; cbn [orb]; [exact Logic.I|].
  destruct (feqb Y 0%Fp) eqn:Y0; [exact Logic.I|]. apply feqb_neq in Y0.
  rewrite SetExt_ok by exact CV.
  exists (mkE X Y (proj2 (on_curveb_ok X Y) CV)), s. split; [|split; [|split]].
  - unfold rep. cbn [xX xY xZ xT ex ey]. split; [apply Fp_1_neq_0|]. split; [ring|split; ring].
  - apply even_iff. unfold phi. cbn [ey]. apply (sq_div _ (1 + s * s)%Fp); [exact UN|].
    exists (2 * s)%Fp. transitivity ((1 + s * s) * (1 + s * s) - (Y * (1 + s * s)) * (Y * (1 + s * s)))%Fp; [rewrite EY|]; ring.
  - unfold canon. cbn [ex ey]. refine (conj _ (conj NT (conj Y0 (conj _ (conj NS _))))).
    + apply fabs_nonneg.
    + intros E. rewrite E in EY. apply pof_2_neq0. transitivity ((1 - s * s) - (- (1) * (1 + s * s)))%Fp; [ring|]. rewrite EY. ring.
    + transitivity ((1 + s * s) - 1 + (Y * (1 + s * s)) - Y)%Fp; [ring|]. rewrite EY. ring.
  - symmetry. exact EB.
Qed.

Theorem decode_complete P s : canon P s -> exists c, r_SetCanonicalBytes (fe_bytes s) = Ret c /\ rep c P.
Proof.
  intros CA. pose proof CA as (A1 & A2 & A3 & A4 & A5 & A6).
  unfold r_SetCanonicalBytes. rewrite fe_bytes_len. cbn [Nat.eqb negb]. rewrite fe_set_fe_bytes.
  rewrite (proj2 (bytes_eqb_eq _ _) eq_refl). cbn [negb]. rewrite A5, r_d_ok, r_two_ok.
  change (- ((1 - s * s) * (1 - s * s) * ed_d) - (1 + s * s) * (1 + s * s))%Fp with (dv s).
  destruct (sqrt_ratio 1%Fp (dv s * ((1 + s * s) * (1 + s * s)))%Fp) as [I w] eqn:EI.
  pose proof (sqrt_ratio_flag _ _ _ _ EI) as FL.
  apply sqrt_ratio_spec in EI as [_ EI].
  pose proof (one_plus_ss _ _ A6) as UN.
  assert (YU : (ey P * (1 + s * s) = 1 - s * s)%Fp).
  { transitivity (1 - s * s + ((s * s) * (1 + ey P) - (1 - ey P)))%Fp; [ring|]. rewrite A6. ring. }
  assert (XV : (ex P * ex P * dv s = pof 4 * (s * s))%Fp).
  { pose proof (curve_x _ _ (ept_curve P)) as CX. unfold dv. rewrite <- YU. set (u := (1 + s * s)%Fp) in *.
    transitivity (- (ex P * ex P) * (1 + ed_d * (ey P * ey P)) * (u * u))%Fp; [ring|]. rewrite <- CX.
    transitivity (u * u - (ey P * u) * (ey P * u))%Fp; [ring|]. rewrite YU. unfold u. ring. }
  assert (dv s <> 0%Fp /\ sq (dv s)) as [VN SV].
  { destruct (F_eq_dec s 0%Fp) as [S0|SN].
    - assert (dv s = - (1) - ed_d)%Fp as ->. { unfold dv. rewrite S0. ring. }
      split.
      + intros E. apply amd_neq0. transitivity (- (- (1) - ed_d))%Fp; [ring|]. rewrite E. ring.
      + apply (sq_div _ inv_sqrt_amd); [intros E; apply Fp_1_neq_0; rewrite <- amd_ok, E; ring|].
        exists 1%Fp. transitivity (inv_sqrt_amd * inv_sqrt_amd * (- (1) - ed_d))%Fp; [rewrite amd_ok|]; ring.
    - assert (N4 : (pof 4 * (s * s) <> 0)%Fp) by (apply Fp_mul_neq0; [apply four_neq0|now apply Fp_mul_neq0]).
      assert (XN : ex P <> 0%Fp) by (intros E; apply N4; rewrite <- XV, E; ring).
      split; [intros E; apply N4; rewrite <- XV, E; ring|].
      apply (sq_div _ (ex P)); auto. exists (2 * s)%Fp. transitivity (pof 4 * (s * s))%Fp; [ring|]. rewrite <- XV. ring. }
  assert (w = true) as ->.
  { apply FL; [repeat apply Fp_mul_neq0; auto|]. replace (1 * (dv s * ((1 + s * s) * (1 + s * s))))%Fp with (dv s * ((1 + s * s) * (1 + s * s)))%Fp by ring.
    apply sq_mul; auto. apply sq_sqr. }
  cbn [negb orb].
  assert (HI : (dv s * ((1 + s * s) * (1 + s * s)) * (I * I) = 1)%Fp).
  { destruct EI as [(_ & E)|[(E & _)|(E & _)]]; [exact E|discriminate|discriminate]. }
  destruct (dec_core s I HI) as (_ & EY & EX & CV).
  set (X := fabs (2 * s * (I * (1 + s * s)))%Fp) in *.
  set (Y := ((1 - s * s) * (I * (I * (1 + s * s)) * dv s))%Fp) in *.
  assert (Y = ey P) as YP.
  { apply (Fp_cancel (1 + s * s)%Fp); auto. transitivity (Y * (1 + s * s))%Fp; [ring|]. rewrite EY, <- YU. ring. }
  assert (X = ex P) as XP.
  { apply nonneg_sqr; [unfold X; rewrite fabs_nonneg; congruence|].
    apply (Fp_cancel (dv s)); auto. transitivity (X * X * dv s)%Fp; [ring|]. rewrite EX, <- XV. ring. }
  rewrite YP, XP in *. rewrite A2. cbn [orb]. rewrite (proj2 (feqb_neq _ _) A3). rewrite SetExt_ok by exact CV.
  eexists. split; [reflexivity|]. unfold rep. cbn [xX xY xZ xT].
  split; [apply Fp_1_neq_0|]. split; [ring|split; ring].
Qed.
