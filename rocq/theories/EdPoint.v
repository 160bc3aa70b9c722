(** Points in extended coordinates, as filippo.io/edwards25519's Point stores them
    (dependency), with the arithmetic formulas of that package; the base point has
    order q, there is a point of order 8, and together they generate the curve. *)
From Coq Require Import ZArith Znumtheory Lia List Bool Ring Field.
From Coq.Strings Require Import Byte.
From Verif Require Import ZField Primes Bytes Scalar Fp Edwards.
Import ListNotations.
Local Open Scope Z_scope.
Local Opaque fadd fsub fmul fopp finv fdiv fof pof f0 f1.

(** (X : Y : Z : T) with x = X/Z, y = Y/Z, x y = T/Z. *)
Record xpt := mkX { xX : Fp; xY : Fp; xZ : Fp; xT : Fp }.

(** The coordinates [c] represent the affine point [P]. *)
Definition rep (c : xpt) (P : ept) : Prop :=
  (xZ c <> 0 /\ xX c = ex P * xZ c /\ xY c = ey P * xZ c /\ xT c = ex P * ey P * xZ c)%Fp.

(** 2 d *)
Definition ed_d2 : Fp := (ed_d + ed_d)%Fp.

(** Point.Add (through projCached and projP1xP1): the unified addition formulas. *)
Definition xadd (p r : xpt) : xpt :=
  let pp := ((xY p + xX p) * (xY r + xX r))%Fp in
  let mm := ((xY p - xX p) * (xY r - xX r))%Fp in
  let tt2d := (xT p * (xT r * ed_d2))%Fp in
  let zz := (xZ p * xZ r)%Fp in
  let zz2 := (zz + zz)%Fp in
  let x := (pp - mm)%Fp in let y := (pp + mm)%Fp in
  let z := (zz2 + tt2d)%Fp in let t := (zz2 - tt2d)%Fp in
  mkX (x * t)%Fp (y * z)%Fp (z * t)%Fp (x * y)%Fp.

(** Point.Negate *)
Definition xneg (p : xpt) : xpt := mkX (- xX p)%Fp (xY p) (xZ p) (- xT p)%Fp.
(** NewIdentityPoint *)
Definition xid : xpt := mkX 0%Fp 1%Fp 1%Fp 0%Fp.
(** NewGeneratorPoint *)
Definition bx_Z : Z := 15112221349535400772501151409588531511454012693041857206046113283949847762202.
Definition by_Z : Z := 46316835694926478169428394003475163141307993866256225615783033603165251855960.
Definition xbase : xpt := mkX (pof bx_Z) (pof by_Z) 1%Fp (pof bx_Z * pof by_Z)%Fp.

(** Multiplication by a natural number by doubling and adding.  The package's ScalarMult
    computes the same point with signed windows; the coordinates may differ by a factor. *)
Definition xmul (n : Z) (p : xpt) : xpt :=
  match n with Zpos k => pow_pos xadd p k | _ => xid end.

Lemma rep_id : rep xid e0.
Proof. unfold rep; cbn. repeat split; try ring. apply Fp_1_neq_0. Qed.

Lemma rep_neg p P : rep p P -> rep (xneg p) (eneg P).
Proof.
  intros (H1 & H2 & H3 & H4). unfold rep; cbn. repeat split; auto.
  - rewrite H2. ring. - rewrite H4. ring.
Qed.

Lemma rep_add p r P R : rep p P -> rep r R -> rep (xadd p r) (eadd P R).
Proof.
  intros (A1 & A2 & A3 & A4) (B1 & B2 & B3 & B4).
  pose proof (den_plus P R) as D1. pose proof (den_minus P R) as D2.
  pose proof (sum_x_eq P R) as EX. pose proof (sum_y_eq P R) as EY.
  unfold rep, xadd. cbn [xX xY xZ xT ex ey eadd].
  unfold ed_d2. rewrite A2, A3, A4, B2, B3, B4. unfold kap in *.
  set (u := sum_x P R) in *. set (v := sum_y P R) in *.
  set (x1 := ex P) in *. set (y1 := ey P) in *. set (x2 := ex R) in *. set (y2 := ey R) in *.
  set (z1 := xZ p) in *. set (z2 := xZ r) in *.
  set (k := (ed_d * x1 * x2 * y1 * y2)%Fp) in *.
  assert ((z1 * z2 + z1 * z2 + x1 * y1 * z1 * (x2 * y2 * z2 * (ed_d + ed_d))) = 2 * (z1 * z2) * (1 + k))%Fp as ->
    by (unfold k; ring).
  assert ((z1 * z2 + z1 * z2 - x1 * y1 * z1 * (x2 * y2 * z2 * (ed_d + ed_d))) = 2 * (z1 * z2) * (1 - k))%Fp as ->
    by (unfold k; ring).
  assert ((y1 * z1 + x1 * z1) * (y2 * z2 + x2 * z2) - (y1 * z1 - x1 * z1) * (y2 * z2 - x2 * z2) =
          2 * (z1 * z2) * (u * (1 + k)))%Fp as -> by (rewrite EX; ring).
  assert ((y1 * z1 + x1 * z1) * (y2 * z2 + x2 * z2) + (y1 * z1 - x1 * z1) * (y2 * z2 - x2 * z2) =
          2 * (z1 * z2) * (v * (1 - k)))%Fp as -> by (rewrite EY; ring).
  split; [repeat apply Fp_mul_neq0; auto using pof_2_neq0|]. repeat split; ring.
Qed.

Lemma rep_mul n p P : 0 <= n -> rep p P -> rep (xmul n p) (emul n P).
Proof.
  intros Hn H. destruct n as [|k|k]; [apply rep_id| |lia]. cbn [xmul emul]. clear Hn.
  induction k as [k IH|k IH|]; cbn [pow_pos]; auto using rep_add.
Qed.

Lemma rep_inj p P R : rep p P -> rep p R -> P = R.
Proof.
  intros (A1 & A2 & A3 & _) (_ & B2 & B3 & _). apply ept_ext.
  - apply (Fp_cancel (xZ p)); auto. rewrite (ZField_mul_comm _ (ex P)), (ZField_mul_comm _ (ex R)). congruence.
  - apply (Fp_cancel (xZ p)); auto. rewrite (ZField_mul_comm _ (ey P)), (ZField_mul_comm _ (ey R)). congruence.
Qed.

(** ** Fast integer arithmetic for the order computation *)
Definition red (z : Z) : Z :=
  let z1 := Z.land z (Z.ones 255) + 19 * Z.shiftr z 255 in
  Z.land z1 (Z.ones 255) + 19 * Z.shiftr z1 255.
Lemma fold_ok z : pof (Z.land z (Z.ones 255) + 19 * Z.shiftr z 255) = pof z.
Proof.
  apply fof_eq. rewrite Z.land_ones, Z.shiftr_div_pow2 by lia.
  rewrite (Z.div_mod z (2 ^ 255)) at 3 by lia.
  set (a := z mod 2 ^ 255). set (b := z / 2 ^ 255).
  replace (2 ^ 255 * b + a) with (a + 19 * b + b * (2 ^ 255 - 19)) by ring.
  replace (2 ^ 255 - 19) with p25519 by (rewrite p_val; reflexivity).
  now rewrite Z_mod_plus_full.
Qed.
Lemma red_ok z : pof (red z) = pof z.
Proof. unfold red. now rewrite !fold_ok. Qed.

(** Multiplication four bits at a time. *)
Section WMul.
  Local Open Scope positive_scope.
  Definition wmul (x y : positive) : positive :=
    let y2 := xO y in let y3 := y + y2 in let y5 := y3 + y2 in let y7 := y5 + y2 in let y9 := y7 + y2 in
    let y11 := y9 + y2 in let y13 := y11 + y2 in let y15 := y13 + y2 in
    (fix wm (x : positive) : positive :=
    match x with
    | xH => y
    | xO x0 => xO (wm x0)
    | xI (xO (xO (xO (x0)))) => y + (wm x0)~0~0~0~0
    | xI (xI (xO (xO (x0)))) => y3 + (wm x0)~0~0~0~0
    | xI (xO (xI (xO (x0)))) => y5 + (wm x0)~0~0~0~0
    | xI (xI (xI (xO (x0)))) => y7 + (wm x0)~0~0~0~0
    | xI (xO (xO (xI (x0)))) => y9 + (wm x0)~0~0~0~0
    | xI (xI (xO (xI (x0)))) => y11 + (wm x0)~0~0~0~0
    | xI (xO (xI (xI (x0)))) => y13 + (wm x0)~0~0~0~0
    | xI (xI (xI (xI (x0)))) => y15 + (wm x0)~0~0~0~0
    | xI xH => y3
    | xI (xO xH) => y5
    | xI (xI xH) => y7
    | xI (xO (xO xH)) => y9
    | xI (xI (xO xH)) => y11
    | xI (xO (xI xH)) => y13
    | xI (xI (xI xH)) => y15
    end) x.
  Lemma wmul_ok x y : wmul x y = x * y.
  Proof.
    unfold wmul. cbv zeta. revert x. fix IH 1. intros x.
    destruct x as [x|x|]; [|rewrite IH; lia|lia].
    destruct x as [x|x|]; [destruct x as [x|x|]; [destruct x as [x|x|]|destruct x as [x|x|]|]|destruct x as [x|x|]; [destruct x as [x|x|]|destruct x as [x|x|]|]|]; rewrite ?IH; lia.
  Qed.
End WMul.
Definition wZmul (a b : Z) : Z :=
  match a, b with
  | Zpos x, Zpos y | Zneg x, Zneg y => Zpos (wmul x y)
  | Zpos x, Zneg y | Zneg x, Zpos y => Zneg (wmul x y)
  | _, _ => 0
  end.
Lemma wZmul_ok a b : wZmul a b = a * b.
Proof. destruct a, b; cbn [wZmul]; rewrite ?wmul_ok; reflexivity. Qed.

Definition zmulp a b := red (wZmul a b).
Lemma zmulp_ok a b : pof (zmulp a b) = (pof a * pof b)%Fp.
Proof. unfold zmulp. rewrite red_ok, wZmul_ok. apply fof_mul. Qed.

Definition zq : Type := Z * Z * Z * Z.
Definition zadd (a b : zq) : zq :=
  match a, b with (x1, y1, z1, t1), (x2, y2, z2, t2) =>
   let pp := zmulp (y1 + x1) (y2 + x2) in
   let mm := zmulp (y1 - x1) (y2 - x2) in
   let tt := zmulp t1 (zmulp t2 (2 * d_Z)) in
   let zz := zmulp z1 z2 in let zz2 := zz + zz in
   let x := pp - mm in let y := pp + mm in let z := zz2 + tt in let t := zz2 - tt in
   (zmulp x t, zmulp y z, zmulp z t, zmulp x y) end.
Definition of_zq (a : zq) : xpt :=
  match a with (x, y, z, t) => mkX (pof x) (pof y) (pof z) (pof t) end.

Lemma pof_add a b : pof (a + b) = (pof a + pof b)%Fp. Proof. apply fof_add. Qed.
Lemma pof_sub a b : pof (a - b) = (pof a - pof b)%Fp. Proof. apply fof_sub. Qed.
Lemma pof_mul a b : pof (a * b) = (pof a * pof b)%Fp. Proof. apply fof_mul. Qed.
Lemma ed_d2_ok : pof (2 * d_Z) = ed_d2.
Proof. unfold ed_d2. replace (2 * d_Z) with (d_Z + d_Z) by ring. apply pof_add. Qed.

Lemma of_zadd a b : of_zq (zadd a b) = xadd (of_zq a) (of_zq b).
Proof.
  destruct a as [[[x1 y1] z1] t1], b as [[[x2 y2] z2] t2]. unfold zadd, of_zq, xadd. cbn [xX xY xZ xT].
  rewrite <- ed_d2_ok. rewrite !zmulp_ok, !pof_add, !pof_sub, !pof_add, !zmulp_ok, !pof_add, !pof_sub. reflexivity.
Qed.
Lemma of_zpow a k : of_zq (pow_pos zadd a k) = pow_pos xadd (of_zq a) k.
Proof.
  induction k as [k IH|k IH|]; cbn [pow_pos]; rewrite ?of_zadd, ?IH; reflexivity.
Qed.

Definition zbase : zq := (bx_Z, by_Z, 1, bx_Z * by_Z).
Lemma of_zbase : of_zq zbase = xbase.
Proof. unfold zbase, of_zq, xbase. now rewrite pof_mul. Qed.

(** The base point. *)
Lemma base_ok : on_curveb (pof bx_Z) (pof by_Z) = true.
Proof.
  unfold on_curveb. replace ed_d with (pof d_Z) by reflexivity. replace (1%Fp) with (pof 1) by reflexivity.
  rewrite <- !pof_mul, <- pof_sub, <- pof_add. apply feqb_eq. apply fof_eq. rewrite p_val. vm_compute. reflexivity.
Qed.
Definition eB : ept := mkE (pof bx_Z) (pof by_Z) base_ok.
Lemma rep_base : rep xbase eB.
Proof. unfold rep, xbase, eB. cbn [xX xY xZ xT ex ey]. repeat split; try ring. apply Fp_1_neq_0. Qed.

(** [q] B = 0, by computation. *)
Definition zis0 (a : zq) : bool :=
  match a with (x, y, z, t) =>
    ((red x mod p25519 =? 0) && (red (y - z) mod p25519 =? 0))%bool end.
Lemma zis0_ok a P : zis0 a = true -> rep (of_zq a) P -> P = e0.
Proof.
  destruct a as [[[x y] z] t]. unfold zis0, rep, of_zq. cbn [xX xY xZ xT].
  intros H (N & HX & HY & _). apply andb_true_iff in H as [H1 H2]. apply Z.eqb_eq in H1, H2.
  assert (pof x = 0%Fp) as X0. { rewrite <- red_ok. apply F_ext. rewrite fz_pof. exact H1. }
  assert (pof (y - z) = 0%Fp) as Y0. { rewrite <- red_ok. apply F_ext. rewrite fz_pof. exact H2. }
  apply ept_ext; cbn [ex ey e0].
  - rewrite X0 in HX. symmetry in HX. now apply Fp_integral in HX as [|].
  - rewrite pof_sub in Y0. apply Fp_sub_eq0 in Y0. rewrite Y0 in HY. apply (Fp_cancel (pof z)); auto.
    transitivity (ey P * pof z)%Fp; [ring|]. rewrite <- HY. ring.
Qed.

Definition q_pos_lit : positive := 7237005577332262213973186563042994240857116359379907606001950938285454250989.
Lemma q_order_check : zis0 (pow_pos zadd zbase q_pos_lit) = true.
Proof. vm_cast_no_check (eq_refl true). Qed.

Lemma q_pos_ok : q25519 = Zpos q_pos_lit.
Proof. rewrite q_val. reflexivity. Qed.
Global Opaque q_pos_lit.

Theorem base_q : emul q25519 eB = e0.
Proof.
  apply (zis0_ok _ _ q_order_check). rewrite of_zpow, of_zbase, q_pos_ok.
  exact (rep_mul (Zpos q_pos_lit) xbase eB (Pos2Z.is_nonneg _) rep_base).
Qed.

(** ** The 8-torsion *)
Definition tx_Z : Z := 14399317868200118260347934320527232580618823971194345261214217575416788799818.
Definition ty_Z : Z := 2707385501144840649318225287225658788936804267575313519463743609750303402022.
Lemma T_ok : on_curveb (pof tx_Z) (pof ty_Z) = true.
Proof.
  unfold on_curveb. replace ed_d with (pof d_Z) by reflexivity. replace (1%Fp) with (pof 1) by reflexivity.
  rewrite <- !pof_mul, <- pof_sub, <- pof_add. apply feqb_eq. apply fof_eq. rewrite p_val. vm_compute. reflexivity.
Qed.
(** A point of order 8. *)
Definition eT : ept := mkE (pof tx_Z) (pof ty_Z) T_ok.
(** Its double, of order 4: (sqrt(-1), 0). *)
Lemma T2_ok : on_curveb sqrtM1 0%Fp = true.
Proof. apply on_curveb_ok. unfold on_curve. rewrite sqrtM1_sq. ring. Qed.
Definition eT2 : ept := mkE sqrtM1 0%Fp T2_ok.
(** Its quadruple, of order 2: (0, -1). *)
Lemma T4_ok : on_curveb 0%Fp (- (1))%Fp = true.
Proof. apply on_curveb_ok. unfold on_curve. ring. Qed.
Definition eT4 : ept := mkE 0%Fp (- (1))%Fp T4_ok.

Lemma pof_check a b : a mod p25519 = b mod p25519 -> pof a = pof b.
Proof. apply fof_eq. Qed.
Ltac pof_compute := apply pof_check; rewrite p_val; vm_compute; reflexivity.

Lemma T_double : eadd eT eT = eT2.
Proof.
  apply ept_ext; cbn [ex ey eadd eT2].
  - apply (Fp_cancel (1 + kap eT eT)%Fp); [apply den_plus|].
    rewrite (ZField_mul_comm _ (sum_x eT eT)), sum_x_eq. unfold kap. cbn [ex ey eT].
    replace ed_d with (pof d_Z) by reflexivity. replace (1%Fp) with (pof 1) by reflexivity.
    replace sqrtM1 with (pof sqrtm1_Z) by reflexivity.
    rewrite <- !pof_mul, <- !pof_add, <- ?pof_mul. pof_compute.
  - apply (Fp_cancel (1 - kap eT eT)%Fp); [apply den_minus|].
    rewrite (ZField_mul_comm _ (sum_y eT eT)), sum_y_eq. unfold kap. cbn [ex ey eT].
    replace ed_d with (pof d_Z) by reflexivity. replace (1%Fp) with (pof 1) by reflexivity.
    replace (0%Fp) with (pof 0) by reflexivity.
    rewrite <- !pof_mul, <- !pof_add, <- ?pof_sub, <- ?pof_mul. pof_compute.
Qed.

(** Adding the 4-torsion points. *)
Lemma add_T2 P : ex (eadd P eT2) = (sqrtM1 * ey P)%Fp /\ ey (eadd P eT2) = (sqrtM1 * ex P)%Fp.
Proof.
  cbn [ex ey eadd]. split.
  - apply (Fp_cancel (1 + kap P eT2)%Fp); [apply den_plus|].
    rewrite (ZField_mul_comm _ (sum_x P eT2)), sum_x_eq. unfold kap. cbn [ex ey eT2]. ring.
  - apply (Fp_cancel (1 - kap P eT2)%Fp); [apply den_minus|].
    rewrite (ZField_mul_comm _ (sum_y P eT2)), sum_y_eq. unfold kap. cbn [ex ey eT2]. ring.
Qed.
Lemma add_T4 P : ex (eadd P eT4) = (- ex P)%Fp /\ ey (eadd P eT4) = (- ey P)%Fp.
Proof.
  cbn [ex ey eadd]. split.
  - apply (Fp_cancel (1 + kap P eT4)%Fp); [apply den_plus|].
    rewrite (ZField_mul_comm _ (sum_x P eT4)), sum_x_eq. unfold kap. cbn [ex ey eT4]. ring.
  - apply (Fp_cancel (1 - kap P eT4)%Fp); [apply den_minus|].
    rewrite (ZField_mul_comm _ (sum_y P eT4)), sum_y_eq. unfold kap. cbn [ex ey eT4]. ring.
Qed.
Lemma T2_double : eadd eT2 eT2 = eT4.
Proof.
  destruct (add_T2 eT2) as [H1 H2]. apply ept_ext; cbn [ex ey eT4].
  - rewrite H1. cbn [ex ey eT2]. ring.
  - rewrite H2. cbn [ex ey eT2]. apply sqrtM1_sq.
Qed.
Lemma T4_double : eadd eT4 eT4 = e0.
Proof.
  destruct (add_T4 eT4) as [H1 H2]. apply ept_ext; [rewrite H1|rewrite H2]; cbn [ex ey eT4 e0]; ring.
Qed.
Lemma T_2 : emul 2 eT = eT2. Proof. rewrite emul_2. apply T_double. Qed.
Lemma T_4 : emul 4 eT = eT4.
Proof. change 4 with (2 * 2). rewrite emul_mul, T_2, emul_2. apply T2_double. Qed.
Lemma T_8 : emul 8 eT = e0.
Proof. change 8 with (2 * 4). rewrite emul_mul, T_4, emul_2. apply T4_double. Qed.
Lemma T4_neq0 : eT4 <> e0.
Proof.
  intros E. apply (f_equal ey) in E. cbn [ey eT4 e0] in E. symmetry in E. now apply minus1_neq_1.
Qed.
Lemma T_mod n : emul n eT = emul (n mod 8) eT.
Proof.
  rewrite (Z.div_mod n 8) at 1 by lia. rewrite emul_add, Z.mul_comm, emul_mul, T_8, emul_e0, eadd_0_l. reflexivity.
Qed.
Lemma T_order n : emul n eT = e0 -> (8 | n).
Proof.
  intros E. rewrite T_mod in E. pose proof (Z.mod_pos_bound n 8 ltac:(lia)) as R.
  apply Zmod_divide; [lia|]. set (r := n mod 8) in *.
  assert (4 * (r mod 2) = 0) as E0.
  { assert (emul (4 * r) eT = e0) as E4 by (rewrite emul_mul, E; apply emul_e0).
    rewrite T_mod in E4. replace ((4 * r) mod 8) with (4 * (r mod 2)) in E4
      by (rewrite <- (Z.mul_mod_distr_l r 2 4) by lia; reflexivity).
    pose proof (Z.mod_pos_bound r 2 ltac:(lia)). assert (r mod 2 = 0 \/ r mod 2 = 1) as [->|E1] by lia; [reflexivity|].
    rewrite E1 in E4. change (4 * 1) with 4 in E4. rewrite T_4 in E4. now apply T4_neq0 in E4. }
  assert (2 * (r mod 4) mod 8 = 0) as E1.
  { assert (emul (2 * r) eT = e0) as E4 by (rewrite emul_mul, E; apply emul_e0).
    rewrite T_mod in E4. assert (r = 0 \/ r = 2 \/ r = 4 \/ r = 6) as [->|[->|[->| ->]]].
    { pose proof (Z.div_mod r 2 ltac:(lia)). assert (r mod 2 = 0) by lia. lia. }
    all: try reflexivity; cbn in E4; exfalso.
    - change (emul 4 eT = e0) in E4. rewrite T_4 in E4. now apply T4_neq0.
    - change (emul 4 eT = e0) in E4. rewrite T_4 in E4. now apply T4_neq0. }
  assert (r = 0 \/ r = 4) as [E2|E2] by (clearbody r; clear - E1 R; Z.div_mod_to_equations; lia); [exact E2|].
  rewrite E2 in E. rewrite T_4 in E. now apply T4_neq0 in E.
Qed.

(** ** The order of the base point is exactly q *)
Lemma B_neq0 : eB <> e0.
Proof.
  intros E. apply (f_equal ex) in E. cbn [ex eB e0] in E. revert E. apply (pof_neq _ 0). rewrite p_val. reflexivity.
Qed.
Lemma B_mod n : emul n eB = emul (n mod q25519) eB.
Proof.
  rewrite (Z.div_mod n q25519) at 1 by (rewrite q_val; lia).
  rewrite emul_add, Z.mul_comm, emul_mul, base_q, emul_e0, eadd_0_l. reflexivity.
Qed.
Lemma B_order n : emul n eB = e0 -> (q25519 | n).
Proof.
  intros E. destruct (Zdivide_dec q25519 n) as [|ND]; auto. exfalso. apply B_neq0.
  assert (rel_prime q25519 n) as RP by (apply prime_rel_prime; [apply prime_q25519|auto]).
  apply rel_prime_bezout in RP as [u v EB]. rewrite <- (emul_1 eB), <- EB, emul_add, !emul_mul, base_q, E, !emul_e0.
  apply eadd_0_l.
Qed.

(** ** Every point is [a]B + [j]T *)

(** A point is determined by its y coordinate and the sign of x. *)
Definition code (P : ept) : Z := 2 * fz (ey P) + (if is_neg (ex P) then 1 else 0).
Lemma x_from_y P R : ey P = ey R -> (ex P * ex P = ex R * ex R)%Fp.
Proof.
  intros E. pose proof (ept_curve P) as C1. pose proof (ept_curve R) as C2. unfold on_curve in *. rewrite <- E in C2.
  set (y := ey P) in *. set (x := ex P) in *. set (x' := ex R) in *.
  assert ((1 + ed_d * (y * y)) * (x * x) = (1 + ed_d * (y * y)) * (x' * x'))%Fp as EE.
  { transitivity (y * y - 1)%Fp.
    - transitivity (x * x + (1 + ed_d * (x * x) * (y * y)) - 1)%Fp; [ring|]. rewrite <- C1. ring.
    - symmetry. transitivity (x' * x' + (1 + ed_d * (x' * x') * (y * y)) - 1)%Fp; [ring|]. rewrite <- C2. ring. }
  apply Fp_cancel in EE; auto. intros D. assert (y = 0%Fp) as Y0.
  { apply (d_times_sq y sqrtM1). rewrite sqrtM1_sq. transitivity (1 + ed_d * (y * y) - 1)%Fp; [ring|]. rewrite D. ring. }
  rewrite Y0 in D. apply Fp_1_neq_0. rewrite <- D. ring.
Qed.
Lemma y_sign_inj P R : ey P = ey R -> is_neg (ex P) = is_neg (ex R) -> P = R.
Proof.
  intros E1 E2. apply ept_ext; auto. apply nonneg_sqr; auto. now apply x_from_y.
Qed.
Lemma code_inj P R : code P = code R -> P = R.
Proof.
  unfold code. intros E. apply y_sign_inj.
  - apply F_ext. destruct (is_neg (ex P)), (is_neg (ex R)); lia.
  - destruct (is_neg (ex P)), (is_neg (ex R)); auto; lia.
Qed.
Lemma code_range P : 0 <= code P < 2 * p25519.
Proof. unfold code. pose proof (fz_Fp_range (ey P)). destruct (is_neg (ex P)); lia. Qed.

Definition comb (a j : Z) : ept := eadd (emul a eB) (emul j eT).
Lemma comb_add a j a' j' : eadd (comb a j) (comb a' j') = comb (a + a') (j + j').
Proof. unfold comb. now rewrite eadd_4, <- !emul_add. Qed.
Lemma comb_neg a j : eneg (comb a j) = comb (- a) (- j).
Proof. unfold comb. now rewrite eneg_add, <- !emul_opp. Qed.
Lemma comb_mul n a j : emul n (comb a j) = comb (n * a) (n * j).
Proof. unfold comb. now rewrite emul_dist, !emul_mul. Qed.
Lemma comb_0 a j : comb a j = e0 -> (q25519 | a) /\ (8 | j).
Proof.
  intros E. assert (q25519 | a) as Da.
  { assert (emul 8 (comb a j) = e0) as E8 by (rewrite E; apply emul_e0).
    rewrite comb_mul in E8. unfold comb in E8. rewrite (Z.mul_comm 8 j), (emul_mul j 8), T_8, emul_e0, eadd_0_r in E8.
    apply B_order in E8. apply Gauss with 8; auto. apply prime_rel_prime; [apply prime_q25519|].
    intros D. apply Z.divide_pos_le in D; [|lia]. rewrite q_val in D. lia. }
  split; auto. destruct Da as [k ->]. unfold comb in E. rewrite emul_mul, base_q, emul_e0, eadd_0_l in E. now apply T_order.
Qed.
Lemma comb_mod a j : comb a j = comb (a mod q25519) (j mod 8).
Proof. unfold comb. now rewrite <- B_mod, <- T_mod. Qed.
Lemma comb_inj a j a' j' : 0 <= a < q25519 -> 0 <= a' < q25519 -> 0 <= j < 8 -> 0 <= j' < 8 ->
  comb a j = comb a' j' -> a = a' /\ j = j'.
Proof.
  intros R1 R2 R3 R4 E. assert (comb (a - a') (j - j') = e0) as E0.
  { unfold Z.sub. rewrite <- comb_add, <- comb_neg, E. apply eadd_neg_r. }
  apply comb_0 in E0 as [[u U] [v V]]. split; [|lia].
  assert (- q25519 < u * q25519 < q25519) by lia. assert (u = 0) by nia. subst u. lia.
Qed.

(** The list of all combinations: 8 q distinct points. *)
Definition zseq (n : Z) : list Z := map Z.of_nat (seq 0 (Z.to_nat n)).
Lemma in_zseq n z : 0 <= n -> In z (zseq n) <-> 0 <= z < n.
Proof.
  intros Hn. unfold zseq. rewrite in_map_iff. split.
  - intros (x & <- & H). apply in_seq in H. lia.
  - intros H. exists (Z.to_nat z). split; [lia|]. apply in_seq. lia.
Qed.
Lemma zseq_nodup n : NoDup (zseq n).
Proof. apply FinFun.Injective_map_NoDup; [intros a b; lia|apply seq_NoDup]. Qed.
Lemma zseq_len n : 0 <= n -> Z.of_nat (length (zseq n)) = n.
Proof. intros. unfold zseq. rewrite map_length, seq_length. lia. Qed.

Definition combs : list ept := map (fun n => comb (n / 8) (n mod 8)) (zseq (8 * q25519)).

Lemma combs_nodup : NoDup combs.
Proof.
  unfold combs. pose proof q_pos as Q.
  assert (forall l, (forall n, In n l -> 0 <= n < 8 * q25519) -> NoDup l -> NoDup (map (fun n => comb (n / 8) (n mod 8)) l)) as K.
  { induction l as [|n l IH]; intros H1 H2; cbn [map]; [constructor|].
    inversion H2; subst. constructor; [|apply IH; auto; intros; apply H1; now right].
    rewrite in_map_iff. intros (m & E & Hm). pose proof (H1 n (or_introl eq_refl)). pose proof (H1 m (or_intror Hm)).
    apply comb_inj in E; try (split; [apply Z.div_pos; lia|apply Z.div_lt_upper_bound; lia]);
      try (apply Z.mod_pos_bound; lia).
    destruct E as [E1 E2]. assert (m = n); [|subst; contradiction].
    rewrite (Z.div_mod m 8), (Z.div_mod n 8) by lia. congruence. }
  apply K; [|apply zseq_nodup]. intros n. apply in_zseq. lia.
Qed.
Lemma combs_len : Z.of_nat (length combs) = 8 * q25519.
Proof. unfold combs. rewrite map_length. apply zseq_len. pose proof q_pos. lia. Qed.
Lemma in_combs a j : In (comb a j) combs.
Proof.
  pose proof q_pos as Q. rewrite comb_mod. unfold combs. apply in_map_iff.
  pose proof (Z.mod_pos_bound a q25519 Q). pose proof (Z.mod_pos_bound j 8 ltac:(lia)).
  exists (8 * (a mod q25519) + j mod 8). split.
  - f_equal.
    + rewrite Z.mul_comm, Z.div_add_l, Z.div_small by lia. lia.
    + rewrite Z.mul_comm, Z.add_comm, Z_mod_plus_full. apply Z.mod_mod. lia.
  - apply in_zseq; lia.
Qed.
Lemma combs_in P : In P combs -> exists a j, P = comb a j.
Proof. unfold combs. rewrite in_map_iff. intros (n & <- & _). eauto. Qed.

(** Counting: a further point would give 16 q points, more than 2 p. *)
Theorem all_comb P : exists a j, P = comb a j.
Proof.
  destruct (in_dec ept_eq_dec P combs) as [H|H]; [now apply combs_in|exfalso].
  set (l := combs ++ map (eadd P) combs).
  assert (NoDup l) as ND.
  { assert (NoDup (map (eadd P) combs)) as ND2.
    { apply FinFun.Injective_map_NoDup; [|apply combs_nodup]. intros x y. apply eadd_cancel_l. }
    unfold l. assert (forall l1 l2 : list ept, NoDup l1 -> NoDup l2 -> (forall x, In x l1 -> ~ In x l2) -> NoDup (l1 ++ l2)) as App.
    { induction l1 as [|x l1 IH]; intros l2 N1 N2 D; cbn [app]; auto. inversion N1; subst. constructor.
      - rewrite in_app_iff. intros [|I]; [contradiction|]. apply (D x); auto. now left.
      - apply IH; auto. intros y Hy. apply D. now right. }
    apply App; [apply combs_nodup|exact ND2|]. intros x Hx Hy. apply in_map_iff in Hy as (y & E & Hy).
    apply combs_in in Hx as (a & j & ->), Hy as (a' & j' & ->). apply H.
    rewrite eadd_comm in E. apply eadd_move in E. rewrite comb_neg, comb_add in E. rewrite E. apply in_combs. }
  assert (NoDup (map code l)) as ND2.
  { apply FinFun.Injective_map_NoDup; auto. intros x y. apply code_inj. }
  assert (incl (map code l) (zseq (2 * p25519))) as INC.
  { intros z Hz. apply in_map_iff in Hz as (x & <- & _). apply in_zseq; [rewrite p_val; lia|]. apply code_range. }
  pose proof (NoDup_incl_length ND2 INC) as LEN. apply inj_le in LEN.
  rewrite zseq_len in LEN by (rewrite p_val; lia). rewrite map_length in LEN.
  unfold l in LEN. rewrite app_length, map_length, Nat2Z.inj_add, combs_len in LEN.
  rewrite p_val, q_val in LEN. lia.
Qed.
