(** The map from uniform bytes to elements (mapToPoint): it never reaches its panic and
    always produces an even curve point. *)
From Coq Require Import ZArith Znumtheory Lia List Bool String Ring Field.
From Coq.Strings Require Import Byte.
From Verif Require Import ZField Primes Bytes Scalar Go Fp Edwards EdPoint EdEven Ristretto RistrettoFacts RistrettoDecode Spec_Ristretto.
Import ListNotations.
Local Open Scope Z_scope.
Local Opaque fadd fsub fmul fopp finv fdiv fof pof f0 f1.

Lemma d_neq1 : (ed_d - 1 <> 0)%Fp.
Proof. intros E. apply d_nonsq. exists 1%Fp. transitivity (ed_d - (ed_d - 1))%Fp; [ring|]. rewrite E. ring. Qed.

(** d+1 is a non-zero square. *)
Definition d1r : Fp := (sqrtM1 * r_sqrtADMinusOne)%Fp.
Lemma d1r_sq : (d1r * d1r = ed_d + 1)%Fp.
Proof.
  unfold d1r. transitivity ((sqrtM1 * sqrtM1) * (r_sqrtADMinusOne * r_sqrtADMinusOne))%Fp; [ring|].
  rewrite sqrtM1_sq, r_sqrtADMinusOne_ok. ring.
Qed.
Lemma d1r_neq0 : d1r <> 0%Fp.
Proof. intros E. apply amd_neq0. transitivity (d1r * d1r)%Fp; [rewrite d1r_sq|rewrite E]; ring. Qed.
Lemma ad_neq0 : r_sqrtADMinusOne <> 0%Fp.
Proof. intros E. apply d1r_neq0. unfold d1r. rewrite E. ring. Qed.

(** Two quadratics over Fp without roots. *)
Lemma disc1 a : (a * a = ed_d * ((ed_d - 1) * (ed_d - 1)) * (ed_d + 1))%Fp -> False.
Proof.
  intros E. assert ((ed_d - 1) * d1r = 0)%Fp as K.
  { apply (d_times_sq _ a). rewrite E, <- d1r_sq. ring. }
  apply Fp_integral in K as [K|K]; [now apply d_neq1|now apply d1r_neq0].
Qed.
Lemma disc2 a : (a * a = - (ed_d * ((ed_d - 1) * (ed_d - 1))))%Fp -> False.
Proof.
  intros E. apply d_neq1. apply (d_times_sq _ (sqrtM1 * a)%Fp).
  transitivity ((sqrtM1 * sqrtM1) * (a * a))%Fp; [rewrite E, sqrtM1_sq|]; ring.
Qed.

Definition m_v (r : Fp) : Fp := ((- (1) - r * ed_d) * (r + ed_d))%Fp.
Definition m_u (r : Fp) : Fp := ((r + 1) * (1 - ed_d * ed_d))%Fp.
Definition m_N (c r : Fp) : Fp := (c * (r - 1) * ((ed_d - 1) * (ed_d - 1)) - m_v r)%Fp.

Lemma vu_A r : (m_v r + m_u r <> 0)%Fp.
Proof.
  intros E. apply (disc1 (ed_d * r + ed_d * ed_d)%Fp).
  transitivity (ed_d * ((ed_d - 1) * (ed_d - 1)) * (ed_d + 1) - ed_d * (m_v r + m_u r))%Fp; [unfold m_v, m_u|rewrite E]; ring.
Qed.
Lemma vu_B r : (m_v r + r * m_u r <> 0)%Fp.
Proof.
  intros E. apply (disc1 ((1 - ed_d - ed_d * ed_d) * r - ed_d * ed_d)%Fp).
  transitivity (ed_d * ((ed_d - 1) * (ed_d - 1)) * (ed_d + 1) + (1 - ed_d - ed_d * ed_d) * (m_v r + r * m_u r))%Fp; [unfold m_v, m_u|rewrite E]; ring.
Qed.
Lemma N_A r : (m_N (- (1)) r <> 0)%Fp.
Proof.
  intros E. apply (disc2 (ed_d * r + ed_d)%Fp).
  transitivity (ed_d * m_N (- (1)) r - ed_d * ((ed_d - 1) * (ed_d - 1)))%Fp; [unfold m_N, m_v|rewrite E]; ring.
Qed.
Lemma N_B r : (m_N r r <> 0)%Fp.
Proof.
  intros E. apply (disc2 ((ed_d * ed_d - ed_d + 1) * r + ed_d)%Fp).
  transitivity ((ed_d * ed_d - ed_d + 1) * m_N r r - ed_d * ((ed_d - 1) * (ed_d - 1)))%Fp; [unfold m_N, m_v|rewrite E]; ring.
Qed.

(** The two identities behind the curve equation of the output. *)
Lemma id_A r : (m_N (- (1)) r * m_N (- (1)) r * (ed_d + 1) =
  (m_v r + m_u r) * (m_v r + m_u r) + ed_d * ((m_v r - m_u r) * (m_v r - m_u r)))%Fp.
Proof. unfold m_N, m_u, m_v. ring. Qed.
Lemma id_B r : (m_N r r * m_N r r * (ed_d + 1) =
  (m_v r + r * m_u r) * (m_v r + r * m_u r) + ed_d * ((m_v r - r * m_u r) * (m_v r - r * m_u r)))%Fp.
Proof. unfold m_N, m_u, m_v. ring. Qed.

(** The common ending. *)
Lemma map_finish s v N :
  (s = 0%Fp \/ (N * N * (ed_d + 1) = (v + v * (s * s)) * (v + v * (s * s)) + ed_d * ((v - v * (s * s)) * (v - v * (s * s))))%Fp) ->
  N <> 0%Fp -> (1 + s * s <> 0)%Fp ->
  let w0 := (s * v + s * v)%Fp in let w1 := (N * r_sqrtADMinusOne)%Fp in
  let w2 := (1 - s * s)%Fp in let w3 := (1 + s * s)%Fp in
  SetExtendedCoordinates (w0 * w3)%Fp (w2 * w1)%Fp (w1 * w3)%Fp (w0 * w2)%Fp =
    Some (mkX (w0 * w3)%Fp (w2 * w1)%Fp (w1 * w3)%Fp (w0 * w2)%Fp) /\
  exists P, rep (mkX (w0 * w3)%Fp (w2 * w1)%Fp (w1 * w3)%Fp (w0 * w2)%Fp) P /\ even P /\ (ex P * w1 = w0)%Fp /\ (ey P * w3 = w2)%Fp.
Proof.
  intros HS HN H3 w0 w1 w2 w3.
  assert (H1 : w1 <> 0%Fp) by (apply Fp_mul_neq0; [exact HN|exact ad_neq0]).
  assert (ZN : (w1 * w3 <> 0)%Fp) by (now apply Fp_mul_neq0).
  assert (W1 : (w1 * w1 = N * N * (- ed_d - 1))%Fp).
  { unfold w1. rewrite <- r_sqrtADMinusOne_ok. ring. }
  assert (EQ : (w2 * w1 * (w2 * w1) - w0 * w3 * (w0 * w3) = ed_d * (w0 * w2 * (w0 * w2)) + w1 * w3 * (w1 * w3))%Fp).
  { assert (K : (- (pof 4) * (s * s) * (w1 * w1) = w0 * w0 * (w3 * w3 + ed_d * (w2 * w2)))%Fp).
    { rewrite W1. destruct HS as [E|E].
      - unfold w0. rewrite E. ring.
      - transitivity (pof 4 * (s * s) * (N * N * (ed_d + 1)))%Fp; [ring|]. rewrite E. unfold w0, w2, w3. ring. }
    transitivity (ed_d * (w0 * w2 * (w0 * w2)) + w1 * w3 * (w1 * w3) + (- (pof 4) * (s * s) * (w1 * w1) - w0 * w0 * (w3 * w3 + ed_d * (w2 * w2))))%Fp; [unfold w2, w3; ring|].
    rewrite K. ring. }
  clearbody w1. split.
  { unfold SetExtendedCoordinates. rewrite (proj2 (feqb_eq _ _) EQ).
    rewrite (proj2 (feqb_eq (w0 * w3 * (w2 * w1))%Fp (w0 * w2 * (w1 * w3))%Fp)) by ring. reflexivity. }
  set (x := (w0 * finv w1)%Fp). set (y := (w2 * finv w3)%Fp).
  assert (EX : (x * w1 = w0)%Fp).
  { unfold x. transitivity (w0 * (finv w1 * w1))%Fp; [ring|]. rewrite Fp_inv_l by auto. ring. }
  assert (EY : (y * w3 = w2)%Fp).
  { unfold y. transitivity (w2 * (finv w3 * w3))%Fp; [ring|]. rewrite Fp_inv_l by auto. ring. }
  clearbody x y.
  assert (C : on_curve x y).
  { unfold on_curve. apply (Fp_cancel (w1 * w3 * (w1 * w3))%Fp); [now apply Fp_mul_neq0|].
    transitivity ((y * w3) * w1 * ((y * w3) * w1) - (x * w1) * w3 * ((x * w1) * w3))%Fp; [ring|].
    transitivity (ed_d * ((x * w1) * (y * w3) * ((x * w1) * (y * w3))) + w1 * w3 * (w1 * w3))%Fp; [|ring].
    rewrite EX, EY. exact EQ. }
  exists (mkE x y (proj2 (on_curveb_ok x y) C)). split.
  - unfold rep. cbn [xX xY xZ xT ex ey]. split; [exact ZN|]. rewrite <- EX, <- EY. split; [ring|split; ring].
  - refine (conj _ (conj EX EY)). apply even_iff. unfold phi. cbn [ey]. apply (sq_div _ w3); [exact H3|].
    exists (2 * s)%Fp. transitivity (w3 * w3 - (y * w3) * (y * w3))%Fp; [rewrite EY; unfold w2, w3|]; ring.
Qed.

Lemma not_nonres x t : (sqrtM1 * (t * t) = x * x)%Fp -> x <> 0%Fp -> False.
Proof.
  intros E X. apply sqrtM1_nonsq. apply (sq_div _ t).
  - intros T. apply X. apply Fp_sqr_0. rewrite <- E, T. ring.
  - exists x. symmetry. exact E.
Qed.

Lemma even_res x : is_neg x = false <-> even_residue x.
Proof.
  unfold even_residue, is_neg. rewrite Zmod_odd. destruct (Z.odd (fz x)); split; intros H; try discriminate; auto; lia.
Qed.
Lemma ad_odd : even_residue (- r_sqrtADMinusOne)%Fp.
Proof.
  apply even_res. rewrite is_neg_opp by exact ad_neq0.
  replace (is_neg r_sqrtADMinusOne) with true; [reflexivity|]. vm_compute. reflexivity.
Qed.

Theorem map_ok t : exists c P, mapToPoint t = Ret c /\ rep c P /\ even P /\ elligator t P.
Proof.
  unfold mapToPoint. rewrite r_sqrtM1_ok, r_oneMinusDSQ_ok, r_d_ok, r_minusOne_ok, r_dMinusOneSQ_ok.
  unfold elligator. cbv zeta.
  set (r := (sqrtM1 * (t * t))%Fp).
  change ((- (1) - r * ed_d) * (r + ed_d))%Fp with (m_v r). change ((r + 1) * (1 - ed_d * ed_d))%Fp with (m_u r).
  destruct (sqrt_ratio (m_u r) (m_v r)) as [s1 w] eqn:E.
  apply sqrt_ratio_spec in E as [NS E].
  assert (SS : forall x, (- fabs x * - fabs x = x * x)%Fp).
  { intros x. transitivity (fabs x * fabs x)%Fp; [ring|]. apply fabs_sqr. }
  assert (FIN : forall s N P, (ex P * (N * r_sqrtADMinusOne) = s * m_v r + s * m_v r)%Fp ->
     exists a, (a * a = - ed_d - 1)%Fp /\ even_residue (- a)%Fp /\ (ex P * (N * a) = 2 * s * m_v r)%Fp).
  { intros s N P EX. exists r_sqrtADMinusOne. refine (conj r_sqrtADMinusOne_ok (conj ad_odd _)). rewrite EX. ring. }
  destruct w; cbn [fe_select].
  - assert (E' : (m_v r * (s1 * s1) = m_u r)%Fp).
    { destruct E as [(_ & E)|[(E & _)|(E & _)]]; [exact E|discriminate|discriminate]. }
    change (- (1) * (r - 1) * ((ed_d - 1) * (ed_d - 1)) - m_v r)%Fp with (m_N (- (1)) r)%Fp.
    destruct (map_finish s1 (m_v r) (m_N (- (1)) r)%Fp) as (-> & P & R & EV & EX & EY).
    + right. rewrite E'. apply id_A.
    + apply N_A.
    + intros K. apply (vu_A r). rewrite <- E'. transitivity (m_v r * (1 + s1 * s1))%Fp; [ring|]. rewrite K. ring.
    + eexists _, P. refine (conj eq_refl (conj R (conj EV _))). exists s1, (- (1))%Fp. split.
      * left. refine (conj eq_refl (conj E' _)). now apply even_res.
      * refine (conj (N_A r) (conj EY _)). apply FIN. exact EX.
  - set (s := (- fabs (s1 * t))%Fp).
    assert (E' : (s * s = s1 * s1 * (t * t))%Fp) by (unfold s; rewrite SS; ring).
    assert (NE : even_residue (- s)%Fp).
    { unfold s. replace (- - fabs (s1 * t))%Fp with (fabs (s1 * t))%Fp by ring. apply even_res, fabs_nonneg. }
    clearbody s.
    change (r * (r - 1) * ((ed_d - 1) * (ed_d - 1)) - m_v r)%Fp with (m_N r r)%Fp.
    destruct E as [(E & _)|[(_ & E & UN & VN)|(_ & VN & UN & E)]]; [discriminate| |].
    + assert (E'' : (m_v r * (s * s) = r * m_u r)%Fp).
      { rewrite E'. transitivity (m_v r * (s1 * s1) * (t * t))%Fp; [ring|]. rewrite E. unfold r. ring. }
      destruct (map_finish s (m_v r) (m_N r r)) as (-> & P & R & EV & EX & EY).
      * right. rewrite E''. apply id_B.
      * apply N_B.
      * intros K. apply (vu_B r). rewrite <- E''. transitivity (m_v r * (1 + s * s))%Fp; [ring|]. rewrite K. ring.
      * eexists _, P. refine (conj eq_refl (conj R (conj EV _))). exists s, r. split.
        -- right. refine (conj eq_refl (conj _ (conj (or_intror (conj VN E'')) NE))).
           intros [z Z]. assert (ZN : z <> 0%Fp) by (intros ->; apply UN; rewrite <- Z; ring).
           apply sqrtM1_nonsq. apply (sq_div _ z); [exact ZN|]. exists s1.
           apply (Fp_cancel (m_v r)); [exact VN|]. rewrite E, <- Z. ring.
        -- refine (conj (N_B r) (conj EY _)). apply FIN. exact EX.
    + assert (S0 : s = 0%Fp). { apply Fp_sqr_0. rewrite E', E. ring. }
      destruct (map_finish s (m_v r) (m_N r r)) as (-> & P & R & EV & EX & EY).
      * now left.
      * apply N_B.
      * rewrite S0. intros K. apply Fp_1_neq_0. rewrite <- K. ring.
      * eexists _, P. refine (conj eq_refl (conj R (conj EV _))). exists s, r. split.
        -- right. refine (conj eq_refl (conj _ (conj (or_introl (conj VN S0)) NE))).
           intros [z Z]. apply UN. rewrite <- Z, VN. ring.
        -- refine (conj (N_B r) (conj EY _)). apply FIN. exact EX.
Qed.

Theorem uniform_ok b : List.length b = 64%nat -> exists c P1 P2, r_SetUniformBytes b = Ret c /\ rep c (eadd P1 P2) /\ even (eadd P1 P2) /\
  elligator (fe_set_bytes (firstn 32 b)) P1 /\ elligator (fe_set_bytes (skipn 32 b)) P2.
Proof.
  intros L. unfold r_SetUniformBytes. rewrite L. cbn [Nat.eqb negb].
  destruct (map_ok (fe_set_bytes (firstn 32 b))) as (c1 & P1 & -> & R1 & V1 & S1).
  destruct (map_ok (fe_set_bytes (skipn 32 b))) as (c2 & P2 & -> & R2 & V2 & S2). cbn [obind].
  exists (xadd c1 c2), P1, P2. split; [reflexivity|]. split; [now apply rep_add|]. split; [now apply even_add|auto].
Qed.
