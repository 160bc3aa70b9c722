(** The ristretto255 group of pkg/ristretto over the concrete curve, as an instance of
    the interface of Group.v, with its laws proved. *)
From Coq Require Import ZArith Znumtheory Lia List Bool String Ring Field Setoid Morphisms.
From Coq.Strings Require Import Byte.
From Verif Require Import ZField Primes Bytes Scalar Go Group Fp Edwards EdPoint EdEven Ristretto RistrettoFacts RistrettoDecode RistrettoMap.
Import ListNotations.
Local Open Scope Z_scope.
Lemma fq_add_z (a b : Fq) : fz (a + b)%Fq = (fz a + fz b) mod q25519. Proof. reflexivity. Qed.
Lemma fq_mul_z (a b : Fq) : fz (a * b)%Fq = (fz a * fz b) mod q25519. Proof. reflexivity. Qed.
Lemma fq_1_z : fz 1%Fq = 1. Proof. change (1 mod q25519 = 1). apply Z.mod_small. rewrite q_val. lia. Qed.
Lemma fq_0_z : fz 0%Fq = 0. Proof. reflexivity. Qed.
Local Opaque fadd fsub fmul fopp finv fdiv fof pof f0 f1.

(** ** Multiples of even points modulo q *)
Lemma even_comb P : even P -> exists a l, P = comb a (2 * l).
Proof.
  intros E. destruct (all_comb P) as (a & j & ->).
  destruct (Z.Even_or_Odd j) as [[l ->]|[l ->]]; eauto. exfalso. now apply (comb_odd a l).
Qed.
Lemma comb_coset a l : coset (emul a eB) (comb a (2 * l)).
Proof. exists l. unfold comb. rewrite <- T_2, Z.mul_comm, emul_mul. reflexivity. Qed.
Lemma comb_coset_iff a l a' l' : coset (comb a (2 * l)) (comb a' (2 * l')) <-> (q25519 | a - a').
Proof.
  split.
  - intros [k E]. assert (K : comb (a - a') (2 * l + 2 * k - 2 * l') = e0).
    { replace (a - a') with ((a + 0) + - a') by lia. replace (2 * l + 2 * k - 2 * l') with ((2 * l + 2 * k) + - (2 * l')) by lia.
      rewrite <- !comb_add, <- comb_neg. replace (comb 0 (2 * k)) with (emul k eT2); [rewrite <- E; apply eadd_neg_r|].
      unfold comb. rewrite emul_0, eadd_0_l, <- T_2, Z.mul_comm, emul_mul. reflexivity. }
    now apply comb_0 in K as [K _].
  - intros D. apply coset_trans with (emul a eB); [apply coset_sym, comb_coset|].
    replace (emul a eB) with (emul a' eB); [apply comb_coset|].
    destruct D as [k D]. replace a with (a' + k * q25519) by lia. rewrite emul_add, emul_mul, base_q, emul_e0, eadd_0_r. reflexivity.
Qed.
Lemma even_mod P n m : even P -> n mod q25519 = m mod q25519 -> coset (emul n P) (emul m P).
Proof.
  intros E M. destruct (even_comb P E) as (a & l & ->). rewrite !comb_mul.
  replace (n * (2 * l)) with (2 * (n * l)) by lia. replace (m * (2 * l)) with (2 * (m * l)) by lia.
  apply comb_coset_iff. replace (n * a - m * a) with ((n - m) * a) by lia. apply Z.divide_mul_l.
  apply Z.mod_divide; [rewrite q_val; lia|]. rewrite Zminus_mod, M, Z.sub_diag. reflexivity.
Qed.

(** ** The element type *)
Definition on_group (c : xpt) : Prop := exists P, rep c P /\ even P.
(** ristretto.go:79-81 Element: a Point whose coordinates satisfy the representation
    invariant of the package, which every constructor and method establishes. *)
Definition elem : Type := { c : xpt | on_group c }.
Definition el (c : xpt) (H : on_group c) : elem := exist _ c H.

Lemma og_id : on_group xid. Proof. exists e0. split; [apply rep_id|apply even_0]. Qed.
Lemma og_base : on_group xbase. Proof. exists eB. split; [apply rep_base|apply even_B]. Qed.
Lemma og_add c c' : on_group c -> on_group c' -> on_group (r_Add c c').
Proof. intros (P & R & E) (P' & R' & E'). exists (eadd P P'). split; [now apply rep_add|now apply even_add]. Qed.
Lemma og_neg c : on_group c -> on_group (r_Negate c).
Proof. intros (P & R & E). exists (eneg P). split; [now apply rep_neg|now apply even_neg]. Qed.
Lemma og_mul s c : on_group c -> on_group (r_ScalarMult s c).
Proof. intros (P & R & E). exists (emul (fz s) P). split; [apply rep_mul; auto; apply fz_Fq_range|now apply even_mul]. Qed.
Lemma og_dec b : match r_SetCanonicalBytes b with Ret c => on_group c | _ => True end.
Proof. pose proof (decode_sound b) as D. destruct (r_SetCanonicalBytes b); auto. destruct D as (P & s & R & E & _). now exists P. Qed.

(** SetCanonicalBytes, its two kinds of failure told apart by no caller. *)
Definition e_dec (b : list byte) : option elem :=
  match r_SetCanonicalBytes b as o return match o with Ret c => on_group c | _ => True end -> option elem with
  | Ret c => fun H => Some (el c H)
  | _ => fun _ => None
  end (og_dec b).

Definition ristretto_group : group_ops := {|
  G := elem;
  gid := el xid og_id;
  gbase := el xbase og_base;
  gadd x y := el (r_Add (proj1_sig x) (proj1_sig y)) (og_add _ _ (proj2_sig x) (proj2_sig y));
  gneg x := el (r_Negate (proj1_sig x)) (og_neg _ (proj2_sig x));
  gsmul s x := el (r_ScalarMult s (proj1_sig x)) (og_mul s _ (proj2_sig x));
  geqb x y := r_Equal (proj1_sig x) (proj1_sig y);
  genc x := r_Bytes (proj1_sig x);
  gdec := e_dec;
  gencEd x := r_BytesEd25519 (proj1_sig x)
|}.

(** ** Point.Bytes *)
Definition ed_bytes (P : ept) : list byte := le_bytes 32 (fz (ey P) + (if is_neg (ex P) then 2 ^ 255 else 0)).
Lemma point_bytes_ok c P : rep c P -> point_bytes c = ed_bytes P.
Proof.
  intros (Z0 & X & Y & _). unfold point_bytes, ed_bytes. rewrite X, Y.
  assert (K : forall x, (x * xZ c * finv (xZ c) = x)%Fp).
  { intros x. transitivity (x * (finv (xZ c) * xZ c))%Fp; [ring|]. rewrite Fp_inv_l by auto. ring. }
  now rewrite !K.
Qed.
Lemma ed_bytes_len P : List.length (ed_bytes P) = 32%nat.
Proof. apply le_bytes_length. Qed.
Lemma ed_val P : le_val (ed_bytes P) = fz (ey P) + (if is_neg (ex P) then 2 ^ 255 else 0).
Proof.
  unfold ed_bytes. rewrite le_val_le_bytes. pose proof (fz_Fp_range (ey P)). pose proof p_lt_255.
  apply Z.mod_small. replace (256 ^ Z.of_nat 32) with (2 ^ 255 + 2 ^ 255) by reflexivity. destruct (is_neg (ex P)); lia.
Qed.
Lemma ed_bytes_inj P Q : ed_bytes P = ed_bytes Q -> P = Q.
Proof.
  intros E. pose proof (ed_val P) as E1. rewrite E, ed_val in E1.
  pose proof (fz_Fp_range (ey P)). pose proof (fz_Fp_range (ey Q)). pose proof p_lt_255.
  apply y_sign_inj.
  - apply F_ext. destruct (is_neg (ex P)), (is_neg (ex Q)); lia.
  - destruct (is_neg (ex P)), (is_neg (ex Q)); auto; lia.
Qed.

(** ** BytesEd25519 *)
Definition eight_inv : Fq := match scalar_set_canonical eightInv_bytes with Some s => s | None => 0%Fq end.
Lemma eight_inv_ok : (8 * fz eight_inv) mod q25519 = 1.
Proof. vm_compute. reflexivity. Qed.

(** The multiple of B in the class of an even point is what BytesEd25519 encodes. *)
Lemma bytesEd_ok c a l : rep c (comb a (2 * l)) -> r_BytesEd25519 c = ed_bytes (emul a eB).
Proof.
  intros R. unfold r_BytesEd25519. fold eight_inv.
  assert (R8 := rep_mul 8 _ _ ltac:(lia) R).
  assert (RI := rep_mul (fz eight_inv) _ _ (proj1 (fz_Fq_range eight_inv)) R8).
  rewrite (point_bytes_ok _ _ RI). f_equal. rewrite !comb_mul.
  rewrite comb_mod. replace ((fz eight_inv * (8 * (2 * l))) mod 8) with 0.
  2:{ symmetry. apply Z.mod_divide; [lia|]. exists (fz eight_inv * (2 * l)). lia. }
  replace ((fz eight_inv * (8 * a)) mod q25519) with (a mod q25519).
  2:{ replace (fz eight_inv * (8 * a)) with ((8 * fz eight_inv) * a) by lia.
      rewrite <- Z.mul_mod_idemp_l by (rewrite q_val; lia). rewrite eight_inv_ok. f_equal. lia. }
  unfold comb. rewrite emul_0, eadd_0_r. symmetry. apply B_mod.
Qed.

(** ** The laws *)
Lemma geq_iff (x y : elem) P Q : rep (proj1_sig x) P -> rep (proj1_sig y) Q -> (@geq ristretto_group x y <-> coset P Q).
Proof. apply r_Equal_iff. Qed.

Lemma og_mk c P : rep c P -> even P -> on_group c. Proof. intros; now exists P. Qed.

Lemma enc_eq c c' P P' : rep c P -> even P -> rep c' P' -> even P' -> (r_Bytes c = r_Bytes c' <-> coset P P').
Proof.
  intros R E R' E'. destruct (encode_spec c P R E) as (Q & C & CA). destruct (encode_spec c' P' R' E') as (Q' & C' & CA').
  unfold r_Bytes. split.
  - intros H. apply fe_bytes_inj in H. rewrite <- H in CA'. assert (Q = Q') as <- by (eapply canon_point; eauto).
    eapply coset_trans; [exact C|]. now apply coset_sym.
  - intros H. f_equal. eapply (canon_unique Q Q'); eauto.
    eapply coset_trans; [apply coset_sym, C|]. eapply coset_trans; [exact H|exact C'].
Qed.

Lemma e_dec_inv b x : e_dec b = Some x <-> r_SetCanonicalBytes b = Ret (proj1_sig x) /\ e_dec b = Some x.
Proof.
  split; [|tauto]. intros H. split; auto. revert H. unfold e_dec. generalize (og_dec b).
  destruct (r_SetCanonicalBytes b); intros o H; inversion H; reflexivity.
Qed.
Lemma e_dec_ret b c : r_SetCanonicalBytes b = Ret c -> exists H, e_dec b = Some (el c H).
Proof.
  intros E. unfold e_dec. generalize (og_dec b). rewrite E. intros o. now exists o.
Qed.

Lemma e_add (x y : elem) P Q : rep (proj1_sig x) P -> rep (proj1_sig y) Q -> rep (proj1_sig (@gadd ristretto_group x y)) (eadd P Q).
Proof. apply rep_add. Qed.
Lemma e_neg (x : elem) P : rep (proj1_sig x) P -> rep (proj1_sig (@gneg ristretto_group x)) (eneg P).
Proof. apply rep_neg. Qed.
Lemma e_mul s (x : elem) P : rep (proj1_sig x) P -> rep (proj1_sig (@gsmul ristretto_group s x)) (emul (fz s) P).
Proof. apply rep_mul, fz_Fq_range. Qed.
Lemma e_id : rep (proj1_sig (@gid ristretto_group)) e0. Proof. apply rep_id. Qed.
Lemma e_base : rep (proj1_sig (@gbase ristretto_group)) eB. Proof. apply rep_base. Qed.

Theorem ristretto_laws : group_laws ristretto_group.
Proof.
  constructor.
  - split.
    + intros x. destruct (proj2_sig x) as (P & R & E). apply (geq_iff x x P P R R), coset_refl.
    + intros x y. destruct (proj2_sig x) as (P & R & E), (proj2_sig y) as (P' & R' & E').
      rewrite (geq_iff x y P P' R R'), (geq_iff y x P' P R' R). apply coset_sym.
    + intros x y z. destruct (proj2_sig x) as (P & R & E), (proj2_sig y) as (P' & R' & E'), (proj2_sig z) as (P'' & R'' & E'').
      rewrite (geq_iff x y P P' R R'), (geq_iff y z P' P'' R' R''), (geq_iff x z P P'' R R''). apply coset_trans.
  - intros x x' Ex y y' Ey. destruct (proj2_sig x) as (P & R & E), (proj2_sig y) as (Q & S' & F),
      (proj2_sig x') as (P' & R' & E'), (proj2_sig y') as (Q' & S'' & F').
    apply (geq_iff _ _ P P' R R') in Ex. apply (geq_iff _ _ Q Q' S' S'') in Ey.
    apply (geq_iff _ _ _ _ (e_add x y P Q R S') (e_add x' y' P' Q' R' S'')), coset_add; auto.
  - intros x x' Ex. destruct (proj2_sig x) as (P & R & E), (proj2_sig x') as (P' & R' & E').
    apply (geq_iff _ _ P P' R R') in Ex. apply (geq_iff _ _ _ _ (e_neg x P R) (e_neg x' P' R')), coset_neg; auto.
  - intros s s' <- x x' Ex. destruct (proj2_sig x) as (P & R & E), (proj2_sig x') as (P' & R' & E').
    apply (geq_iff _ _ P P' R R') in Ex. apply (geq_iff _ _ _ _ (e_mul s x P R) (e_mul s x' P' R')), coset_mul; auto.
  - intros x y z. destruct (proj2_sig x) as (P & R & E), (proj2_sig y) as (P' & R' & E'), (proj2_sig z) as (P'' & R'' & E'').
    apply (geq_iff _ _ _ _ (e_add x _ P _ R (e_add y z _ _ R' R'')) (e_add _ z _ _ (e_add x y _ _ R R') R'')).
    rewrite eadd_assoc. apply coset_refl.
  - intros x y. destruct (proj2_sig x) as (P & R & E), (proj2_sig y) as (P' & R' & E').
    apply (geq_iff _ _ _ _ (e_add x y _ _ R R') (e_add y x _ _ R' R)). rewrite eadd_comm. apply coset_refl.
  - intros x. destruct (proj2_sig x) as (P & R & E).
    apply (geq_iff _ _ _ _ (e_add (@gid ristretto_group) x _ _ e_id R) R). rewrite eadd_0_l. apply coset_refl.
  - intros x. destruct (proj2_sig x) as (P & R & E).
    apply (geq_iff _ _ _ _ (e_add _ x _ _ (e_neg x _ R) R) e_id). rewrite eadd_neg_l. apply coset_refl.
  - intros a b x. destruct (proj2_sig x) as (P & R & E).
    apply (geq_iff _ _ _ _ (e_mul _ x _ R) (e_add _ _ _ _ (e_mul a x _ R) (e_mul b x _ R))).
    rewrite <- emul_add. apply even_mod; auto. rewrite fq_add_z, Z.mod_mod; [reflexivity|rewrite q_val; lia].
  - intros a b x. destruct (proj2_sig x) as (P & R & E).
    apply (geq_iff _ _ _ _ (e_mul _ x _ R) (e_mul a _ _ (e_mul b x _ R))).
    rewrite <- emul_mul. apply even_mod; auto. rewrite fq_mul_z, Z.mod_mod; [reflexivity|rewrite q_val; lia].
  - intros a x y. destruct (proj2_sig x) as (P & R & E), (proj2_sig y) as (P' & R' & E').
    apply (geq_iff _ _ _ _ (e_mul a _ _ (e_add x y _ _ R R')) (e_add _ _ _ _ (e_mul a x _ R) (e_mul a y _ R'))).
    rewrite emul_dist. apply coset_refl.
  - intros x. destruct (proj2_sig x) as (P & R & E). apply (geq_iff _ _ _ _ (e_mul _ x _ R) R).
    replace (fz 1%Fq) with 1 by (symmetry; apply fq_1_z). rewrite emul_1. apply coset_refl.
  - intros a H. apply (geq_iff _ _ _ _ (e_mul a (@gbase ristretto_group) _ e_base) e_id) in H.
    assert (K : (q25519 | fz a - 0)).
    { apply (comb_coset_iff (fz a) 0 0 0). replace (comb (fz a) (2 * 0)) with (emul (fz a) eB); [|unfold comb; rewrite emul_0, eadd_0_r; reflexivity].
      replace (comb 0 (2 * 0)) with e0; [exact H|unfold comb; rewrite !emul_0, eadd_0_r; reflexivity]. }
    apply F_ext. rewrite fq_0_z. pose proof (fz_Fq_range a). rewrite Z.sub_0_r in K.
    destruct (Z.eq_dec (fz a) 0); auto. apply Z.divide_pos_le in K; lia.
  - intros x. destruct (proj2_sig x) as (P & R & E). destruct (even_comb P E) as (a & l & ->). exists (qof a).
    apply (geq_iff _ _ _ _ R (e_mul (qof a) (@gbase ristretto_group) _ e_base)). apply coset_sym.
    replace (emul (fz (qof a)) eB) with (emul a eB); [apply comb_coset|].
    rewrite B_mod. reflexivity.
  - intros x. apply fe_bytes_len.
  - intros x y. destruct (proj2_sig x) as (P & R & E), (proj2_sig y) as (P' & R' & E').
    rewrite (geq_iff x y P P' R R'). apply enc_eq; auto.
  - intros x. destruct (proj2_sig x) as (P & R & E). destruct (encode_spec _ _ R E) as (Q & C & CA).
    destruct (decode_complete _ _ CA) as (c & D & RC). destruct (e_dec_ret _ _ D) as (H & EH).
    exists (el c H). split; [exact EH|]. apply (geq_iff (el c H) x Q P RC R). now apply coset_sym.
  - intros b x H. apply e_dec_inv in H as [H _]. pose proof (decode_sound b) as D. rewrite H in D.
    destruct D as (P & s & R & E & CA & ->). destruct (encode_spec _ _ R E) as (Q & C & CA').
    unfold genc, ristretto_group, r_Bytes. f_equal. symmetry. now apply (canon_unique P Q).
  - intros x. destruct (proj2_sig x) as (P & R & E). destruct (even_comb P E) as (a & l & ->).
    unfold gencEd, ristretto_group. rewrite (bytesEd_ok _ _ _ R). apply ed_bytes_len.
  - intros x y. destruct (proj2_sig x) as (P & R & E), (proj2_sig y) as (P' & R' & E').
    destruct (even_comb P E) as (a & l & ->), (even_comb P' E') as (a' & l' & ->).
    rewrite (geq_iff x y _ _ R R'), comb_coset_iff.
    unfold gencEd, ristretto_group. rewrite (bytesEd_ok _ _ _ R), (bytesEd_ok _ _ _ R'). split.
    + intros H. apply ed_bytes_inj in H. apply B_order. rewrite emul_sub, H. apply eadd_neg_r.
    + intros [k H]. f_equal. replace a with (a' + k * q25519) by lia. rewrite emul_add, emul_mul, base_q, emul_e0. apply eadd_0_r.
Qed.
