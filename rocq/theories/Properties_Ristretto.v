(** C32, C33, C42: the ristretto group over the concrete curve. *)
From Coq Require Import ZArith Znumtheory Lia List Bool String Ring Field Setoid Morphisms.
From Coq.Strings Require Import Byte.
From Verif Require Import ZField Primes Bytes Scalar Go Group Fp Edwards EdPoint EdEven Ristretto RistrettoFacts RistrettoDecode RistrettoMap RistrettoGroup
  Spec_Ristretto.
Import ListNotations.
Local Open Scope Z_scope.
Local Opaque fadd fsub fmul fopp finv fdiv fof pof f0 f1.

(** ** The specification in terms of the lemmas *)
Lemma denotes_rep c P : denotes c P <-> rep c P.
Proof. reflexivity. Qed.
Lemma valid_iff c : valid_element c <-> on_group c.
Proof.
  split.
  - intros (P & Q & D & E). exists P. split; [exact D|]. now exists Q.
  - intros (P & D & Q & E). now exists P, Q.
Qed.
Lemma same_coset P Q : same_element P Q <-> coset P Q.
Proof.
  unfold same_element, four_torsion. split.
  - intros H. destruct (all_comb (eadd P (eneg Q))) as (a & j & E). rewrite E, comb_mul in H.
    apply comb_0 in H as [Ha Hj].
    assert (q25519 | a) as Da.
    { apply Gauss in Ha; auto. apply prime_rel_prime; [exact prime_q25519|]. intros D. apply Z.divide_pos_le in D; [|lia]. rewrite q_val in D. lia. }
    destruct Hj as [k Hk]. assert (j = 2 * k) as -> by lia. destruct Da as [m ->]. exists (- k).
    assert (eadd P (eneg Q) = emul k eT2) as E2.
    { rewrite E. unfold comb. rewrite emul_mul, base_q, emul_e0, eadd_0_l, <- T_2, Z.mul_comm, emul_mul. reflexivity. }
    rewrite emul_opp, <- E2, eneg_add, eneg_neg, eadd_assoc, eadd_neg_r, eadd_0_l. reflexivity.
  - intros [k ->]. rewrite eneg_add, eadd_assoc, eadd_neg_r, eadd_0_l, emul_neg, <- emul_mul, Z.mul_comm, emul_mul, T2_4, emul_e0. apply eneg_0.
Qed.
Lemma canon_iff P s : canon P s <-> encodes P s.
Proof. unfold canon, encodes. rewrite !even_res. tauto. Qed.

(** ** C32 *)
Theorem C32_encoding : forall c, valid_element c -> exists P Q s,
  denotes c P /\ same_element P Q /\ encodes Q s /\ r_Bytes c = le_bytes 32 (fz s).
Proof.
  intros c H. apply valid_iff in H as (P & R & E). destruct (encode_spec c P R E) as (Q & C & CA).
  exists P, Q, (r_encode c). refine (conj R (conj _ (conj _ eq_refl))); [now apply same_coset|now apply canon_iff].
Qed.
(** The encoded representative of a class exists once. *)
Theorem C32_encoding_unique : forall P Q s t, same_element P Q -> encodes P s -> encodes Q t -> P = Q /\ s = t.
Proof. intros P Q s t H A B. apply canon_iff in A, B. apply same_coset in H. exact (canon_unique P Q s t A B H). Qed.

Theorem C32_round_trip : forall c, valid_element c -> exists c',
  r_SetCanonicalBytes (r_Bytes c) = Ret c' /\ valid_element c' /\ r_Equal c' c = true.
Proof.
  intros c H. apply valid_iff in H as (P & R & E). destruct (encode_spec c P R E) as (Q & C & CA).
  destruct (decode_complete _ _ CA) as (c' & D & R'). exists c'. split; [exact D|]. split.
  - apply valid_iff. exists Q. split; auto. eapply coset_even; eauto.
  - apply (r_Equal_iff c' c Q P R' R). now apply coset_sym.
Qed.
Theorem C32_canonical : forall b c, r_SetCanonicalBytes b = Ret c -> valid_element c /\ r_Bytes c = b.
Proof.
  intros b c H. pose proof (decode_sound b) as D. rewrite H in D. destruct D as (P & s & R & E & CA & ->). split.
  - apply valid_iff. now exists P.
  - destruct (encode_spec c P R E) as (Q & C & CA'). unfold r_Bytes. f_equal. symmetry. now apply (canon_unique P Q).
Qed.
(** Decoding never panics. *)
Theorem C32_total : forall b, (exists c, r_SetCanonicalBytes b = Ret c) \/ (exists e, r_SetCanonicalBytes b = Fail e).
Proof. intros b. pose proof (decode_sound b) as D. destruct (r_SetCanonicalBytes b); eauto. contradiction. Qed.
Theorem C32_accepts : forall b, (exists c, r_SetCanonicalBytes b = Ret c) <-> exists c, valid_element c /\ b = r_Bytes c.
Proof.
  intros b. split.
  - intros [c H]. exists c. apply C32_canonical in H as [V <-]. auto.
  - intros (c & V & ->). destruct (C32_round_trip c V) as (c' & H & _). eauto.
Qed.
Theorem C32_equal : forall c c', valid_element c -> valid_element c' -> (r_Equal c c' = true <-> r_Bytes c = r_Bytes c').
Proof.
  intros c c' H H'. apply valid_iff in H as (P & R & E), H' as (P' & R' & E').
  rewrite (enc_eq c c' P P') by auto. now apply r_Equal_iff.
Qed.
Theorem C32_equal_spec : forall c c' P P', denotes c P -> denotes c' P' -> (r_Equal c c' = true <-> same_element P P').
Proof. intros c c' P P' H H'. rewrite same_coset. now apply r_Equal_iff. Qed.

(** ** C33 *)
(** The curve is the one of RFC 8032: d = -121665/121666, and B has y = 4/5 and even x. *)
Theorem C33_curve : (ed_d * pof 121666 = - pof 121665)%Fp /\ (ey eB * pof 5 = pof 4)%Fp /\ even_residue (ex eB) /\ p25519 = 2 ^ 255 - 19 /\
  q25519 = 2 ^ 252 + 27742317777372353535851937790883648493 /\ denotes xbase eB /\ denotes xid e0.
Proof.
  refine (conj _ (conj _ (conj _ (conj _ (conj _ (conj rep_base rep_id)))))).
  - replace ed_d with (pof d_Z) by reflexivity. rewrite <- pof_mul.
    transitivity (0 - pof 121665)%Fp; [|ring]. replace (0%Fp) with (pof 0) by reflexivity. rewrite <- pof_sub.
    apply pof_check. rewrite p_val. vm_compute. reflexivity.
  - change (ey eB) with (pof by_Z). rewrite <- pof_mul. apply pof_check. rewrite p_val. vm_compute. reflexivity.
  - vm_compute. reflexivity.
  - rewrite p_val. vm_compute. reflexivity.
  - rewrite q_val. vm_compute. reflexivity.
Qed.

(** The operations compute the group operations of the curve. *)
Theorem C33_operations : forall c c' P P', denotes c P -> denotes c' P' ->
  denotes (r_Add c c') (eadd P P') /\ denotes (r_Negate c) (eneg P) /\ denotes (r_Subtract c c') (eadd P (eneg P')) /\
  (forall s, denotes (r_ScalarMult s c) (emul (fz s) P)) /\ (forall s, denotes (r_ScalarBaseMult s) (emul (fz s) eB)).
Proof.
  intros c c' P P' R R'. refine (conj _ (conj _ (conj _ (conj _ _)))).
  - now apply rep_add.
  - now apply rep_neg.
  - apply rep_add; auto. now apply rep_neg.
  - intros s. apply rep_mul; auto. apply fz_Fq_range.
  - intros s. apply rep_mul; [apply fz_Fq_range|apply rep_base].
Qed.
(** ... and stay inside the valid elements. *)
Theorem C33_closed : forall c c' s, valid_element c -> valid_element c' ->
  valid_element (r_Add c c') /\ valid_element (r_Negate c) /\ valid_element (r_Subtract c c') /\ valid_element (r_ScalarMult s c) /\
  valid_element (r_ScalarBaseMult s) /\ valid_element xid /\ valid_element xbase.
Proof.
  intros c c' s H H'. apply valid_iff in H, H'.
  refine (conj _ (conj _ (conj _ (conj _ (conj _ (conj _ _)))))); apply valid_iff.
  - now apply og_add.
  - now apply og_neg.
  - apply og_add; auto. now apply (og_neg c').
  - now apply og_mul.
  - apply og_mul, og_base.
  - apply og_id.
  - apply og_base.
Qed.

(** The curve points are a commutative group. *)
Theorem C33_curve_group : forall P Q R, eadd P (eadd Q R) = eadd (eadd P Q) R /\ eadd P Q = eadd Q P /\ eadd e0 P = P /\ eadd (eneg P) P = e0.
Proof. intros. refine (conj (eadd_assoc _ _ _) (conj (eadd_comm _ _) (conj (eadd_0_l _) (eadd_neg_l _)))). Qed.
(** It is Z/q x Z/8. *)
Theorem C33_structure : forall P, exists a j, 0 <= a < q25519 /\ 0 <= j < 8 /\ P = eadd (emul a eB) (emul j eT) /\
  forall a' j', 0 <= a' < q25519 -> 0 <= j' < 8 -> P = eadd (emul a' eB) (emul j' eT) -> a' = a /\ j' = j.
Proof.
  intros P. destruct (all_comb P) as (a & j & ->). exists (a mod q25519), (j mod 8).
  assert (0 < q25519) by (rewrite q_val; lia). pose proof (Z.mod_pos_bound a q25519 ltac:(lia)). pose proof (Z.mod_pos_bound j 8 ltac:(lia)).
  refine (conj _ (conj _ (conj _ _))); auto.
  - apply comb_mod.
  - intros a' j' Ha' Hj' E. change (comb a j = comb a' j') in E. rewrite comb_mod in E. apply comb_inj in E; auto. destruct E; auto.
Qed.

Theorem C33_equivalence : forall c1 c2 c3, valid_element c1 -> valid_element c2 -> valid_element c3 ->
  r_Equal c1 c1 = true /\ r_Equal c1 c2 = r_Equal c2 c1 /\ (r_Equal c1 c2 = true -> r_Equal c2 c3 = true -> r_Equal c1 c3 = true).
Proof.
  intros c1 c2 c3 (P1 & _ & R1 & _) (P2 & _ & R2 & _) (P3 & _ & R3 & _). refine (conj _ (conj _ _)).
  - apply (r_Equal_iff c1 c1 P1 P1); auto using coset_refl.
  - apply Bool.eq_iff_eq_true. rewrite (r_Equal_iff c1 c2 P1 P2), (r_Equal_iff c2 c1 P2 P1) by auto. split; apply coset_sym.
  - rewrite (r_Equal_iff c1 c2 P1 P2), (r_Equal_iff c2 c3 P2 P3), (r_Equal_iff c1 c3 P1 P3) by auto. apply coset_trans.
Qed.
Theorem C33_congruence : forall c1 c2 d1 d2 s, valid_element c1 -> valid_element c2 -> valid_element d1 -> valid_element d2 ->
  r_Equal c1 c2 = true -> r_Equal d1 d2 = true ->
  r_Equal (r_Add c1 d1) (r_Add c2 d2) = true /\ r_Equal (r_Negate c1) (r_Negate c2) = true /\ r_Equal (r_ScalarMult s c1) (r_ScalarMult s c2) = true.
Proof.
  intros c1 c2 d1 d2 s (P1 & _ & R1 & _) (P2 & _ & R2 & _) (Q1 & _ & T1 & _) (Q2 & _ & T2 & _) E F.
  apply (r_Equal_iff c1 c2 P1 P2) in E; auto. apply (r_Equal_iff d1 d2 Q1 Q2) in F; auto. refine (conj _ (conj _ _)).
  - apply (r_Equal_iff _ _ (eadd P1 Q1) (eadd P2 Q2)); [now apply rep_add|now apply rep_add|now apply coset_add].
  - apply (r_Equal_iff _ _ (eneg P1) (eneg P2)); [now apply rep_neg|now apply rep_neg|now apply coset_neg].
  - apply (r_Equal_iff _ _ (emul (fz s) P1) (emul (fz s) P2)); [apply rep_mul; auto; apply fz_Fq_range|apply rep_mul; auto; apply fz_Fq_range|now apply coset_mul].
Qed.
(** Scalar multiplication is a module action and every element is one multiple of B, by one scalar. *)
Theorem C33_module : forall a b c c', valid_element c -> valid_element c' ->
  r_Equal (r_ScalarMult (a + b)%Fq c) (r_Add (r_ScalarMult a c) (r_ScalarMult b c)) = true /\
  r_Equal (r_ScalarMult (a * b)%Fq c) (r_ScalarMult a (r_ScalarMult b c)) = true /\
  r_Equal (r_ScalarMult a (r_Add c c')) (r_Add (r_ScalarMult a c) (r_ScalarMult a c')) = true /\
  r_Equal (r_ScalarMult 1%Fq c) c = true /\ r_Equal (r_ScalarMult 0%Fq c) xid = true.
Proof.
  intros a b c c' H H'. apply valid_iff in H, H'. pose proof ristretto_laws as L.
  refine (conj _ (conj _ (conj _ (conj _ _)))).
  - exact (@gsmul_add_l ristretto_group ristretto_laws a b (el c H)).
  - exact (@gsmul_mul ristretto_group ristretto_laws a b (el c H)).
  - exact (@gsmul_add_r ristretto_group ristretto_laws a (el c H) (el c' H')).
  - exact (@gsmul_1 ristretto_group ristretto_laws (el c H)).
  - exact (@gsmul_0 ristretto_group ristretto_laws (el c H)).
Qed.
Theorem C33_prime_order : forall c, valid_element c -> exists a : Fq, r_Equal c (r_ScalarBaseMult a) = true /\
  forall a', r_Equal c (r_ScalarBaseMult a') = true -> a' = a.
Proof.
  intros c H. apply valid_iff in H. pose proof ristretto_laws as L. destruct (@gb_gen ristretto_group ristretto_laws (el c H)) as [a Ha]. exists a. split; [exact Ha|].
  intros a' Ha'. apply (@gb_inj ristretto_group ristretto_laws a' a). transitivity (el c H : @G ristretto_group); [symmetry; exact Ha'|exact Ha].
Qed.
(** Everything proved about a group satisfying the laws holds for this one. *)
Theorem C33_instance : group_laws ristretto_group.
Proof. exact ristretto_laws. Qed.

(** ** C42 *)
Theorem C42_map : forall t, exists c P, mapToPoint t = Ret c /\ denotes c P /\ valid_element c /\ elligator t P.
Proof.
  intros t. destruct (map_ok t) as (c & P & E & R & V & S'). exists c, P. refine (conj E (conj R (conj _ S'))).
  apply valid_iff. exists P. exact (conj R V).
Qed.
Theorem C42_uniform : forall b, List.length b = 64%nat -> exists c P1 P2,
  r_SetUniformBytes b = Ret c /\ valid_element c /\ denotes c (eadd P1 P2) /\
  elligator (pof (le_val (firstn 32 b) mod 2 ^ 255)) P1 /\ elligator (pof (le_val (skipn 32 b) mod 2 ^ 255)) P2.
Proof.
  intros b Hl. destruct (uniform_ok b Hl) as (c & P1 & P2 & E & R & V & S1 & S2). exists c, P1, P2.
  refine (conj E (conj _ (conj R (conj S1 S2)))). apply valid_iff. exists (eadd P1 P2). exact (conj R V).
Qed.
Theorem C42_length : forall b, List.length b <> 64%nat -> exists e, r_SetUniformBytes b = Fail e.
Proof. intros b H. unfold r_SetUniformBytes. rewrite (proj2 (Nat.eqb_neq _ _) H). eexists. reflexivity. Qed.
(** The specification leaves no choice. *)
Theorem C42_map_unique : forall t P Q, elligator t P -> elligator t Q -> P = Q.
Proof.
  intros t P Q. unfold elligator. cbv zeta. set (r := (sqrtM1 * (t * t))%Fp).
  set (u := ((r + 1) * (1 - ed_d * ed_d))%Fp). set (v := ((- (1) - r * ed_d) * (r + ed_d))%Fp).
  intros (s & c & A & N0 & EY & a & A1 & A2 & EX) (s' & c' & A' & N0' & EY' & a' & A1' & A2' & EX').
  assert (aE : a' = a).
  { assert (- a' = - a)%Fp as K.
    { apply nonneg_sqr; [rewrite (proj2 (even_res _) A2), (proj2 (even_res _) A2'); reflexivity|].
      transitivity (a' * a')%Fp; [ring|]. rewrite A1', <- A1. ring. }
    transitivity (- - a')%Fp; [ring|]. rewrite K. ring. }
  assert (UN : u <> 0%Fp).
  { unfold u. apply Fp_mul_neq0.
    - intros K. apply (not_nonres sqrtM1 t); [|apply sqrtM1_neq0]. rewrite sqrtM1_sq. fold r.
      transitivity (r + 1 - 1)%Fp; [ring|]. rewrite K. ring.
    - intros K. assert ((1 + ed_d) * (ed_d - 1) = 0)%Fp as K' by (transitivity (- (1 - ed_d * ed_d))%Fp; [ring|]; rewrite K; ring).
      apply Fp_integral in K' as [K'|K']; [now apply amd_neq0|now apply d_neq1]. }
  assert (c' = c /\ s' = s) as [-> ->].
  { destruct A as [(-> & S1 & S2)|(-> & S0 & S1 & S2)], A' as [(-> & S1' & S2')|(-> & S0' & S1' & S2')].
    - split; auto. apply nonneg_sqr; [rewrite (proj2 (even_res _) S2), (proj2 (even_res _) S2'); reflexivity|].
      apply (Fp_cancel v); [|congruence]. intros K. apply UN. rewrite <- S1, K. ring.
    - exfalso. apply S0'. eauto.
    - exfalso. apply S0. eauto.
    - split; auto. destruct S1 as [(V0 & ->)|(VN & S1)], S1' as [(V0' & ->)|(VN' & S1')]; auto; try contradiction.
      assert (- s' = - s)%Fp as K.
      { apply nonneg_sqr; [rewrite (proj2 (even_res _) S2), (proj2 (even_res _) S2'); reflexivity|].
        transitivity (s' * s')%Fp; [ring|]. transitivity (s * s)%Fp; [|ring]. apply (Fp_cancel v); [exact VN|congruence]. }
      transitivity (- - s')%Fp; [ring|]. rewrite K. ring. }
  subst a'. set (N := (c * (r - 1) * ((ed_d - 1) * (ed_d - 1)) - v)%Fp) in *.
  assert (H3 : (1 + s * s <> 0)%Fp).
  { intros K. apply pof_2_neq0. transitivity ((1 + s * s) + (1 - s * s))%Fp; [ring|]. rewrite <- EY, K. ring. }
  assert (AN : a <> 0%Fp).
  { intros K. apply amd_neq0. transitivity (- (- ed_d - 1))%Fp; [ring|]. rewrite <- A1, K. ring. }
  apply ept_ext.
  - apply (Fp_cancel (N * a)%Fp); [now apply Fp_mul_neq0|]. transitivity (ex P * (N * a))%Fp; [ring|]. rewrite EX, <- EX'. ring.
  - apply (Fp_cancel (1 + s * s)%Fp); [exact H3|]. transitivity (ey P * (1 + s * s))%Fp; [ring|]. rewrite EY, <- EY'. ring.
Qed.
(** The result depends only on the two 255 bit halves modulo p. *)
Theorem C42_halves : forall b b', List.length b = 64%nat -> List.length b' = 64%nat ->
  (le_val (firstn 32 b) mod 2 ^ 255) mod p25519 = (le_val (firstn 32 b') mod 2 ^ 255) mod p25519 ->
  (le_val (skipn 32 b) mod 2 ^ 255) mod p25519 = (le_val (skipn 32 b') mod 2 ^ 255) mod p25519 ->
  r_SetUniformBytes b = r_SetUniformBytes b'.
Proof.
  intros b b' Hl Hl' H1 H2. unfold r_SetUniformBytes. rewrite Hl, Hl'.
  assert (fe_set_bytes (firstn 32 b) = fe_set_bytes (firstn 32 b')) as -> by (apply pof_check; exact H1).
  assert (fe_set_bytes (skipn 32 b) = fe_set_bytes (skipn 32 b')) as -> by (apply pof_check; exact H2). reflexivity.
Qed.

(** ** Concrete cases *)
(** The generator encodes to the vector of RFC 9496 A.1. *)
Definition base_vector : list byte :=
  [xe2;xf2;xae;x0a;x6a;xbc;x4e;x71;xa8;x84;xa9;x61;xc5;x00;x51;x5f;x58;xe3;x0b;x6a;xa5;x82;xdd;x8d;xb6;xa6;x59;x45;xe0;x8d;x2d;x76].
Lemma base_vector_ok : r_Bytes xbase = base_vector.
Proof. vm_compute. reflexivity. Qed.
Lemma valid_base : valid_element xbase. Proof. apply valid_iff, og_base. Qed.
Lemma valid_id : valid_element xid. Proof. apply valid_iff, og_id. Qed.
Example C32_example : exists c, r_SetCanonicalBytes base_vector = Ret c /\ r_Equal c xbase = true /\ r_Equal c xid = false.
Proof.
  rewrite <- base_vector_ok. destruct (C32_round_trip xbase valid_base) as (c & A & V & B). exists c. refine (conj A (conj B _)).
  destruct (r_Equal c xid) eqn:E; auto. exfalso.
  assert (r_Equal xbase xid = true) as K.
  { destruct (C33_equivalence xbase c xid valid_base V valid_id) as (_ & S' & T). apply T; auto. now rewrite S'. }
  apply (C32_equal_spec xbase xid eB e0 rep_base rep_id) in K. unfold same_element, four_torsion in K.
  rewrite eneg_0, eadd_0_r in K. apply B_order in K. apply Z.divide_pos_le in K; [|lia]. rewrite q_val in K. lia.
Qed.
(** A negative and a non-canonical encoding are refused. *)
Example C32_rejects : (exists e, r_SetCanonicalBytes (x01 :: repeat x00 31) = Fail e) /\ (exists e, r_SetCanonicalBytes (repeat xff 32) = Fail e).
Proof. split; eexists; vm_compute; reflexivity. Qed.
(** The points of order 4 are other representatives of the identity, and eT is not an element. *)
Example C33_example : same_element eT2 e0 /\ eT2 <> e0 /\ ~ (exists Q, eT = eadd Q Q) /\ valid_element xbase /\ ~ same_element eB e0.
Proof.
  refine (conj _ (conj _ (conj _ (conj valid_base _)))).
  - unfold same_element, four_torsion. rewrite eneg_0, eadd_0_r. apply T2_4.
  - intros E. apply T4_neq0. rewrite <- T2_double, E. apply eadd_0_l.
  - intros [Q E]. apply (comb_odd 0 0). exists Q. unfold comb. rewrite emul_0, eadd_0_l. exact E.
  - unfold same_element, four_torsion. rewrite eneg_0, eadd_0_r. intros K. apply B_order in K. apply Z.divide_pos_le in K; [|lia]. rewrite q_val in K. lia.
Qed.
Example C42_example : exists c, r_SetUniformBytes (repeat x07 64) = Ret c /\ r_SetUniformBytes (repeat x07 31 ++ [x87] ++ repeat x07 32) = Ret c.
Proof.
  destruct (C42_uniform (repeat x07 64) eq_refl) as (c & _ & _ & E & _). exists c. split; [exact E|]. rewrite <- E.
  apply C42_halves; vm_compute; reflexivity.
Qed.

Print Assumptions C32_encoding.
Print Assumptions C32_round_trip.
Print Assumptions C33_instance.
Print Assumptions C33_structure.
Print Assumptions C42_uniform.
Print Assumptions C42_map_unique.
