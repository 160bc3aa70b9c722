(** C03: keys and signatures are compatible with standard Ed25519 (crypto/ed25519, RFC 8032). *)
From Coq Require Import ZArith Znumtheory Lia List Bool String Ring Field.
From Coq.Strings Require Import Byte.
From Verif Require Import ZField Primes Bytes Scalar Go Group Fp Edwards EdPoint EdEven Ristretto RistrettoFacts RistrettoDecode RistrettoMap RistrettoGroup
  Ed25519 Spec_Ed25519 Eddsa.
Import ListNotations.
Local Open Scope Z_scope.
Local Opaque fadd fsub fmul fopp finv fdiv fof pof f0 f1.
Local Existing Instance ristretto_group.
Local Existing Instance ristretto_laws.

(** ** Point.SetBytes inverts Point.Bytes *)
Lemma vv_neq0 y : (y * y * ed_d + 1 <> 0)%Fp.
Proof.
  intros E. assert (y = 0%Fp) as Y.
  { apply (d_times_sq _ sqrtM1). rewrite sqrtM1_sq. transitivity ((y * y * ed_d + 1) - 1)%Fp; [ring|]. rewrite E. ring. }
  apply Fp_1_neq_0. rewrite <- E, Y. ring.
Qed.
Lemma set_ed_bytes P : exists c, point_set_bytes (ed_bytes P) = Some c /\ rep c P.
Proof.
  unfold point_set_bytes. rewrite ed_bytes_len. cbn [Nat.eqb negb].
  assert (fe_set_bytes (ed_bytes P) = ey P) as ->.
  { unfold fe_set_bytes. rewrite ed_val. transitivity (pof (fz (ey P))); [|exact (fof_fz (ey P))]. f_equal.
    pose proof (fz_Fp_range (ey P)). pose proof p_lt_255.
    destruct (is_neg (ex P)); [rewrite <- Z.add_mod_idemp_r, Z.mod_same, Z.add_0_r|rewrite Z.add_0_r]; try lia; apply Z.mod_small; lia. }
  assert (Z.testbit (le_val (ed_bytes P)) 255 = is_neg (ex P)) as ->.
  { rewrite ed_val. pose proof (fz_Fp_range (ey P)). pose proof p_lt_255. apply Z.b2z_inj. rewrite Z.testbit_spec' by lia.
    destruct (is_neg (ex P)); cbn [Z.b2z].
    - rewrite <- (Z.mul_1_l (2 ^ 255)) at 1. rewrite Z.div_add, (Z.div_small (fz (ey P))) by lia. reflexivity.
    - rewrite Z.add_0_r, Z.div_small by lia. reflexivity. }
  pose proof (ept_curve P) as C. pose proof (vv_neq0 (ey P)) as VN.
  assert (XV : (ex P * ex P * (ey P * ey P * ed_d + 1) = ey P * ey P - 1)%Fp).
  { unfold on_curve in C. transitivity (ex P * ex P + ((1 + ed_d * (ex P * ex P) * (ey P * ey P)) - 1))%Fp; [ring|]. rewrite <- C. ring. }
  destruct (sqrt_ratio (ey P * ey P - 1)%Fp (ey P * ey P * ed_d + 1)%Fp) as [xx w] eqn:ES.
  pose proof (sqrt_ratio_flag _ _ _ _ ES VN) as FL. apply sqrt_ratio_spec in ES as [NN ES].
  assert (w = true) as ->.
  { apply FL. exists (ex P * (ey P * ey P * ed_d + 1))%Fp. rewrite <- XV. ring. }
  assert (EX : ((ey P * ey P * ed_d + 1) * (xx * xx) = ey P * ey P - 1)%Fp).
  { destruct ES as [(_ & E)|[(E & _)|(E & _)]]; [exact E|discriminate|discriminate]. }
  assert (xx = fabs (ex P)) as ->.
  { apply nonneg_sqr; [rewrite NN, fabs_nonneg; reflexivity|]. rewrite fabs_sqr.
    apply (Fp_cancel (ey P * ey P * ed_d + 1)%Fp); [exact VN|]. rewrite EX, <- XV. ring. }
  cbn [negb]. eexists. split; [reflexivity|].
  assert (fe_select (- fabs (ex P))%Fp (fabs (ex P)) (is_neg (ex P)) = ex P) as ->.
  { unfold fe_select, fabs. destruct (is_neg (ex P)); ring. }
  unfold rep. cbn [xX xY xZ xT]. split; [apply Fp_1_neq_0|]. split; [ring|split; ring].
Qed.

(** ** Elements as multiples of B *)
(** [x] is in the class of [a]B. *)
Definition is_mult (x : elem) (a : Z) : Prop := exists l, rep (proj1_sig x) (comb a (2 * l)).
Lemma has_mult x : exists a, is_mult x a.
Proof. destruct (proj2_sig x) as (P & R & E). destruct (even_comb P E) as (a & l & ->). exists a, l. exact R. Qed.
Lemma mult_bytes x a : is_mult x a -> gencEd x = ed_bytes (emul a eB).
Proof. intros [l R]. exact (bytesEd_ok _ _ _ R). Qed.
Lemma mult_geq x y a b : is_mult x a -> is_mult y b -> (geq x y <-> (q25519 | a - b)).
Proof. intros [l R] [l' R']. rewrite (geq_iff x y _ _ R R'). apply comb_coset_iff. Qed.
Lemma mult_add x y a b : is_mult x a -> is_mult y b -> is_mult (gadd x y) (a + b).
Proof. intros [l R] [l' R']. exists (l + l'). pose proof (e_add x y _ _ R R') as K. rewrite comb_add in K. replace (2 * (l + l')) with (2 * l + 2 * l') by lia. exact K. Qed.
Lemma mult_neg x a : is_mult x a -> is_mult (gneg x) (- a).
Proof. intros [l R]. exists (- l). pose proof (e_neg x _ R) as K. rewrite comb_neg in K. replace (2 * - l) with (- (2 * l)) by lia. exact K. Qed.
Lemma mult_mul s x a : is_mult x a -> is_mult (gsmul s x) (fz s * a).
Proof. intros [l R]. exists (fz s * l). pose proof (e_mul s x _ R) as K. rewrite comb_mul in K. replace (2 * (fz s * l)) with (fz s * (2 * l)) by lia. exact K. Qed.
Lemma mult_base : is_mult gbase 1.
Proof. exists 0. unfold comb. rewrite emul_0, eadd_0_r, emul_1. apply e_base. Qed.

Lemma emul_B_eq a b : emul a eB = emul b eB <-> (q25519 | a - b).
Proof.
  split.
  - intros H. apply B_order. rewrite emul_sub, H. apply eadd_neg_r.
  - intros [k H]. replace a with (b + k * q25519) by lia. rewrite emul_add, emul_mul, base_q, emul_e0. apply eadd_0_r.
Qed.

Lemma rfc_ed_bytes P : rfc_point (ed_bytes P) P.
Proof.
  split; [apply ed_bytes_len|]. rewrite ed_val. f_equal. unfold is_neg. rewrite (Zmod_odd (fz (ex P))).
  destruct (Z.odd (fz (ex P))); reflexivity.
Qed.
Lemma rfc_point_ed b P : rfc_point b P -> b = ed_bytes P.
Proof.
  intros [E H]. destruct (rfc_ed_bytes P) as [E' H']. apply le_val_inj; congruence.
Qed.
Lemma rfc_point_fun b P Q : rfc_point b P -> rfc_point b Q -> P = Q.
Proof. intros H H'. apply ed_bytes_inj. rewrite <- (rfc_point_ed _ _ H), <- (rfc_point_ed _ _ H'). reflexivity. Qed.

Section C03.
  Context `{Hf : hash_fn} (HH : hash_ok Hf).

  Lemma chal_val R Y m : fz (ComputeChallenge R Y m) = le_val (sha512 (gencEd R ++ gencEd Y ++ m)) mod q25519.
  Proof. unfold ComputeChallenge, challenge_input, pk_ToEd25519, scalar_set_uniform. rewrite HH. reflexivity. Qed.

  (** The equation checked by Verify, over the integers. *)
  Lemma verify_iff Y m s a r : is_mult Y a -> is_mult (sig_R s) r ->
    (Verify Y m s = true <-> (q25519 | fz (ComputeChallenge (sig_R s) Y m) * - a + fz (sig_S s) - r)).
  Proof.
    intros HY HR. unfold Verify. fold (geq (gdsmul (ComputeChallenge (sig_R s) Y m) (gneg Y) (sig_S s)) (sig_R s)).
    apply mult_geq; [|exact HR]. unfold gdsmul, gbmul. apply mult_add; [apply mult_mul, mult_neg, HY|].
    pose proof (mult_mul (sig_S s) gbase 1 mult_base) as K. now rewrite Z.mul_1_r in K.
  Qed.

  Lemma sig_split (s : Signature) : firstn 32 (sig_ToEd25519 s) = gencEd (sig_R s) /\ skipn 32 (sig_ToEd25519 s) = scalar_bytes (sig_S s)
    /\ List.length (sig_ToEd25519 s) = 64%nat.
  Proof.
    unfold sig_ToEd25519. pose proof (gencEd_len (sig_R s)) as Hl.
    rewrite firstn_app, skipn_app, Hl, Nat.sub_diag, firstn_O, skipn_O, app_nil_r, firstn_all2, skipn_all2 by lia.
    rewrite app_length, Hl, scalar_bytes_length. auto.
  Qed.

  (** PublicKey.Verify is crypto/ed25519.Verify on the exported key and signature. *)
  Theorem C03_go : forall (pk : PublicKey) m s, ed25519_Verify (pk_ToEd25519 pk) m (sig_ToEd25519 s) = Ret (Verify pk m s).
  Proof.
    intros pk m s. unfold ed25519_Verify, pk_ToEd25519. destruct (sig_split s) as (-> & -> & ->).
    rewrite gencEd_len. cbn [Nat.eqb negb]. rewrite scalar_canonical_bytes.
    destruct (has_mult pk) as (a & HY). destruct (has_mult (sig_R s)) as (r & HR).
    rewrite (mult_bytes _ _ HY) at 1. destruct (set_ed_bytes (emul a eB)) as (A & -> & RA). f_equal.
    apply Bool.eq_iff_eq_true. rewrite (verify_iff pk m s a r HY HR), bytes_eqb_eq.
    set (k := qof (le_val (sha512 (gencEd (sig_R s) ++ gencEd pk ++ m)))).
    assert (fz (ComputeChallenge (sig_R s) pk m) = fz k) as -> by apply chal_val.
    pose proof (rep_add _ _ _ _ (rep_mul (fz k) _ _ (proj1 (fz_Fq_range k)) (rep_neg _ _ RA)) (rep_mul (fz (sig_S s)) _ _ (proj1 (fz_Fq_range (sig_S s))) rep_base)) as RR.
    rewrite (point_bytes_ok _ _ RR), (mult_bytes _ _ HR).
    rewrite <- emul_opp, <- emul_mul, <- emul_add.
    split; intros E.
    - apply ed_bytes_inj in E. symmetry in E. now apply emul_B_eq in E.
    - f_equal. symmetry. now apply emul_B_eq.
  Qed.

  (** Every standard signature under an exported key is the export of a signature that Verify accepts. *)
  Theorem C03_all_signatures : forall (pk : PublicKey) m b,
    ed25519_Verify (pk_ToEd25519 pk) m b = Ret true <-> exists s, b = sig_ToEd25519 s /\ Verify pk m s = true.
  Proof.
    intros pk m b. split.
    2:{ intros (s & -> & E). rewrite C03_go. now rewrite E. }
    intros E. assert (exists s, b = sig_ToEd25519 s) as (s & ->).
    { revert E. unfold ed25519_Verify, pk_ToEd25519. rewrite gencEd_len. cbn [Nat.eqb negb].
      destruct (Nat.eqb (List.length b) 64) eqn:EL; [|discriminate]. cbn [negb].
      destruct (has_mult pk) as (a & HY). rewrite (mult_bytes _ _ HY) at 1. destruct (set_ed_bytes (emul a eB)) as (A & -> & RA).
      destruct (scalar_set_canonical (skipn 32 b)) as [S'|] eqn:ES; [|discriminate].
      set (k := qof _). intros [= E]. apply bytes_eqb_eq in E.
      pose proof (rep_add _ _ _ _ (rep_mul (fz k) _ _ (proj1 (fz_Fq_range k)) (rep_neg _ _ RA)) (rep_mul (fz S') _ _ (proj1 (fz_Fq_range S')) rep_base)) as RR.
      rewrite (point_bytes_ok _ _ RR) in E. rewrite <- emul_opp, <- emul_mul, <- emul_add in E.
      set (z := fz k * - a + fz S') in *. exists (mkSig (gbmul (qof z)) S'). unfold sig_ToEd25519. cbn [sig_R sig_S].
      pose proof (mult_mul (qof z) gbase 1 mult_base) as K. rewrite Z.mul_1_r in K. unfold gbmul. rewrite (mult_bytes _ _ K).
      rewrite <- (firstn_skipn 32 b) at 1. f_equal.
      - rewrite E. f_equal. rewrite B_mod. reflexivity.
      - symmetry. now apply scalar_bytes_canonical. }
    exists s. split; [reflexivity|]. rewrite C03_go in E. congruence.
  Qed.

  (** RFC 8032 verification, with and without the cofactor. *)
  Lemma rfc_core pk m s a r : is_mult pk a -> is_mult (sig_R s) r ->
    (Verify pk m s = true <-> emul (fz (sig_S s)) eB = eadd (emul r eB) (emul (fz (ComputeChallenge (sig_R s) pk m)) (emul a eB))).
  Proof.
    intros HY HR. rewrite (verify_iff pk m s a r HY HR). rewrite <- emul_mul, <- emul_add, emul_B_eq.
    replace (fz (sig_S s) - (r + fz (ComputeChallenge (sig_R s) pk m) * a)) with (fz (ComputeChallenge (sig_R s) pk m) * - a + fz (sig_S s) - r) by lia.
    reflexivity.
  Qed.
  Lemma app_inv (a b c d : list byte) : a ++ b = c ++ d -> List.length b = List.length d -> a = c /\ b = d.
  Proof.
    intros E Hl. assert (List.length a = List.length c) as Ha.
    { apply (f_equal (@List.length byte)) in E. rewrite !app_length in E. lia. }
    revert c Ha E. induction a as [|x a IH]; intros [|y c] Ha E; cbn in *; try discriminate; auto.
    injection E as -> E. injection Ha as Ha. destruct (IH c Ha E) as [-> ->]. auto.
  Qed.
  Lemma scalar_val s : le_val (scalar_bytes s) = fz s.
  Proof.
    unfold scalar_bytes. rewrite le_val_le_bytes. apply Z.mod_small. pose proof (fz_Fq_range s). pose proof q_lt_256_32.
    change (Z.of_nat 32) with 32. lia.
  Qed.

  Theorem C03_rfc_strict : forall (pk : PublicKey) m s,
    Verify pk m s = true <-> rfc_verify_strict (pk_ToEd25519 pk) m (sig_ToEd25519 s).
  Proof.
    intros pk m s. destruct (has_mult pk) as (a & HY). destruct (has_mult (sig_R s)) as (r & HR).
    rewrite (rfc_core pk m s a r HY HR), chal_val. unfold rfc_verify_strict, pk_ToEd25519, sig_ToEd25519. split.
    - intros E. exists (gencEd (sig_R s)), (scalar_bytes (sig_S s)), (emul a eB), (emul r eB).
      rewrite scalar_val. refine (conj eq_refl (conj (scalar_bytes_length _) (conj _ (conj _ (conj _ E))))).
      + rewrite (mult_bytes _ _ HY). apply rfc_ed_bytes.
      + rewrite (mult_bytes _ _ HR). apply rfc_ed_bytes.
      + apply fz_Fq_range.
    - intros (bR & bS & A & R & E & EL & HA & HB & _ & EQ).
      apply app_inv in E as [<- <-]; [|rewrite EL; apply scalar_bytes_length].
      rewrite (mult_bytes _ _ HY) in HA at 1. rewrite (mult_bytes _ _ HR) in HB.
      assert (A = emul a eB) as -> by (eapply rfc_point_fun; [exact HA|apply rfc_ed_bytes]).
      assert (R = emul r eB) as -> by (eapply rfc_point_fun; [exact HB|apply rfc_ed_bytes]).
      now rewrite scalar_val in EQ.
  Qed.

  Lemma cofactor_B a b : emul 8 (emul a eB) = emul 8 (emul b eB) -> emul a eB = emul b eB.
  Proof.
    rewrite <- !emul_mul, !emul_B_eq. intros D. replace (8 * a - 8 * b) with (8 * (a - b)) in D by lia.
    apply Gauss in D; auto. apply prime_rel_prime; [exact prime_q25519|].
    intros D8. apply Z.divide_pos_le in D8; [|lia]. rewrite q_val in D8. lia.
  Qed.

  Theorem C03_rfc : forall (pk : PublicKey) m s, Verify pk m s = true <-> rfc_verify (pk_ToEd25519 pk) m (sig_ToEd25519 s).
  Proof.
    intros pk m s. destruct (has_mult pk) as (a & HY). destruct (has_mult (sig_R s)) as (r & HR). split.
    - rewrite C03_rfc_strict. intros (bR & bS & A & R & E & EL & HA & HB & HC & EQ). exists bR, bS, A, R.
      refine (conj E (conj EL (conj HA (conj HB (conj HC _))))). cbv zeta in *. rewrite EQ. apply emul_dist.
    - rewrite (rfc_core pk m s a r HY HR), chal_val. unfold rfc_verify, pk_ToEd25519, sig_ToEd25519.
      intros (bR & bS & A & R & E & EL & HA & HB & _ & EQ).
      apply app_inv in E as [<- <-]; [|rewrite EL; apply scalar_bytes_length].
      rewrite (mult_bytes _ _ HY) in HA at 1. rewrite (mult_bytes _ _ HR) in HB.
      assert (A = emul a eB) as -> by (eapply rfc_point_fun; [exact HA|apply rfc_ed_bytes]).
      assert (R = emul r eB) as -> by (eapply rfc_point_fun; [exact HB|apply rfc_ed_bytes]).
      rewrite scalar_val in EQ. cbv zeta in EQ. rewrite <- emul_dist in EQ.
      rewrite <- (emul_mul _ a), <- emul_add in EQ |- *. now apply cofactor_B.
  Qed.
End C03.

(** The exported key of the secret [a] is the RFC 8032 encoding of the point [a]B, so it is a point of
    prime order, and two keys have the same export iff they are Equal. *)
Theorem C03_key : forall a : Fq, rfc_point (pk_ToEd25519 (gbmul a)) (emul (fz a) eB).
Proof.
  intros a. unfold pk_ToEd25519, gbmul. pose proof (mult_mul a gbase 1 mult_base) as K. rewrite Z.mul_1_r in K.
  rewrite (mult_bytes _ _ K). apply rfc_ed_bytes.
Qed.
Theorem C03_key_injective : forall x y : PublicKey, pk_ToEd25519 x = pk_ToEd25519 y <-> geq x y.
Proof. intros x y. apply gencEd_eq. Qed.

(** A signature that both accept and one that both refuse, for every hash function, secret, nonce and message. *)
Definition schnorr `{Hf : hash_fn} (a r : Fq) (m : list byte) : Signature :=
  mkSig (gbmul r) (r + ComputeChallenge (gbmul r) (gbmul a) m * a)%Fq.
Example C03_example : forall (Hf : hash_fn), hash_ok Hf -> forall (a r : Fq) m,
  ed25519_Verify (pk_ToEd25519 (gbmul a)) m (sig_ToEd25519 (schnorr a r m)) = Ret true /\
  ed25519_Verify (pk_ToEd25519 (gbmul a)) m (sig_ToEd25519 (mkSig (gbmul r) (sig_S (schnorr a r m) + 1)%Fq)) = Ret false.
Proof.
  intros Hf HH a r m. rewrite !(C03_go HH). unfold Verify, schnorr. cbn [sig_R sig_S].
  set (k := ComputeChallenge (gbmul r) (gbmul a) m).
  assert (K : forall S', geq (gdsmul k (gneg (gbmul a)) S') (gbmul (k * - a + S')%Fq)).
  { intros S'. apply gb_dsmul. apply gb_neg. }
  split; f_equal.
  - change (geq (gdsmul k (gneg (gbmul a)) (r + k * a)%Fq) (gbmul r)). rewrite K.
    replace (k * - a + (r + k * a))%Fq with r by ring. reflexivity.
  - apply geqb_false. rewrite K. rewrite gb_inj. intros E. apply Fq_1_neq_0.
    transitivity ((k * - a + (r + k * a + 1)) - r)%Fq; [ring|]. rewrite E. ring.
Qed.
(** The exported base point is the one of RFC 8032. *)
Example C03_base : pk_ToEd25519 (gbmul 1%Fq) = x58 :: repeat x66 31.
Proof.
  unfold pk_ToEd25519, gbmul. pose proof (mult_mul 1%Fq gbase 1 mult_base) as K. rewrite Z.mul_1_r in K.
  rewrite (mult_bytes _ _ K), fq_1_z, emul_1. vm_compute. reflexivity.
Qed.

Print Assumptions C03_go.
Print Assumptions C03_all_signatures.
Print Assumptions C03_rfc.
Print Assumptions C03_key.
