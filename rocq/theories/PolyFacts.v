(** Facts about Lagrange coefficients, Polynomial and Exponent. *)
From Coq Require Import ZArith Lia List Bool Ring Field String Setoid Morphisms Permutation.
From Coq.Strings Require Import Byte.
From Verif Require Import ZField Primes Bytes Scalar Go Group Party Poly Spec_Poly Spec_Group PolyAlg.
Import ListNotations.
Local Open Scope Z_scope.

(** ** Lagrange *)
Definition oid (id : ID) (ids : list ID) : list ID := filter (fun m => negb (m =? id)) ids.

Lemma lagrange_fold id ids n d b :
  fold_left (lagrange_step id) ids (n, d, b) =
  (fmul n (Fprod (map idF (oid id ids))), fmul d (Fprod (map (fun m => fsub (idF m) (idF id)) (oid id ids))),
   b || existsb (Z.eqb id) ids).
Proof.
  revert n d b. induction ids as [|p ids IH]; intros n d b; cbn [fold_left].
  - simpl. rewrite orb_false_r. f_equal. f_equal; ring.
  - unfold lagrange_step at 2. rewrite (Z.eqb_sym p id). unfold oid. cbn [filter existsb].
    rewrite (Z.eqb_sym p id). destruct (id =? p) eqn:E; cbn [negb].
    + rewrite IH. simpl. rewrite orb_true_r. reflexivity.
    + rewrite IH. cbn [map Fprod fold_right]. fold Fprod. cbn [orb]. f_equal. f_equal; unfold oid, Fprod; ring.
Qed.

Lemma oid_den id ids : Forall is_u16 ids -> is_u16 id ->
  Fprod (map (fun m => fsub (idF m) (idF id)) (oid id ids)) <> f0.
Proof.
  intros F H. apply Fprod_neq0. intros x Hx. apply in_map_iff in Hx as (m & <- & Hm).
  apply filter_In in Hm as [Hm Hne]. rewrite Forall_forall in F.
  intros E. apply Fq_sub_eq0, idF_inj in E; auto. subst. now rewrite Z.eqb_refl in Hne.
Qed.

Lemma existsb_eqb_In id ids : existsb (Z.eqb id) ids = true <-> In id ids.
Proof.
  rewrite existsb_exists. split; [intros (x & H & E); apply Z.eqb_eq in E; congruence|].
  intros H. exists id. split; auto. apply Z.eqb_refl.
Qed.

(** The value returned by Lagrange. *)
Definition lam (ids : list ID) (id : ID) : Fq :=
  fmul (Fprod (map idF (oid id ids))) (finv (Fprod (map (fun m => fsub (idF m) (idF id)) (oid id ids)))).

Lemma Lagrange_ok ids id : Forall is_u16 ids -> id <> 0 -> In id ids -> Lagrange id ids = Ret (lam ids id).
Proof.
  intros F H0 Hin. unfold Lagrange. apply Z.eqb_neq in H0. rewrite H0, lagrange_fold.
  cbn [orb]. rewrite (proj2 (existsb_eqb_In id ids) Hin). cbn [negb].
  assert (is_u16 id) as Hid by (rewrite Forall_forall in F; auto).
  pose proof (oid_den id ids F Hid) as HD.
  replace (fmul f1 (Fprod (map (fun m => fsub (idF m) (idF id)) (oid id ids))))
    with (Fprod (map (fun m => fsub (idF m) (idF id)) (oid id ids))) by ring.
  apply feqb_neq in HD. rewrite HD. f_equal. unfold lam. ring.
Qed.

Lemma Lagrange_zero ids : Lagrange 0 ids = Fail "party.ID: Lagrange: id was 0 (invalid)".
Proof. reflexivity. Qed.
Lemma Lagrange_absent ids id : id <> 0 -> ~ In id ids -> Lagrange id ids = Fail "party.ID: Lagrange: partyIDs does not containd id".
Proof.
  intros H0 Hin. unfold Lagrange. apply Z.eqb_neq in H0. rewrite H0, lagrange_fold.
  cbn [orb]. destruct (existsb (Z.eqb id) ids) eqn:E; [|reflexivity].
  apply existsb_eqb_In in E. tauto.
Qed.

Lemma valid_u16 ids : valid_ids ids -> Forall is_u16 ids.
Proof. intros [_ F]. eapply Forall_impl; [|exact F]. unfold is_u16; simpl; lia. Qed.

Lemma valid_NoDup_idF ids : valid_ids ids -> NoDup (map idF ids).
Proof.
  intros V. pose proof (valid_u16 ids V) as F. destruct V as [ND _].
  induction ND as [|x l Hx ND IH]; simpl; [constructor|]. inversion F; subst. constructor; auto.
  intros Hin. apply in_map_iff in Hin as (y & E & Hy). rewrite Forall_forall in *.
  apply idF_inj in E; auto. congruence.
Qed.

Lemma others_oid ids id : Forall is_u16 ids -> is_u16 id ->
  others (idF id) (map idF ids) = map idF (oid id ids).
Proof.
  intros F Hid. induction F as [|x l Hx F IH]; simpl; auto. unfold others in *. simpl.
  destruct (feqb (idF x) (idF id)) eqn:E; simpl.
  - apply feqb_eq, idF_inj in E; auto. subst. rewrite Z.eqb_refl. simpl. exact IH.
  - apply feqb_neq in E. destruct (x =? id) eqn:E2; simpl; [apply Z.eqb_eq in E2; congruence|]. now rewrite IH.
Qed.

Lemma lam_lag0 ids id : Forall is_u16 ids -> is_u16 id -> lam ids id = lag0 (idF id) (map idF ids).
Proof. intros F H. unfold lag0, lam. now rewrite (others_oid ids id F H), map_map. Qed.

Lemma lam_interp ids f : valid_ids ids -> (List.length f <= List.length ids)%nat ->
  Fsum (map (fun i => fmul (lam ids i) (peval f (idF i))) ids) = peval f f0.
Proof.
  intros V HL. pose proof (valid_u16 ids V) as F.
  rewrite <- (lagrange_at_0 (map idF ids) f); [|now apply valid_NoDup_idF|now rewrite map_length].
  rewrite map_map. apply Fsum_ext_in. intros i Hi. rewrite Forall_forall in F. rewrite lam_lag0; auto.
  now apply Forall_forall.
Qed.

Lemma valid_in ids i : valid_ids ids -> In i ids -> 1 <= i < 65536.
Proof. intros [_ F] H. rewrite Forall_forall in F. now apply F. Qed.
Lemma valid_in_u16 ids i : valid_ids ids -> In i ids -> is_u16 i.
Proof. intros V H. pose proof (valid_in ids i V H). unfold is_u16; lia. Qed.
Lemma valid_idF_neq0 ids i : valid_ids ids -> In i ids -> idF i <> f0.
Proof.
  intros V H E. apply idF_0 in E; [|eapply valid_in_u16; eauto]. pose proof (valid_in ids i V H). lia.
Qed.

(** Decide [valid_ids] of a literal list. *)
Ltac solve_valid := split; [repeat (apply NoDup_cons; [simpl; intuition lia|]); apply NoDup_nil
  |repeat (apply Forall_cons; [lia|]); apply Forall_nil].

(** ** Scalar polynomials *)
Lemma horner_peval p x acc : fold_left (fun r c => fadd (fmul r x) c) (rev p) acc
  = fadd (peval p x) (fmul acc (fpow x (N.of_nat (List.length p)))).
Proof.
  revert acc. induction p as [|c p IH]; intros acc; simpl rev.
  - cbn. change (fpow x 0) with (@f1 q25519). ring.
  - rewrite fold_left_app. cbn [fold_left]. rewrite IH. cbn [peval List.length].
    replace (N.of_nat (S (List.length p))) with (N.succ (N.of_nat (List.length p))) by lia. rewrite fpow_S. ring.
Qed.

Lemma poly_eval_ok p x : x <> f0 -> poly_eval p x = Ret (peval p x).
Proof.
  intros H. unfold poly_eval. apply feqb_neq in H. rewrite H, horner_peval. f_equal. ring.
Qed.
Lemma poly_eval_0 p : poly_eval p f0 = Panics "attempt to leak secret".
Proof. unfold poly_eval. now rewrite feqb_refl. Qed.

(** ** Exponents *)
Section Exp.
  Context `{L : group_laws}.

  (** Horner form with group coefficients. *)
  Fixpoint gpeval (A : list G) (x : Fq) : G :=
    match A with [] => gid | a :: A' => gadd a (gsmul x (gpeval A' x)) end.

  Global Instance Gsum_proper : Proper (Forall2 geq ==> geq) Gsum.
  Proof. induction 1; simpl; [reflexivity|]. now rewrite H, IHForall2. Qed.

  Lemma Gsum_map_ext {A} (f g : A -> G) l : (forall x, In x l -> geq (f x) (g x)) -> geq (Gsum (map f l)) (Gsum (map g l)).
  Proof.
    induction l; simpl; intros H; [reflexivity|]. rewrite (H a), IHl; auto. reflexivity.
  Qed.
  Lemma gsmul_gid x : geq (gsmul x gid) gid.
  Proof. rewrite gb_id at 1. rewrite gb_smul. replace (x * 0)%Fq with 0%Fq by ring. symmetry. apply gb_id. Qed.
  Lemma Gsum_scale {A} (f : A -> G) c l : geq (Gsum (map (fun x => gsmul c (f x)) l)) (gsmul c (Gsum (map f l))).
  Proof. induction l; simpl; [now rewrite gsmul_gid|]. now rewrite IHl, gsmul_add_r. Qed.
  Lemma Gsum_app l l' : geq (Gsum (l ++ l')) (gadd (Gsum l) (Gsum l')).
  Proof. induction l; simpl; [now rewrite gadd_id_l|]. now rewrite IHl, gadd_assoc. Qed.
  Lemma Gsum_perm l l' : Permutation l l' -> geq (Gsum l) (Gsum l').
  Proof.
    induction 1; simpl; [reflexivity|now rewrite IHPermutation| |etransitivity; eauto].
    rewrite !gadd_assoc. now rewrite (gadd_comm y x).
  Qed.
  Lemma Gsum_gbmul {A} (f : A -> Fq) l : geq (Gsum (map (fun x => gbmul (f x)) l)) (gbmul (Fsum (map f l))).
  Proof. induction l; simpl; [apply gb_id|]. now rewrite IHl, gb_add. Qed.

  Lemma gpeval_gpoly A x : geq (gpeval A x) (gpoly A x).
  Proof.
    unfold gpoly. induction A as [|a A IH]; [reflexivity|].
    cbn [List.length seq map Gsum fold_right gpeval nth]. rewrite <- seq_shift, map_map.
    change (fold_right gadd gid) with Gsum. change (fpow x (N.of_nat 0)) with (@f1 q25519).
    rewrite gsmul_1, IH, <- Gsum_scale. apply gadd_proper; [reflexivity|].
    apply Gsum_map_ext. intros i _. cbn [nth].
    replace (N.of_nat (S i)) with (N.succ (N.of_nat i)) by lia. rewrite fpow_S, gsmul_mul. reflexivity.
  Qed.

  Lemma gpeval_commit p x : geq (gpeval (NewPolynomialExponent p) x) (gbmul (peval p x)).
  Proof.
    induction p as [|c p IH]; simpl; [apply gb_id|].
    rewrite IH, gb_smul, gb_add. reflexivity.
  Qed.

  Global Instance gpeval_proper : Proper (Forall2 geq ==> eq ==> geq) gpeval.
  Proof. intros A B E x ? <-. induction E; simpl; [reflexivity|]. now rewrite H, IHE. Qed.

  (** Every list of elements is the commitment to some polynomial. *)
  Lemma commit_gen (A : list G) : exists p, List.length p = List.length A /\ Forall2 geq A (NewPolynomialExponent p).
  Proof.
    induction A as [|a A (p & H1 & H2)]; [exists []; split; [reflexivity|constructor]|].
    destruct (gb_gen a) as [c E]. exists (c :: p). simpl. split; [congruence|]. now constructor.
  Qed.

  Lemma powers_from_eq prev x n : powers_from prev x n = map (fun i => fmul prev (fpow x (N.of_nat (S i)))) (seq 0 n).
  Proof.
    revert prev. induction n as [|n IH]; intros prev; [reflexivity|]. cbn [powers_from seq map].
    change (fpow x (N.of_nat 1)) with x. apply f_equal2; [reflexivity|]. rewrite IH, <- seq_shift, map_map. apply map_ext. intros i.
      replace (N.of_nat (S (S i))) with (N.succ (N.of_nat (S i))) by lia. rewrite (fpow_S x (N.of_nat (S i))). ring.
  Qed.
  Lemma powers_eq x n : powers x n = map (fun i => fpow x (N.of_nat i)) (seq 0 n).
  Proof.
    destruct n as [|[|n]]; [reflexivity|reflexivity|]. unfold powers. cbn [seq map]. change (fpow x (N.of_nat 1)) with x. apply f_equal2; [reflexivity|]. apply f_equal2; [reflexivity|].
    rewrite powers_from_eq, <- (seq_shift _ 1), <- seq_shift, !map_map. apply map_ext. intros i.
      replace (N.of_nat (S (S i))) with (N.succ (N.of_nat (S i))) by lia. now rewrite (fpow_S x (N.of_nat (S i))).
  Qed.
  Lemma gmsmul_gpoly A x : forall k, geq (gmsmul (map (fun i => fpow x (N.of_nat i)) (seq k (List.length A))) A)
     (gsmul (fpow x (N.of_nat k)) (gpeval A x)).
  Proof.
    induction A as [|a A IH]; intros k; cbn [List.length seq map gmsmul gpeval]; [now rewrite gsmul_gid|].
    rewrite IH, gsmul_add_r, <- gsmul_mul.
    replace (N.of_nat (S k)) with (N.succ (N.of_nat k)) by lia. rewrite fpow_S.
    replace (fpow x (N.of_nat k) * x)%Fq with (x * fpow x (N.of_nat k))%Fq by ring. reflexivity.
  Qed.

  Lemma exp_eval_ok A x : x <> f0 -> exists P, exp_eval A x = Ret P /\ geq P (gpeval A x).
  Proof.
    intros H. unfold exp_eval, exp_eval_var. apply feqb_neq in H. rewrite H. eexists. split; [reflexivity|].
    rewrite powers_eq, gmsmul_gpoly. change (fpow x (N.of_nat 0)) with (@f1 q25519). apply gsmul_1.
  Qed.
  Lemma exp_eval_classic_ok A x : x <> f0 -> exists P, exp_eval_classic A x = Ret P /\ geq P (gpeval A x).
  Proof.
    intros H. unfold exp_eval_classic. apply feqb_neq in H. rewrite H. eexists. split; [reflexivity|].
    assert (forall y P, geq (snd (fold_left (fun (st : Fq * G) A => let '(x0, result) := st in
                (fmul x0 x, gadd result (gdsmul x0 A f0))) A (y, P))) (gadd P (gsmul y (gpeval A x)))) as E.
    { induction A as [|a A IH]; intros y P; cbn [fold_left gpeval snd].
      - now rewrite gsmul_gid, gadd_id_r.
      - rewrite IH. unfold gdsmul. rewrite <- gb_id, gadd_id_r, gsmul_add_r, <- gsmul_mul, gadd_assoc. reflexivity. }
    rewrite E, gadd_id_l. apply gsmul_1.
  Qed.
  Lemma exp_eval_horner_ok A x : x <> f0 -> exists P, exp_eval_horner A x = Ret P /\ geq P (gpeval A x).
  Proof.
    intros H. unfold exp_eval_horner. apply feqb_neq in H. rewrite H. eexists. split; [reflexivity|].
    clear H. induction A as [|a A IH]; simpl rev; [reflexivity|]. rewrite fold_left_app. cbn [fold_left gpeval].
    rewrite IH. unfold gdsmul. rewrite <- gb_id, gadd_id_r. apply gadd_comm.
  Qed.
  Lemma exp_eval_0 A : is_panic (exp_eval A f0) = true.
  Proof. unfold exp_eval, exp_eval_var. now rewrite feqb_refl. Qed.

  Lemma exp_add_ok A B : List.length A = List.length B -> exp_add A B = Ret (map2 gadd A B).
  Proof. intros E. unfold exp_add. now rewrite (proj2 (Nat.eqb_eq _ _) E). Qed.
  Lemma exp_add_fail A B : List.length A <> List.length B -> exp_add A B = Fail "q is not the same length as p".
  Proof. intros E. unfold exp_add. now rewrite (proj2 (Nat.eqb_neq _ _) E). Qed.
  Lemma map2_length {A B C} (f : A -> B -> C) l l' : List.length l = List.length l' -> List.length (map2 f l l') = List.length l.
  Proof. revert l'; induction l; intros [|y l']; simpl; try discriminate; auto. Qed.
  Lemma gpeval_map2 A B x : List.length A = List.length B ->
    geq (gpeval (map2 gadd A B) x) (gadd (gpeval A x) (gpeval B x)).
  Proof.
    revert B. induction A as [|a A IH]; intros [|b B]; simpl; try discriminate; intros E.
    - now rewrite gadd_id_l.
    - rewrite IH by lia. rewrite gsmul_add_r. glog a; glog b; glog (gsmul x (gpeval A x)); glog (gsmul x (gpeval B x)).
      rewrite Elg, Elg0, Elg1, Elg2. gring.
  Qed.
  Lemma map2_gadd_commit p p' : List.length p = List.length p' ->
    Forall2 geq (map2 gadd (NewPolynomialExponent p) (NewPolynomialExponent p')) (NewPolynomialExponent (padd p p')).
  Proof.
    revert p'; induction p; intros [|b B]; simpl; try discriminate; intros E; [constructor|].
    constructor; [apply gb_add|apply IHp; lia].
  Qed.
End Exp.
