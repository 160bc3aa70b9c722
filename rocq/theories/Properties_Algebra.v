(** C05, C24, C25, C26, C27: IDs, Lagrange coefficients, polynomials. *)
From Coq Require Import ZArith Lia List Bool Ring Field String Setoid Morphisms Permutation Sorted.
From Coq.Strings Require Import Byte.
From Verif Require Import ZField Primes Bytes Scalar Go Group ToyGroup Party Poly Spec_Poly Spec_Group PolyAlg PolyFacts.
Import ListNotations.
Local Open Scope Z_scope.

(** * C24 *)
Theorem C24_bytes_round_trip : forall id rest, 0 <= id < 65536 ->
  FromBytes (id_bytes id ++ rest) = Ret id /\ List.length (id_bytes id) = 2%nat.
Proof. intros id rest H. split; [now apply FromBytes_id_bytes|reflexivity]. Qed.

Theorem C24_bytes_canonical : forall b id, FromBytes b = Ret id ->
  0 <= id < 65536 /\ exists rest, b = id_bytes id ++ rest.
Proof.
  intros [|x [|y r]] id; try discriminate. cbn [FromBytes]. injection 1; intros <-.
  split; [apply be16_val_range|]. exists r. unfold id_bytes. now rewrite be16_be16_val.
Qed.

Theorem C24_bytes_short : forall b, (exists e, FromBytes b = Fail e) <-> (List.length b < 2)%nat.
Proof.
  intros [|x [|y r]]; simpl; split; intros H; try lia; try (eexists; reflexivity).
  destruct H; discriminate.
Qed.

(** Big endian: the first byte is the high one. *)
Theorem C24_bytes_big_endian : forall a b rest, FromBytes (a :: b :: rest) = Ret (256 * b2z a + b2z b).
Proof. intros. cbn [FromBytes]. unfold be16_val. now rewrite (Z.mul_comm 256). Qed.

Theorem C24_scalar : forall id, 0 <= id < 65536 ->
  exists s, id_scalar id = Ret s /\ fz s = id.
Proof.
  intros id H. exists (idF id). split; [now apply id_scalar_ok|].
  unfold idF. rewrite fz_qof, Z.mod_small; auto. pose proof q_gt_u16. lia.
Qed.

Theorem C24_scalar_injective : forall a b s, 0 <= a < 65536 -> 0 <= b < 65536 ->
  id_scalar a = Ret s -> id_scalar b = Ret s -> a = b.
Proof.
  intros a b s Ha Hb Ea Eb. rewrite id_scalar_ok in Ea by auto. rewrite id_scalar_ok in Eb by auto.
  apply idF_inj; auto. congruence.
Qed.

Theorem C24_scalar_zero : forall a, 0 <= a < 65536 -> (id_scalar a = Ret f0 <-> a = 0).
Proof.
  intros a Ha. rewrite id_scalar_ok by auto. split.
  - intros E. apply Ret_inj in E. now apply idF_0.
  - intros ->. reflexivity.
Qed.

Example C24_example : id_bytes 258 = [x01; x02] /\ (exists s, id_scalar 65535 = Ret s /\ fz s = 65535).
Proof. split; [reflexivity|]. apply C24_scalar. lia. Qed.

(** * C25 *)
Theorem C25_lagrange_value : forall ids j, Forall is_u16 ids -> j <> 0 -> In j ids ->
  Lagrange j ids = Ret (lagrange_spec j ids).
Proof.
  intros ids j F H0 Hin. rewrite Lagrange_ok by auto. f_equal. unfold lam, lagrange_spec. fold (oid j ids).
  assert (is_u16 j) as Hj by (rewrite Forall_forall in F; auto).
  assert (forall m, In m (oid j ids) -> fsub (idF m) (idF j) <> f0) as HN.
  { intros m Hm E. apply filter_In in Hm as [Hm Hne]. apply Fq_sub_eq0, idF_inj in E; auto.
    - subst. now rewrite Z.eqb_refl in Hne.
    - rewrite Forall_forall in F. auto. }
  assert (forall x l, Fprod (x :: l) = fmul x (Fprod l)) as cons by reflexivity.
  induction (oid j ids) as [|m l IH]; cbn [map].
  - unfold Fprod; simpl. symmetry. transitivity (fmul (finv (@f1 q25519)) f1); [|ring].
    rewrite Fq_inv_l; [reflexivity|apply Fq_1_neq_0].
  - rewrite !cons, <- IH by (intros; apply HN; simpl; auto).
    assert (fsub (idF m) (idF j) <> f0) as N1 by (apply HN; simpl; auto).
    assert (Fprod (map (fun m => fsub (idF m) (idF j)) l) <> f0) as N2.
    { apply Fprod_neq0. intros x Hx. apply in_map_iff in Hx as (y & <- & Hy). apply HN. simpl; auto. }
    fold (idF m). fold (idF j). field. auto.
Qed.

Theorem C25_lagrange_error : forall ids j, Forall is_u16 ids ->
  ((exists e, Lagrange j ids = Fail e) <-> j = 0 \/ ~ In j ids) /\
  is_panic (Lagrange j ids) = false /\
  Lagrange j ids <> Fail "party.ID: Lagrange: denominator was 0".
Proof.
  intros ids j F. destruct (Z.eq_dec j 0) as [->|H0].
  - rewrite Lagrange_zero. repeat split; eauto. discriminate.
  - destruct (in_dec Z.eq_dec j ids) as [Hin|Hin].
    + rewrite Lagrange_ok by auto. repeat split; try discriminate; intros; [destruct H; discriminate|tauto].
    + rewrite Lagrange_absent by auto. repeat split; eauto. discriminate.
Qed.

Theorem C25_interpolation_at_zero : forall ids f, valid_ids ids -> (List.length f <= List.length ids)%nat ->
  exists l, (forall i, In i ids -> Lagrange i ids = Ret (l i)) /\
    Fsum (map (fun i => fmul (l i) (spoly f (qof i))) ids) = spoly f f0.
Proof.
  intros ids f V HL. exists (lam ids). split.
  - intros i Hi. apply Lagrange_ok; auto; [now apply valid_u16|]. pose proof (valid_in ids i V Hi). lia.
  - rewrite <- peval_spoly, <- (lam_interp ids f) by auto. apply Fsum_ext_in. intros i _. now rewrite <- peval_spoly.
Qed.

Theorem C25_coefficients_sum_to_one : forall ids, valid_ids ids -> ids <> [] ->
  exists l, (forall i, In i ids -> Lagrange i ids = Ret (l i)) /\ Fsum (map l ids) = f1.
Proof.
  intros ids V HN. destruct (C25_interpolation_at_zero ids [f1] V) as (l & H1 & H2).
  - destruct ids; simpl; [congruence|lia].
  - exists l. split; auto.
    assert (forall x, spoly [f1] x = f1) as E by (intros; rewrite <- peval_spoly; cbn [peval]; ring).
    rewrite E in H2. rewrite <- H2. apply Fsum_ext_in. intros i _. rewrite E. ring.
Qed.

Example C25_example : valid_ids [2; 7; 65535] /\
  match Lagrange 7 [2; 7; 65535] with
  | Ret x => feqb x (fmul (fdiv (qof 2) (qof (-5))) (fdiv (qof 65535) (qof 65528)))
  | _ => false
  end = true /\
  Lagrange 3 [2; 7; 65535] = Fail "party.ID: Lagrange: partyIDs does not containd id".
Proof.
  split; [|split].
  - solve_valid.
  - vm_compute. reflexivity.
  - vm_compute. reflexivity.
Qed.

(** * C05 *)
(** Any set of at least t+1 distinct non-zero IDs interpolates the secret f(0). *)
Theorem C05_reconstruction : forall t f ids, degree_le t f -> valid_ids ids -> (t + 1 <= List.length ids)%nat ->
  exists l, (forall i, In i ids -> Lagrange i ids = Ret (l i)) /\
    Fsum (map (fun i => fmul (l i) (spoly f (qof i))) ids) = nth 0 f f0.
Proof.
  intros t f ids D V HL. unfold degree_le in D. destruct (C25_interpolation_at_zero ids f V ltac:(lia)) as (l & H1 & H2).
  exists l. split; auto. rewrite H2, <- peval_spoly. apply peval_0.
Qed.

(** Two sharings of degree t that give the same shares to t+1 parties are the same everywhere. *)
Theorem C05_uniqueness : forall t f g ids, degree_le t f -> degree_le t g -> valid_ids ids -> (t + 1 <= List.length ids)%nat ->
  (forall i, In i ids -> spoly f (qof i) = spoly g (qof i)) -> forall x, spoly f x = spoly g x.
Proof.
  intros t f g ids Df Dg V HL H x. unfold degree_le in *. rewrite <- !peval_spoly. apply (poly_agree (map idF ids)).
  - now apply valid_NoDup_idF.
  - rewrite map_length. lia.
  - rewrite map_length. lia.
  - intros r Hr. apply in_map_iff in Hr as (i & <- & Hi). rewrite !peval_spoly. now apply H.
Qed.

(** Perfect secrecy of t shares: shifting the secret by any amount is a bijection on the sharings
    of degree t that leaves the shares of the t parties unchanged. *)
Definition fzip (f h : list Fq) : list Fq := map (fun i => fadd (nth i f f0) (nth i h f0)) (seq 0 (List.length f)).
Lemma fzip_length f h : List.length (fzip f h) = List.length f.
Proof. unfold fzip. now rewrite map_length, seq_length. Qed.
Lemma fzip_nth f h i : (i < List.length f)%nat -> nth i (fzip f h) f0 = fadd (nth i f f0) (nth i h f0).
Proof.
  intros H. unfold fzip. erewrite nth_indep by (now rewrite map_length, seq_length).
  rewrite (map_nth (fun i => fadd (nth i f f0) (nth i h f0)) (seq 0 (List.length f)) 0%nat i), seq_nth; auto.
Qed.
Lemma fzip_eval f h x : List.length h = List.length f -> peval (fzip f h) x = fadd (peval f x) (peval h x).
Proof.
  intros E. rewrite !peval_spoly. unfold spoly. rewrite fzip_length, E, <- Fsum_add. apply Fsum_ext_in.
  intros i Hi. apply in_seq in Hi. rewrite fzip_nth by lia. ring.
Qed.
Definition pad (n : nat) (h : list Fq) : list Fq := h ++ repeat f0 (n - List.length h).
Lemma pad_length n h : (List.length h <= n)%nat -> List.length (pad n h) = n.
Proof. intros. unfold pad. rewrite app_length, repeat_length. lia. Qed.
Lemma pad_eval n h x : peval (pad n h) x = peval h x.
Proof.
  unfold pad. induction h as [|c h IH]; simpl.
  - rewrite Nat.sub_0_r. induction n; simpl; [reflexivity|rewrite IHn; ring].
  - f_equal. f_equal. destruct n; simpl; [now rewrite app_nil_r|]. rewrite <- IH.
    clear IH. destruct (Nat.le_gt_cases (S n) (List.length h)).
    + replace (n - List.length h)%nat with 0%nat by lia. replace (S n - List.length h)%nat with 0%nat by lia. reflexivity.
    + replace (S n - List.length h)%nat with (S (n - List.length h)) by lia.
      assert (forall l k, peval (l ++ repeat f0 k) x = peval l x) as Hz.
      { clear. induction l; intros k; simpl; [induction k; simpl; [reflexivity|rewrite IHk; ring]|now rewrite IHl]. }
      now rewrite !Hz.
Qed.

Theorem C05_perfect_secrecy : forall t ids delta, valid_ids ids -> (List.length ids <= t)%nat ->
  exists shift unshift : list Fq -> list Fq, forall f, List.length f = S t ->
    List.length (shift f) = S t /\ unshift (shift f) = f /\
    List.length (unshift f) = S t /\ shift (unshift f) = f /\
    nth 0 (shift f) f0 = fadd (nth 0 f f0) delta /\
    forall i, In i ids -> spoly (shift f) (qof i) = spoly f (qof i).
Proof.
  intros t ids delta V HL.
  destruct (poly_through_points (map idF ids) (fun _ => f0) delta) as (h & H1 & H2 & H3).
  { now apply valid_NoDup_idF. }
  { intros Hin. apply in_map_iff in Hin as (i & E & Hi). now apply (valid_idF_neq0 ids i V Hi). }
  rewrite map_length in H1. set (h' := pad (S t) h).
  assert (List.length h' = S t) as Hh by (apply pad_length; lia).
  exists (fun f => fzip f h'), (fun f => fzip f (map fopp h')). intros f Hf.
  assert (forall a b : list Fq, List.length a = List.length b -> (forall i, nth i a f0 = nth i b f0) -> a = b) as ext.
  { intros a b Hab Hn. apply (nth_ext a b f0 f0); auto. }
  assert (forall i, nth i (map fopp h') f0 = fopp (nth i h' f0)) as Hopp.
  { intros i. destruct (Nat.lt_ge_cases i (List.length h')).
    - rewrite (nth_indep _ _ (fopp f0)) by (now rewrite map_length). apply map_nth.
    - rewrite !nth_overflow; try (rewrite ?map_length; lia). ring. }
  split; [now rewrite fzip_length|]. split.
  { apply (nth_ext _ _ f0 f0); rewrite !fzip_length; auto. intros i Hi.
    rewrite !fzip_nth by (rewrite ?fzip_length; lia). rewrite Hopp. ring. }
  split; [now rewrite fzip_length|]. split.
  { apply (nth_ext _ _ f0 f0); rewrite !fzip_length; auto. intros i Hi.
    rewrite !fzip_nth by (rewrite ?fzip_length; lia). rewrite Hopp. ring. }
  split.
  { rewrite fzip_nth by lia. f_equal. rewrite <- peval_0. unfold h'. now rewrite pad_eval. }
  intros i Hi. rewrite <- !peval_spoly, fzip_eval by lia. unfold h'. rewrite pad_eval.
  rewrite (H3 (qof i)); [ring|]. apply in_map_iff. exists i. auto.
Qed.

(** In particular every candidate secret is consistent with any t shares. *)
Corollary C05_any_secret_possible : forall t f ids s, List.length f = S t -> valid_ids ids -> (List.length ids <= t)%nat ->
  exists g, List.length g = S t /\ nth 0 g f0 = s /\ forall i, In i ids -> spoly g (qof i) = spoly f (qof i).
Proof.
  intros t f ids s Hf V HL.
  destruct (C05_perfect_secrecy t ids (fsub s (nth 0 f f0)) V HL) as (sh & un & H).
  destruct (H f Hf) as (H1 & _ & _ & _ & H5 & H6). exists (sh f). repeat split; auto. rewrite H5. ring.
Qed.

Example C05_example : degree_le 2 [qof 5; qof 11; qof 3] /\ valid_ids [9; 4; 1] /\ (2 + 1 <= List.length [9;4;1])%nat.
Proof. split; [unfold degree_le; simpl; lia|]. split; [solve_valid|simpl; lia]. Qed.

(** * C26 *)
Theorem C26_NewIDSlice : forall l, Permutation l (NewIDSlice l) /\ StronglySorted Z.le (NewIDSlice l).
Proof. intros l. split; [apply NewIDSlice_perm|apply NewIDSlice_sorted]. Qed.

(** The result is the only sorted permutation, so any correct sort gives it. *)
Theorem C26_NewIDSlice_unique : forall l l', Permutation l l' -> StronglySorted Z.le l' -> l' = NewIDSlice l.
Proof.
  intros l l' P S. apply sorted_perm_unique; auto; [apply NewIDSlice_sorted|].
  transitivity l; [now symmetry|apply NewIDSlice_perm].
Qed.

Theorem C26_Contains : forall ids id, StronglySorted Z.le ids -> (Contains ids id = true <-> In id ids).
Proof. intros. now apply Contains_In. Qed.

(** On any slice, sorted or not: no out-of-range access, and a positive answer is right. *)
Theorem C26_Contains_safe : forall ids id,
  Contains_checked ids id = Ret (Contains ids id) /\ (Contains ids id = true -> In id ids).
Proof. intros. split; [apply Contains_checked_ok|apply Contains_true_In]. Qed.

Theorem C26_IsSubsetOf : forall a b, StronglySorted Z.le b -> (IsSubsetOf a b = true <-> incl a b).
Proof. intros. now apply IsSubsetOf_incl. Qed.

Theorem C26_Equal : forall a b, ids_equal a b = true <-> a = b.
Proof. apply ids_equal_eq. Qed.

(** N is the length as long as it fits in 16 bits. *)
Theorem C26_N : forall ids, N_ids ids = Z.of_nat (List.length ids) <-> Z.of_nat (List.length ids) < 65536.
Proof.
  intros ids. unfold N_ids, u16. split; intros H.
  - rewrite <- H. apply Z.mod_pos_bound. lia.
  - apply Z.mod_small. lia.
Qed.

Example C26_example : NewIDSlice [7; 3; 9; 1] = [1; 3; 7; 9] /\ Contains [1; 3; 7; 9] 7 = true /\
  Contains [1; 3; 7; 9] 8 = false /\ IsSubsetOf [9; 3] [1; 3; 7; 9] = true /\ Contains [9; 1] 9 = false.
Proof. repeat split. Qed.

(** * C27 *)
Theorem C27_evaluate : forall p x,
  (x <> f0 -> poly_eval p x = Ret (spoly p x)) /\ is_panic (poly_eval p f0) = true.
Proof.
  intros p x. split; [intros H; rewrite poly_eval_ok by auto; f_equal; apply peval_spoly|now rewrite poly_eval_0].
Qed.

Theorem C27_new_polynomial : forall r k d c, 0 <= d < 65535 ->
  exists p, NewPolynomial r k d c = Ret p /\ Z.of_nat (List.length p) = d + 1 /\ poly_degree p = d /\ poly_constant p = Ret c /\
    forall i, (i < Z.to_nat d)%nat -> nth (S i) p f0 = SetScalarRandom r (k + i).
Proof.
  intros r k d c H. unfold NewPolynomial, u16. rewrite Z.mod_small by lia.
  destruct (Z.eqb_spec (d + 1) 0); [lia|]. eexists. split; [reflexivity|].
  cbn [List.length poly_constant]. rewrite map_length, seq_length.
  split; [lia|]. split; [|split; [reflexivity|]].
  - unfold poly_degree, u16. cbn [List.length]. rewrite map_length, seq_length.
    rewrite Nat2Z.inj_succ, Z2Nat.id by lia. rewrite (Z.mod_small (Z.succ d)) by lia. rewrite Z.mod_small; lia.
  - intros i Hi. cbn [nth]. rewrite (nth_indep _ f0 (SetScalarRandom r (k + 0))) by (now rewrite map_length, seq_length).
    rewrite (map_nth (fun i => SetScalarRandom r (k + i)) (seq 0 (Z.to_nat d)) 0%nat i), seq_nth; auto.
Qed.

Section C27.
  Context `{L : group_laws}.

  Theorem C27_exponent_evaluate : forall A x, x <> f0 ->
    exists P1 P2 P3, exp_eval_classic A x = Ret P1 /\ exp_eval_var A x = Ret P2 /\ exp_eval_horner A x = Ret P3 /\
      geq P1 (gpoly A x) /\ geq P2 (gpoly A x) /\ geq P3 (gpoly A x).
  Proof.
    intros A x H. destruct (exp_eval_classic_ok A x H) as (P1 & E1 & F1).
    destruct (exp_eval_ok A x H) as (P2 & E2 & F2). destruct (exp_eval_horner_ok A x H) as (P3 & E3 & F3).
    exists P1, P2, P3. rewrite <- gpeval_gpoly. auto 10.
  Qed.

  Theorem C27_exponent_evaluate_zero : forall A,
    is_panic (exp_eval_classic A f0) = true /\ is_panic (exp_eval_var A f0) = true /\
    is_panic (exp_eval_horner A f0) = true /\ is_panic (exp_eval A f0) = true.
  Proof.
    intros A. unfold exp_eval, exp_eval_classic, exp_eval_var, exp_eval_horner. rewrite feqb_refl. auto.
  Qed.

  (** Committing commutes with evaluating. *)
  Theorem C27_commitment : forall p x, x <> f0 ->
    exists P s, exp_eval (NewPolynomialExponent p) x = Ret P /\ poly_eval p x = Ret s /\ geq P (gbmul s).
  Proof.
    intros p x H. destruct (exp_eval_ok (NewPolynomialExponent p) x H) as (P & E & F).
    exists P, (peval p x). rewrite poly_eval_ok by auto. split; auto. split; auto. rewrite F. apply gpeval_commit.
  Qed.

  Theorem C27_add : forall A B,
    (List.length A = List.length B -> exists C, exp_add A B = Ret C /\ List.length C = List.length A /\
       forall x, geq (gpoly C x) (gadd (gpoly A x) (gpoly B x))) /\
    (List.length A <> List.length B -> exists e, exp_add A B = Fail e).
  Proof.
    intros A B. split; intros H.
    - exists (map2 gadd A B). rewrite exp_add_ok by auto. rewrite map2_length by auto. repeat split.
      intros x. rewrite <- !gpeval_gpoly. now apply gpeval_map2.
    - rewrite exp_add_fail by auto. eauto.
  Qed.

  Lemma exp_fold_ok : forall Bs A, Forall (fun B => List.length B = List.length A) Bs ->
    exists C, ofold exp_add A Bs = Ret C /\ List.length C = List.length A /\
      forall x, geq (gpeval C x) (gadd (gpeval A x) (Gsum (map (fun B => gpeval B x) Bs))).
  Proof.
    induction Bs as [|B Bs IH]; intros A F; cbn [ofold].
    - exists A. repeat split. intros x. simpl. now rewrite gadd_id_r.
    - inversion F; subst. rewrite exp_add_ok by auto. cbn [obind].
      assert (List.length (map2 gadd A B) = List.length A) as E by now apply map2_length.
      destruct (IH (map2 gadd A B)) as (C & H1' & H2' & H3').
      { rewrite E. auto. }
      exists C. rewrite H1', H2', E. repeat split. intros x. rewrite H3'. cbn [map Gsum fold_right]. fold Gsum.
      rewrite gpeval_map2 by auto. now rewrite gadd_assoc.
  Qed.
  Lemma exp_fold_fail : forall Bs A, ~ Forall (fun B => List.length B = List.length A) Bs -> exists e, ofold exp_add A Bs = Fail e.
  Proof.
    induction Bs as [|B Bs IH]; intros A F; cbn [ofold].
    - exfalso. apply F. constructor.
    - destruct (Nat.eq_dec (List.length A) (List.length B)) as [E|E].
      + rewrite exp_add_ok by auto. cbn [obind]. apply IH. rewrite map2_length by auto. intros X. apply F. constructor; auto.
      + rewrite exp_add_fail by auto. simpl. eauto.
  Qed.

  (** Sum succeeds exactly on polynomials of one length and commutes with evaluation. *)
  Theorem C27_sum : forall A As,
    (Forall (fun B => List.length B = List.length A) As -> exists C, exp_sum (A :: As) = Ret C /\ List.length C = List.length A /\
       forall x, geq (gpoly C x) (Gsum (map (fun B => gpoly B x) (A :: As)))) /\
    (~ Forall (fun B => List.length B = List.length A) As -> exists e, exp_sum (A :: As) = Fail e).
  Proof.
    intros A As. split; intros H.
    - destruct (exp_fold_ok As A H) as (C & H1 & H2 & H3). exists C. split; auto. split; auto. intros x.
      rewrite <- gpeval_gpoly, H3. cbn [map Gsum fold_right]. fold Gsum. rewrite gpeval_gpoly.
      apply gadd_proper; [reflexivity|]. apply Gsum_map_ext. intros B _. apply gpeval_gpoly.
    - now apply exp_fold_fail.
  Qed.

  Theorem C27_evaluate_multi : forall A ids, valid_ids ids ->
    exists m, EvaluateMulti A ids = Ret m /\ map fst m = ids /\
      Forall (fun p => geq (snd p) (gpoly A (qof (fst p)))) m.
  Proof.
    intros A ids V. unfold EvaluateMulti.
    assert (forall l acc, incl l ids -> exists m,
      ofold (fun acc id => obind (id_scalar id) (fun s => obind (exp_eval A s) (fun e => Ret (acc ++ [(id, e)])))) acc l = Ret (acc ++ m)
      /\ map fst m = l /\ Forall (fun p => geq (snd p) (gpoly A (qof (fst p)))) m) as H.
    { induction l as [|i l IH]; intros acc Hl; cbn [ofold].
      - exists []. rewrite app_nil_r. auto.
      - assert (In i ids) as Hi by (apply Hl; simpl; auto).
        rewrite id_scalar_ok by (eapply valid_in_u16; eauto). cbn [obind].
        destruct (exp_eval_ok A (idF i) (valid_idF_neq0 _ _ V Hi)) as (P & E & F). rewrite E. cbn [obind].
        destruct (IH (acc ++ [(i, P)])) as (m & H1 & H2 & H3); [intros y Hy; apply Hl; simpl; auto|].
        exists ((i, P) :: m). rewrite H1, <- app_assoc. cbn [map fst]. rewrite H2. repeat split. constructor; auto.
        cbn [fst snd]. rewrite F. apply gpeval_gpoly. }
    destruct (H ids [] (incl_refl _)) as (m & H1 & H2 & H3). exists m. auto.
  Qed.
End C27.

Example C27_example :
  match poly_eval [qof 5; qof 3; qof 2] (qof 4) with Ret x => fz x | _ => -1 end = 49 /\
  match @exp_sum toy_group [[qof 1; qof 2]; [qof 3; qof 4]; [qof 5; qof 6]] with Ret [a; b] => (fz a, fz b) | _ => (-1, -1) end = (9, 12) /\
  (exists e, @exp_sum toy_group [[qof 1; qof 2]; [qof 3]] = Fail e).
Proof. split; [vm_compute; reflexivity|split; [vm_compute; reflexivity|eexists; reflexivity]]. Qed.

Print Assumptions C05_perfect_secrecy.
Print Assumptions C25_interpolation_at_zero.
Print Assumptions C27_sum.
