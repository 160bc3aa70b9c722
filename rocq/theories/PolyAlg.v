(** Algebra of polynomials over the scalars: roots, Lagrange interpolation. *)
From Coq Require Import ZArith Lia List Bool Ring Field Permutation.
From Verif Require Import ZField Primes Scalar Spec_Poly.
Import ListNotations.
Local Open Scope Fq_scope.

Lemma Fsum_app l l' : Fsum (l ++ l') = Fsum l + Fsum l'.
Proof. induction l; simpl; [ring|rewrite IHl; ring]. Qed.
Lemma Fsum_perm l l' : Permutation l l' -> Fsum l = Fsum l'.
Proof. induction 1; simpl; try congruence; ring. Qed.
Lemma Fprod_perm l l' : Permutation l l' -> Fprod l = Fprod l'.
Proof. induction 1; simpl; try congruence; ring. Qed.
Lemma Fsum_scale {A} (f : A -> Fq) c l : Fsum (map (fun x => c * f x) l) = c * Fsum (map f l).
Proof. induction l; simpl; [ring|rewrite IHl; ring]. Qed.
Lemma Fsum_scale_r {A} (f : A -> Fq) c l : Fsum (map (fun x => f x * c) l) = Fsum (map f l) * c.
Proof. induction l; simpl; [ring|rewrite IHl; ring]. Qed.
Lemma Fsum_add {A} (f g : A -> Fq) l : Fsum (map (fun x => f x + g x) l) = Fsum (map f l) + Fsum (map g l).
Proof. induction l; simpl; [ring|rewrite IHl; ring]. Qed.
Lemma Fsum_ext_in {A} (f g : A -> Fq) l : (forall x, In x l -> f x = g x) -> Fsum (map f l) = Fsum (map g l).
Proof. intros H. now rewrite (map_ext_in f g). Qed.
Lemma Fsum_zero {A} (f : A -> Fq) l : (forall x, In x l -> f x = 0) -> Fsum (map f l) = 0.
Proof. induction l; simpl; intros H; auto. rewrite H, IHl by auto. ring. Qed.
Lemma Fsum_swap {A B} (f : A -> B -> Fq) la lb :
  Fsum (map (fun a => Fsum (map (f a) lb)) la) = Fsum (map (fun b => Fsum (map (fun a => f a b) la)) lb).
Proof.
  induction la; simpl.
  - symmetry. apply Fsum_zero. auto.
  - rewrite IHla, <- Fsum_add. reflexivity.
Qed.
Lemma Fprod_neq0 l : (forall x, In x l -> x <> 0) -> Fprod l <> 0.
Proof.
  induction l; simpl; intros H; [apply Fq_1_neq_0|]. apply Fq_mul_neq0; auto.
Qed.

(** Horner form. *)
Fixpoint peval (a : list Fq) (x : Fq) : Fq :=
  match a with [] => 0 | c :: a' => c + x * peval a' x end.

Lemma peval_spoly a x : peval a x = spoly a x.
Proof.
  unfold spoly. induction a as [|c a IH]; [reflexivity|].
  cbn [length seq map Fsum fold_right peval nth]. rewrite <- seq_shift, map_map, IH.
  change (fold_right fadd 0) with Fsum. change (fpow x (N.of_nat 0)) with (@f1 q25519).
  rewrite <- Fsum_scale. f_equal; [ring|].
  apply Fsum_ext_in. intros i _. cbn [nth].
  replace (N.of_nat (S i)) with (N.succ (N.of_nat i)) by lia. rewrite fpow_S. ring.
Qed.

Lemma peval_0 a : peval a 0 = nth 0 a 0.
Proof. destruct a; simpl; [reflexivity|ring]. Qed.

Fixpoint padd (a b : list Fq) : list Fq :=
  match a, b with
  | [], _ => b
  | _, [] => a
  | x :: a', y :: b' => (x + y) :: padd a' b'
  end.
Definition pscale (c : Fq) (a : list Fq) : list Fq := map (fmul c) a.
(** (X - r) * a *)
Definition pmul_lin (r : Fq) (a : list Fq) : list Fq := padd (pscale (- r) a) (0 :: a).

Lemma padd_eval a b x : peval (padd a b) x = peval a x + peval b x.
Proof. revert b; induction a; intros [|y b]; simpl; try ring. rewrite IHa. ring. Qed.
Lemma padd_length a b : length (padd a b) = Nat.max (length a) (length b).
Proof. revert b; induction a; intros [|y b]; simpl; auto. Qed.
Lemma pscale_eval c a x : peval (pscale c a) x = c * peval a x.
Proof. induction a; simpl; [ring|unfold pscale in *; rewrite IHa; ring]. Qed.
Lemma pscale_length c a : length (pscale c a) = length a.
Proof. apply map_length. Qed.
Lemma pmul_lin_eval r a x : peval (pmul_lin r a) x = (x - r) * peval a x.
Proof. unfold pmul_lin. rewrite padd_eval, pscale_eval. simpl. ring. Qed.
Lemma pmul_lin_length r a : length (pmul_lin r a) = S (length a).
Proof. unfold pmul_lin. rewrite padd_length, pscale_length. simpl. lia. Qed.

(** Synthetic division. *)
Fixpoint pdiv_lin (r : Fq) (a : list Fq) : list Fq :=
  match a with
  | [] => []
  | [_] => []
  | _ :: a' => peval a' r :: pdiv_lin r a'
  end.
Lemma pdiv_lin_length r a : length (pdiv_lin r a) = pred (length a).
Proof. induction a as [|c [|d a] IH]; auto. simpl in *. now rewrite IH. Qed.
Lemma pdiv_lin_eval r a x : peval a x = peval a r + (x - r) * peval (pdiv_lin r a) x.
Proof.
  induction a as [|c [|d a] IH]; [simpl; ring|simpl; ring|].
  change (pdiv_lin r (c :: d :: a)) with (peval (d :: a) r :: pdiv_lin r (d :: a)).
  cbn [peval]. cbn [peval] in IH. rewrite IH. ring.
Qed.

(** A polynomial with as many distinct roots as coefficients vanishes. *)
Lemma roots_zero roots : forall a, NoDup roots -> (length a <= length roots)%nat ->
  (forall r, In r roots -> peval a r = 0) -> forall x, peval a x = 0.
Proof.
  induction roots as [|r roots IH]; intros a ND HL HR x.
  - destruct a; simpl in *; [reflexivity|lia].
  - inversion ND; subst. rewrite (pdiv_lin_eval r), (HR r) by (simpl; auto).
    rewrite (IH (pdiv_lin r a)); auto.
    + ring.
    + rewrite pdiv_lin_length. simpl in HL. lia.
    + intros s Hs. assert (peval a s = 0) as E by (apply HR; simpl; auto).
      rewrite (pdiv_lin_eval r), (HR r) in E by (simpl; auto).
      assert ((s - r) * peval (pdiv_lin r a) s = 0) as E2 by (rewrite <- E; ring).
      apply Fq_integral in E2 as [E2|]; auto. exfalso. apply Fq_sub_eq0 in E2. subst; auto.
Qed.

(** Two polynomials that agree on enough points agree everywhere. *)
Lemma poly_agree pts a b : NoDup pts -> (length a <= length pts)%nat -> (length b <= length pts)%nat ->
  (forall r, In r pts -> peval a r = peval b r) -> forall x, peval a x = peval b x.
Proof.
  intros ND Ha Hb H x.
  assert (peval (padd a (pscale (- (1)) b)) x = 0) as E.
  { apply (roots_zero pts); auto.
    - rewrite padd_length, pscale_length. lia.
    - intros r Hr. rewrite padd_eval, pscale_eval, H by auto. ring. }
  rewrite padd_eval, pscale_eval in E. apply Fq_sub_eq0. rewrite <- E. ring.
Qed.

(** ** Lagrange basis.  [others j xs] removes the occurrences of j. *)
Definition others (j : Fq) (xs : list Fq) : list Fq := filter (fun m => negb (feqb m j)) xs.
Definition lag0 (j : Fq) (xs : list Fq) : Fq :=
  Fprod (others j xs) * finv (Fprod (map (fun m => m - j) (others j xs))).
(** prod (X - m) over m in [ms]. *)
Definition pvanish (ms : list Fq) : list Fq := fold_right pmul_lin [1] ms.
Lemma pvanish_length ms : length (pvanish ms) = S (length ms).
Proof. induction ms; simpl; auto. now rewrite pmul_lin_length, IHms. Qed.
Lemma pvanish_eval ms x : peval (pvanish ms) x = Fprod (map (fun m => x - m) ms).
Proof. induction ms; simpl; [ring|]. rewrite pmul_lin_eval, IHms. reflexivity. Qed.
Definition lbasis (j : Fq) (xs : list Fq) : list Fq :=
  pscale (finv (Fprod (map (fun m => j - m) (others j xs)))) (pvanish (others j xs)).

Lemma others_in j xs m : In m (others j xs) <-> In m xs /\ m <> j.
Proof. unfold others. rewrite filter_In, negb_true_iff, feqb_neq. reflexivity. Qed.
Lemma others_length j xs : NoDup xs -> In j xs -> S (length (others j xs)) = length xs.
Proof.
  induction xs as [|x xs IH]; simpl; intros ND Hin; [tauto|]. inversion ND; subst.
  destruct (feqb x j) eqn:E; simpl.
  - apply feqb_eq in E; subst. f_equal. clear -H1. induction xs as [|y xs IH]; simpl; auto.
    destruct (feqb y j) eqn:E; simpl.
    + apply feqb_eq in E. subst. exfalso. apply H1. simpl; auto.
    + rewrite IH; auto. simpl in H1; tauto.
  - apply feqb_neq in E. rewrite IH; tauto.
Qed.
Lemma others_den_neq0 j xs : Fprod (map (fun m => j - m) (others j xs)) <> 0.
Proof.
  apply Fprod_neq0. intros x Hx. apply in_map_iff in Hx as (m & <- & Hm). apply others_in in Hm as [_ Hm].
  intros E. apply Hm. symmetry. now apply Fq_sub_eq0.
Qed.
Lemma others_den_neq0' j xs : Fprod (map (fun m => m - j) (others j xs)) <> 0.
Proof.
  apply Fprod_neq0. intros x Hx. apply in_map_iff in Hx as (m & <- & Hm). apply others_in in Hm as [_ Hm].
  intros E. apply Hm. now apply Fq_sub_eq0.
Qed.
Lemma lbasis_self j xs : peval (lbasis j xs) j = 1.
Proof. unfold lbasis. rewrite pscale_eval, pvanish_eval. apply Fq_inv_l, others_den_neq0. Qed.
Lemma Fprod_in0 l : In 0 l -> Fprod l = 0.
Proof. induction l; simpl; intros []; [subst; ring|rewrite IHl; auto; ring]. Qed.
Lemma lbasis_other j xs m : In m xs -> m <> j -> peval (lbasis j xs) m = 0.
Proof.
  intros Hm Hne. unfold lbasis. rewrite pscale_eval, pvanish_eval.
  rewrite (Fprod_in0 (map (fun m0 => m - m0) (others j xs))); [ring|].
  apply in_map_iff. exists m. split; [ring|]. apply others_in; auto.
Qed.
Lemma lbasis_length j xs : NoDup xs -> In j xs -> length (lbasis j xs) = length xs.
Proof. intros. unfold lbasis. now rewrite pscale_length, pvanish_length, others_length. Qed.

Lemma finv_unique (x y : Fq) : x * y = 1 -> x = finv y.
Proof.
  intros E. assert (y <> 0) as Hy by (intros ->; apply Fq_1_neq_0; rewrite <- E; ring).
  transitivity (x * y * finv y); [|rewrite E; ring].
  transitivity (x * (finv y * y)); [rewrite Fq_inv_l by auto; ring|ring].
Qed.

Lemma lbasis_at_0 j xs : peval (lbasis j xs) 0 = lag0 j xs.
Proof.
  unfold lbasis, lag0. rewrite pscale_eval, pvanish_eval.
  pose proof (others_den_neq0 j xs) as N1. pose proof (others_den_neq0' j xs) as N2.
  (* both sides differ by the same power of -1 *)
  assert (exists c, c * c = 1 /\
    Fprod (map (fun m => 0 - m) (others j xs)) = c * Fprod (others j xs) /\
    Fprod (map (fun m => j - m) (others j xs)) = c * Fprod (map (fun m => m - j) (others j xs))) as (c & C1 & C2 & C3).
  { clear. induction (others j xs) as [|m l IH]; simpl.
    - exists 1. repeat split; ring.
    - destruct IH as (c & C1 & C2 & C3). exists (- c). rewrite C2, C3. repeat split; try ring.
      transitivity (c * c); [ring|exact C1]. }
  rewrite C2, C3. rewrite C3 in N1.
  set (D := Fprod (map (fun m => m - j) (others j xs))) in *.
  assert (finv (c * D) = c * finv D) as ->.
  { symmetry. apply finv_unique. transitivity (c * c * (finv D * D)); [ring|]. rewrite C1, Fq_inv_l by auto. ring. }
  transitivity (c * c * (Fprod (others j xs) * finv D)); [ring|]. rewrite C1. ring.
Qed.

(** The polynomial through the points (x, v x), x in xs. *)
Definition interp (v : Fq -> Fq) (xs : list Fq) : list Fq :=
  fold_right (fun j acc => padd (pscale (v j) (lbasis j xs)) acc) [] xs.

Lemma interp_eval_gen v xs l x :
  peval (fold_right (fun j acc => padd (pscale (v j) (lbasis j xs)) acc) [] l) x
  = Fsum (map (fun j => v j * peval (lbasis j xs) x) l).
Proof. induction l; simpl; [reflexivity|]. rewrite padd_eval, pscale_eval, IHl. reflexivity. Qed.
Lemma interp_eval v xs x : peval (interp v xs) x = Fsum (map (fun j => v j * peval (lbasis j xs) x) xs).
Proof. apply interp_eval_gen. Qed.

Lemma Fsum_single (f : Fq -> Fq) j l : NoDup l -> In j l -> (forall m, In m l -> m <> j -> f m = 0) ->
  Fsum (map f l) = f j.
Proof.
  induction l as [|x l IH]; simpl; intros ND Hin H; [tauto|]. inversion ND; subst.
  destruct (F_eq_dec x j) as [->|Hne].
  - rewrite Fsum_zero; [ring|]. intros m Hm. apply H; auto. congruence.
  - rewrite (H x), IH; auto; [ring|]. destruct Hin; [congruence|auto].
Qed.

Lemma interp_at v xs j : NoDup xs -> In j xs -> peval (interp v xs) j = v j.
Proof.
  intros ND Hin. rewrite interp_eval, (Fsum_single _ j); auto.
  - rewrite lbasis_self. ring.
  - intros m Hm Hne. rewrite lbasis_other; auto. ring.
Qed.
Lemma interp_length v xs : NoDup xs -> (length (interp v xs) <= length xs)%nat.
Proof.
  intros ND. unfold interp.
  assert (forall l, incl l xs ->
    (length (fold_right (fun j acc => padd (pscale (v j) (lbasis j xs)) acc) [] l) <= length xs)%nat) as H.
  { induction l as [|x l IH]; simpl; intros Hl; [lia|].
    rewrite padd_length, pscale_length, lbasis_length; auto.
    - specialize (IH (fun y Hy => Hl y (or_intror Hy))). lia.
    - apply Hl; simpl; auto. }
  apply H, incl_refl.
Qed.

(** Interpolation at 0. *)
Theorem lagrange_at_0 xs f : NoDup xs -> (length f <= length xs)%nat ->
  Fsum (map (fun j => lag0 j xs * peval f j) xs) = peval f 0.
Proof.
  intros ND HL.
  rewrite (poly_agree xs f (interp (peval f) xs)); auto.
  - rewrite interp_eval. apply Fsum_ext_in. intros j _. rewrite lbasis_at_0. ring.
  - now apply interp_length.
  - intros r Hr. now rewrite interp_at.
Qed.

(** t points and any value at 0 are met by a polynomial with t+1 coefficients. *)
Theorem poly_through_points xs (v : Fq -> Fq) s : NoDup xs -> ~ In 0 xs ->
  exists f, (length f <= S (length xs))%nat /\ peval f 0 = s /\ forall x, In x xs -> peval f x = v x.
Proof.
  intros ND H0.
  exists (interp (fun x => if feqb x 0 then s else v x) (0 :: xs)).
  assert (NoDup (0 :: xs)) as ND2 by (constructor; auto).
  split; [|split].
  - apply (interp_length _ (0 :: xs)); auto.
  - rewrite interp_at; [rewrite feqb_refl; reflexivity|auto|left; reflexivity].
  - intros x Hx. rewrite interp_at; [|auto|right; auto]. destruct (feqb x 0) eqn:E; auto.
    apply feqb_eq in E. congruence.
Qed.
