(** pkg/frost/party: IDs, IDSlice, Lagrange coefficients. *)
From Coq Require Import ZArith Lia List Bool Ring Field String Permutation Sorted.
From Coq.Strings Require Import Byte.
From Verif Require Import ZField Primes Bytes Scalar Go.
Import ListNotations.
Local Open Scope Z_scope.

(** party/id.go:24-27 [type ID uint16; type Size = ID]: a Z meant to satisfy [is_u16]. *)
Notation ID := Z (only parsing).
Definition IDByteSize : nat := 2.  (* id.go:15 *)

(** id.go:30-41 ID.Scalar: 2 little-endian bytes then zeros, SetCanonicalBytes, panic on error. *)
Definition id_scalar (id : ID) : outcome Fq :=
  match scalar_set_canonical (le_bytes 2 id ++ repeat x00 30) with
  | Some s => Ret s
  | None => Panics "edwards25519: failed to set uint32 Scalar"
  end.

(** The value of ID.Scalar when it does not panic (it never does, see [id_scalar_ok]). *)
Definition idF (id : ID) : Fq := qof id.

(** id.go:44-49 ID.Bytes: big endian. *)
Definition id_bytes (id : ID) : list byte := be16 id.

(** id.go:58-64 FromBytes: reads the first two bytes. *)
Definition FromBytes (b : list byte) : outcome ID :=
  match b with
  | x :: y :: _ => Ret (be16_val x y)
  | _ => Fail "party.FromBytes: b is not long enough to hold an ID"
  end.

(** idslice.go:11-15 NewIDSlice: copy then sort.Slice by <.  sort.Slice (a dependency) is
    modelled by insertion sort; IDs are totally ordered so the sorted result is unique. *)
Fixpoint id_insert (x : ID) (l : list ID) : list ID :=
  match l with
  | [] => [x]
  | y :: l' => if x <=? y then x :: l else y :: id_insert x l'
  end.
Definition NewIDSlice (l : list ID) : list ID := fold_right id_insert [] l.

(** Go's sort.Search (dependency): smallest index in [i, j) with f true by bisection.
    [fuel] bounds the iterations; [length + 1] is enough (Lemma [search_fuel]). *)
Fixpoint sort_search (fuel : nat) (f : nat -> bool) (i j : nat) : nat :=
  match fuel with
  | O => i
  | S k => if Nat.ltb i j
           then let h := Nat.div2 (i + j) in
                if f h then sort_search k f i h else sort_search k f (S h) j
           else i
  end.

(** idslice.go:18-25 Contains: binary search. *)
Definition Contains (ids : list ID) (id : ID) : bool :=
  let n := List.length ids in
  let i := sort_search (S n) (fun i => id <=? nth i ids 0) 0 n in
  Nat.ltb i n && (nth i ids 0 =? id).

(** The same with every slice access checked: [ids[i]] panics out of range. *)
Definition index_ids (ids : list ID) (i : nat) : outcome ID :=
  match nth_error ids i with Some x => Ret x | None => Panics "index out of range" end.
Fixpoint sort_search_o (fuel : nat) (f : nat -> outcome bool) (i j : nat) : outcome nat :=
  match fuel with
  | O => Ret i
  | S k => if Nat.ltb i j
           then let h := Nat.div2 (i + j) in
                let* b := f h in
                if b then sort_search_o k f i h else sort_search_o k f (S h) j
           else Ret i
  end.
Definition Contains_checked (ids : list ID) (id : ID) : outcome bool :=
  let n := List.length ids in
  let* i := sort_search_o (S n) (fun i => let* x := index_ids ids i in Ret (id <=? x)) 0 n in
  if Nat.ltb i n then let* x := index_ids ids i in Ret (x =? id) else Ret false.

(** idslice.go:28-30 N: truncated to 16 bits. *)
Definition N_ids (ids : list ID) : Z := u16 (Z.of_nat (List.length ids)).

(** idslice.go:33-40 IsSubsetOf *)
Definition IsSubsetOf (ids o : list ID) : bool := forallb (Contains o) ids.

(** idslice.go:43-53 Equal *)
Fixpoint ids_equal_loop (ids o : list ID) : bool :=
  match ids, o with
  | [], _ => true
  | id :: ids', x :: o' => (x =? id) && ids_equal_loop ids' o'
  | _ :: _, [] => false
  end.
Definition ids_equal (ids o : list ID) : bool :=
  Nat.eqb (List.length ids) (List.length o) && ids_equal_loop ids o.

(** id.go:113-154 Lagrange: the loop state is (num, denum, foundSelfInIDs). *)
Definition lagrange_step (id : ID) (st : Fq * Fq * bool) (p : ID) : Fq * Fq * bool :=
  let '(num, den, found) := st in
  if p =? id then (num, den, true)
  else (fmul num (idF p), fmul den (fsub (idF p) (idF id)), found).

Definition Lagrange (id : ID) (ids : list ID) : outcome Fq :=
  if id =? 0 then Fail "party.ID: Lagrange: id was 0 (invalid)" else
  let '(num, den, found) := fold_left (lagrange_step id) ids (f1, f1, false) in
  if negb found then Fail "party.ID: Lagrange: partyIDs does not containd id" else
  if feqb den f0 then Fail "party.ID: Lagrange: denominator was 0" else
  Ret (fmul num (finv den)).

(** ** Facts *)

Definition sorted (l : list ID) : Prop := StronglySorted Z.le l.
Definition valid_ids (l : list ID) : Prop := NoDup l /\ Forall (fun i => 1 <= i < 65536) l.

Lemma id_scalar_ok id : is_u16 id -> id_scalar id = Ret (idF id).
Proof.
  intros H. unfold id_scalar, scalar_set_canonical.
  assert (le_val (le_bytes 2 id ++ repeat x00 30) = id) as E.
  { cbn [le_bytes app repeat le_val]. rewrite !b2z_z2b. change (b2z x00) with 0.
    rewrite (Z.mod_small (id / 256)).
    - pose proof (Z.div_mod id 256 ltac:(lia)). unfold is_u16 in H. lia.
    - unfold is_u16 in H. split; [apply Z.div_pos; lia|apply Z.div_lt_upper_bound; lia]. }
  rewrite E. cbn [List.length app le_bytes repeat Nat.eqb andb].
  rewrite (proj2 (Z.ltb_lt _ _)). reflexivity. pose proof q_gt_u16. unfold is_u16 in H. lia.
Qed.

Lemma idF_inj a b : is_u16 a -> is_u16 b -> idF a = idF b -> a = b.
Proof.
  unfold is_u16, idF. intros Ha Hb E. apply (f_equal fz) in E. rewrite !fz_qof in E.
  pose proof q_gt_u16. rewrite !Z.mod_small in E by lia. exact E.
Qed.

Lemma idF_0 a : is_u16 a -> idF a = f0 -> a = 0.
Proof. intros Ha E. apply idF_inj; auto. unfold is_u16; lia. Qed.

Lemma FromBytes_id_bytes id rest : is_u16 id -> FromBytes (id_bytes id ++ rest) = Ret id.
Proof. intros H. simpl. now rewrite be16_val_be16. Qed.

(** *** Sorting *)
Lemma id_insert_perm x l : Permutation (x :: l) (id_insert x l).
Proof.
  induction l as [|y l IH]; simpl; auto. destruct (x <=? y); auto.
  rewrite perm_swap. now constructor.
Qed.
Lemma NewIDSlice_perm l : Permutation l (NewIDSlice l).
Proof.
  induction l as [|x l IH]; simpl; auto. rewrite <- id_insert_perm. now constructor.
Qed.
Lemma id_insert_sorted x l : sorted l -> sorted (id_insert x l).
Proof.
  induction 1 as [|y l S IH F]; simpl; [repeat constructor|].
  destruct (Z.leb_spec x y).
  - constructor; [now constructor|]. constructor; auto. eapply Forall_impl; [|exact F]. simpl; lia.
  - constructor; auto. rewrite Forall_forall in *. intros z Hz.
    apply (Permutation_in _ (Permutation_sym (id_insert_perm x l))) in Hz. destruct Hz as [<-|Hz]; [lia|auto].
Qed.
Lemma NewIDSlice_sorted l : sorted (NewIDSlice l).
Proof. induction l; simpl; [constructor|now apply id_insert_sorted]. Qed.

Lemma sorted_perm_unique l l' : sorted l -> sorted l' -> Permutation l l' -> l = l'.
Proof.
  intros S. revert l'. induction S as [|x l S IH F]; intros l' S' P.
  - now apply Permutation_nil in P.
  - destruct l' as [|y l']; [apply Permutation_sym, Permutation_nil in P; discriminate|].
    inversion S' as [|? ? S2 F2]; subst.
    assert (x = y).
    { rewrite Forall_forall in *. assert (In x (y :: l')) as H1 by (eapply Permutation_in; eauto; simpl; auto).
      assert (In y (x :: l)) as H2 by (eapply Permutation_in; [apply Permutation_sym; eauto|simpl; auto]).
      destruct H1 as [|H1]; auto. destruct H2 as [|H2]; auto. specialize (F _ H2). specialize (F2 _ H1). lia. }
    subst y. f_equal. apply IH; auto. eapply Permutation_cons_inv; eauto.
Qed.

(** *** Binary search *)
Lemma search_spec f : forall fuel i j, (j - i < fuel)%nat -> (i <= j)%nat ->
  (forall a b, (i <= a)%nat -> (a <= b)%nat -> (b < j)%nat -> f a = true -> f b = true) ->
  let r := sort_search fuel f i j in
  (i <= r <= j)%nat /\ (forall a, (i <= a < r)%nat -> f a = false) /\ ((r < j)%nat -> f r = true).
Proof.
  induction fuel as [|k IH]; intros i j Hf Hij Hm; [lia|]. cbn [sort_search].
  destruct (Nat.ltb_spec i j).
  - assert (i <= Nat.div2 (i + j) < j)%nat as Hh.
    { rewrite Nat.div2_div. split; [apply Nat.div_le_lower_bound; lia|apply Nat.div_lt_upper_bound; lia]. }
    set (h := Nat.div2 (i + j)) in *. destruct (f h) eqn:E.
    + destruct (IH i h ltac:(lia) ltac:(lia)) as (H1 & H2 & H3).
      { intros a b ? ? ? ?. apply (Hm a b); auto; lia. }
      split; [lia|split; [auto|]]. intros Hr.
      destruct (Nat.eq_dec (sort_search k f i h) h) as [->|]; auto. apply H3; lia.
    + destruct (IH (S h) j ltac:(lia) ltac:(lia)) as (H1 & H2 & H3).
      { intros a b ? ? ? ?. apply (Hm a b); auto; lia. }
      split; [lia|split; [|auto]]. intros a Ha.
      destruct (Nat.le_gt_cases (S h) a); [apply H2; lia|].
      destruct (f a) eqn:Ea; auto. rewrite (Hm a h) in E; auto; lia.
  - split; [lia|split]; [intros; lia|lia].
Qed.

(** The bisection probes only indices inside [i, j): no out-of-range access on any slice. *)
Lemma search_range f : forall fuel i j, (i <= j)%nat -> (i <= sort_search fuel f i j <= j)%nat.
Proof.
  induction fuel as [|k IH]; intros i j Hij; cbn [sort_search]; [lia|].
  destruct (Nat.ltb_spec i j); [|lia].
  assert (i <= Nat.div2 (i + j) < j)%nat as Hh.
  { rewrite Nat.div2_div. split; [apply Nat.div_le_lower_bound; lia|apply Nat.div_lt_upper_bound; lia]. }
  destruct (f (Nat.div2 (i + j))).
  - specialize (IH i (Nat.div2 (i + j)) ltac:(lia)); lia.
  - specialize (IH (S (Nat.div2 (i + j))) j ltac:(lia)); lia.
Qed.

Lemma sorted_nth l a b d : sorted l -> (a <= b)%nat -> (b < List.length l)%nat -> nth a l d <= nth b l d.
Proof.
  intros S. revert a b. induction S as [|x l S IH F]; simpl; intros a b Hab Hb; [lia|].
  destruct a, b; try lia.
  - rewrite Forall_forall in F. apply F, nth_In. lia.
  - apply IH; lia.
Qed.

Lemma Contains_In ids id : sorted ids -> Contains ids id = true <-> In id ids.
Proof.
  intros S. unfold Contains.
  pose proof (search_spec (fun i => id <=? nth i ids 0) (Datatypes.S (List.length ids)) 0 (List.length ids)) as H; cbv zeta in H.
  destruct H as (H1 & H2 & H3); [lia|lia| |].
  { intros a b _ Hab Hb Ha. apply Z.leb_le in Ha. apply Z.leb_le.
    pose proof (sorted_nth ids a b 0 S Hab Hb). lia. }
  set (r := sort_search _ _ _ _) in *. rewrite andb_true_iff, Nat.ltb_lt, Z.eqb_eq. split.
  - intros [Hr E]. rewrite <- E. now apply nth_In.
  - intros Hin. apply (In_nth _ _ 0) in Hin as (k & Hk & Ek).
    destruct (Nat.lt_ge_cases k r) as [Hkr|Hkr].
    + specialize (H2 k ltac:(lia)). apply Z.leb_gt in H2. lia.
    + assert (r < List.length ids)%nat as Hr by lia. split; auto. specialize (H3 Hr). apply Z.leb_le in H3.
      pose proof (sorted_nth ids r k 0 S Hkr Hk). lia.
Qed.

Lemma Contains_true_In ids id : Contains ids id = true -> In id ids.
Proof.
  unfold Contains. rewrite andb_true_iff, Nat.ltb_lt, Z.eqb_eq. intros [H <-]. now apply nth_In.
Qed.

Lemma IsSubsetOf_incl a b : sorted b -> IsSubsetOf a b = true <-> incl a b.
Proof.
  intros S. unfold IsSubsetOf. rewrite forallb_forall. split; intros H x Hx.
  - apply Contains_In; auto.
  - apply Contains_In; auto.
Qed.

Lemma ids_equal_eq a b : ids_equal a b = true <-> a = b.
Proof.
  unfold ids_equal. split.
  - rewrite andb_true_iff, Nat.eqb_eq. intros [H E]. revert b H E.
    induction a as [|x a IH]; intros [|y b] H E; simpl in *; try discriminate; auto.
    apply andb_true_iff in E as [E1 E2]. apply Z.eqb_eq in E1. f_equal; auto.
  - intros <-. rewrite Nat.eqb_refl. simpl. induction a; simpl; auto. now rewrite Z.eqb_refl.
Qed.

Lemma index_ids_ok ids i : (i < List.length ids)%nat -> index_ids ids i = Ret (nth i ids 0).
Proof. intros H. unfold index_ids. now rewrite (nth_error_nth' ids 0 H). Qed.
Lemma sort_search_o_ok g f : forall fuel i j, (i <= j)%nat -> (forall h, (h < j)%nat -> g h = Ret (f h)) ->
  sort_search_o fuel g i j = Ret (sort_search fuel f i j).
Proof.
  induction fuel as [|k IH]; intros i j Hij Hg; cbn [sort_search sort_search_o]; [reflexivity|].
  destruct (Nat.ltb_spec i j); [|reflexivity].
  assert (i <= Nat.div2 (i + j) < j)%nat as Hh.
  { rewrite Nat.div2_div. split; [apply Nat.div_le_lower_bound; lia|apply Nat.div_lt_upper_bound; lia]. }
  cbv zeta. rewrite Hg by lia. cbn [obind]. destruct (f (Nat.div2 (i + j))); apply IH; try lia; intros; apply Hg; lia.
Qed.
Lemma Contains_checked_ok ids id : Contains_checked ids id = Ret (Contains ids id).
Proof.
  unfold Contains_checked, Contains. rewrite (sort_search_o_ok _ (fun i => id <=? nth i ids 0)); [|lia|].
  - cbn [obind]. destruct (Nat.ltb_spec (sort_search (S (List.length ids)) (fun i => id <=? nth i ids 0) 0 (List.length ids)) (List.length ids)); [|reflexivity].
    rewrite index_ids_ok by auto. reflexivity.
  - intros h Hh. now rewrite index_ids_ok.
Qed.
