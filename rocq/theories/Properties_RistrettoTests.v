(** C68 and the part of C62 about pkg/ristretto: sums of multiples, and the tests of the package for all tables. *)
From Coq Require Import ZArith Znumtheory Lia List Bool String Ascii Permutation Ring Field Setoid Morphisms.
From Coq.Strings Require Import Byte.
From Verif Require Import ZField Primes Bytes Scalar Go Group Fp Edwards EdPoint EdEven Ristretto RistrettoFacts RistrettoDecode RistrettoGroup Text Spec_Ristretto
  Spec_Json Json JsonFacts RistrettoTests Properties_Ristretto Properties_Text Properties_Json.
Import ListNotations.
Local Open Scope Z_scope.
Local Opaque fadd fsub fmul fopp finv fdiv fof pof f0 f1.

(** ** C68 *)
(** The sum of the multiples, on the curve. *)
Definition curve_sum (l : list (Fq * ept)) : ept := fold_right (fun sP acc => eadd (emul (fz (fst sP)) (snd sP)) acc) e0 l.

Lemma map_nth_seq (p : list xpt) n : List.length p = n -> map (fun i => nth i p xid) (seq 0 n) = p.
Proof.
  intros <-. induction p as [|x p IH]; auto. cbn [List.length seq map nth]. f_equal. rewrite <- seq_shift, map_map. exact IH.
Qed.
Lemma msm_rep : forall s p Ps, Forall2 denotes p Ps -> denotes (point_msm s p) (curve_sum (combine s Ps)).
Proof.
  unfold point_msm, curve_sum. induction s as [|a s IH]; intros p Ps H; [apply rep_id|]. destruct H as [|c P p Ps HC H]; [apply rep_id|]. cbn [combine fold_right fst snd].
  apply rep_add; [|now apply IH]. apply rep_mul; auto. apply fz_Fq_range.
Qed.
Lemma Equal_refl c : valid_element c -> r_Equal c c = true.
Proof. intros V. exact (proj1 (C33_equivalence c c c V V V)). Qed.
(** For slices of the same length both functions return the sum. *)
Theorem C68_sum : forall s p Ps, Forall2 denotes p Ps -> List.length s = List.length p -> exists c c',
  r_MultiScalarMult s p = Ret c /\ r_VarTimeMultiScalarMult s p = Ret c' /\ denotes c (curve_sum (combine s Ps)) /\ denotes c' (curve_sum (combine s Ps)).
Proof.
  intros s p Ps H HL. unfold r_MultiScalarMult, r_VarTimeMultiScalarMult. rewrite HL, Nat.eqb_refl. cbn [negb]. rewrite map_nth_seq by auto.
  eexists _, _. split; [reflexivity|]. split; [reflexivity|]. split; now apply msm_rep.
Qed.
(** The sum of valid elements is valid. *)
Theorem C68_valid : forall s p, Forall valid_element p -> List.length s = List.length p -> exists c, r_MultiScalarMult s p = Ret c /\ valid_element c.
Proof.
  intros s p H HL. unfold r_MultiScalarMult. rewrite HL, Nat.eqb_refl. cbn [negb]. rewrite map_nth_seq by auto. eexists. split; [reflexivity|].
  clear HL. revert p H. unfold point_msm. induction s as [|a s IH]; intros p H; [apply valid_id|]. destruct H as [|c p HC H]; [apply valid_id|]. cbn [combine fold_right fst snd].
  apply (C33_closed (xmul (fz a) c) _ a); [apply (C33_closed c c a HC HC)|now apply IH].
Qed.
(** They panic exactly if the lengths differ. *)
Theorem C68_mismatch : forall s p, (exists w, r_MultiScalarMult s p = Panics w) <-> List.length s <> List.length p.
Proof.
  intros s p. unfold r_MultiScalarMult. destruct (Nat.eqb_spec (List.length p) (List.length s)); cbn [negb]; split; try congruence.
  - intros [w E]. discriminate E.
  - eauto.
Qed.
Theorem C68_mismatch_vartime : forall s p, (exists w, r_VarTimeMultiScalarMult s p = Panics w) <-> List.length s <> List.length p.
Proof.
  intros s p. unfold r_VarTimeMultiScalarMult. destruct (Nat.eqb_spec (List.length p) (List.length s)); cbn [negb]; split; try congruence.
  - intros [w E]. discriminate E.
  - eauto.
Qed.
Lemma curve_sum_perm l l' : Permutation l l' -> curve_sum l = curve_sum l'.
Proof.
  induction 1 as [|x l l' _ IH|x y l|l l' l'' _ IH1 _ IH2]; auto.
  - cbn [curve_sum fold_right]. f_equal. exact IH.
  - cbn [curve_sum fold_right]. now rewrite !eadd_assoc, (eadd_comm (emul (fz (fst y)) (snd y))).
  - congruence.
Qed.
Lemma Forall2_denotes p : Forall valid_element p -> exists Ps, Forall2 denotes p Ps.
Proof.
  induction 1 as [|c p (P & _ & D & _) _ (Ps & IH)]; [now exists []|]. exists (P :: Ps). now constructor.
Qed.
Lemma combine_Forall2 (A B C D : Type) (R : B -> C -> Prop) : forall (s : list A) p Ps, Forall2 R p Ps -> Forall2 (fun x y => fst x = fst y /\ R (snd x) (snd y)) (combine s p) (combine s Ps).
Proof.
  induction s as [|a s IH]; intros p Ps H; [constructor|]. destruct H; cbn [combine]; [constructor|]. constructor; auto.
Qed.
(** Neither the order of the pairs nor the representatives matter. *)
Theorem C68_order : forall s p s' p', Forall valid_element p -> Forall valid_element p' -> List.length s = List.length p -> List.length s' = List.length p' ->
  Permutation (combine s p) (combine s' p') -> exists c c', r_MultiScalarMult s p = Ret c /\ r_MultiScalarMult s' p' = Ret c' /\ r_Equal c c' = true.
Proof.
  intros s p s' p' V V' HL HL' HP. destruct (Forall2_denotes p V) as (Ps & D). destruct (C68_sum s p Ps D HL) as (c & _ & E & _ & R & _).
  assert (exists Ps', Forall2 denotes p' Ps' /\ Permutation (combine s Ps) (combine s' Ps')) as (Ps' & D' & HP').
  { destruct (Permutation_Forall2 HP (combine_Forall2 Fq xpt ept unit denotes s p Ps D)) as (l & HQ & HF). exists (map snd l).
    clear - HQ HF HL'. revert p' l HL' HQ HF. intros p' l HL' HQ HF.
    assert (l = combine s' (map snd l) /\ Forall2 denotes p' (map snd l)) as [E D].
    { clear HQ. revert p' l HL' HF. induction s' as [|a s' IH]; intros [|c p'] l HL HF; try discriminate; inversion HF as [|? y ? l' [H1 H2] HT]; subst; cbn [map combine].
      - split; auto.
      - cbn [fst snd] in H1, H2. destruct (IH p' l' ltac:(cbn in HL; lia) HT) as [E D]. destruct y as [y1 y2]. cbn [fst snd] in *. subst y1. split; [now rewrite <- E|now constructor]. }
    split; [exact D|]. now rewrite <- E. }
  destruct (C68_sum s' p' Ps' D' HL') as (c' & _ & E' & _ & R' & _). exists c, c'. split; [exact E|]. split; [exact E'|].
  apply (C32_equal_spec c c' _ _ R R'). rewrite (curve_sum_perm _ _ HP'). unfold same_element, four_torsion. rewrite eadd_neg_r. apply emul_e0.
Qed.
Theorem C68_equal : forall s p p', Forall valid_element p -> Forall valid_element p' -> List.length s = List.length p -> Forall2 (fun c c' => r_Equal c c' = true) p p' ->
  exists c c', r_MultiScalarMult s p = Ret c /\ r_MultiScalarMult s p' = Ret c' /\ r_Equal c c' = true.
Proof.
  intros s p p' V V' HL HE. assert (List.length s = List.length p') as HL' by (rewrite HL; clear - HE; induction HE; cbn; congruence).
  unfold r_MultiScalarMult. rewrite <- HL, <- HL', !Nat.eqb_refl. cbn [negb]. rewrite !map_nth_seq by auto. eexists _, _. split; [reflexivity|]. split; [reflexivity|].
  assert (valid_element (point_msm s p) /\ valid_element (point_msm s p') /\ r_Equal (point_msm s p) (point_msm s p') = true) as X; [|apply X].
  clear HL HL'. revert p p' V V' HE. unfold point_msm. induction s as [|a s IH]; intros p p' V V' HE.
  - split; [apply valid_id|]. split; [apply valid_id|]. apply Equal_refl, valid_id.
  - destruct HE as [|c c' p p' HC HE].
    + split; [apply valid_id|]. split; [apply valid_id|]. apply Equal_refl, valid_id.
    + cbn [combine fold_right fst snd]. inversion V; subst. inversion V'; subst. destruct (IH p p') as (A & B & C); auto.
      assert (valid_element (xmul (fz a) c)) as M by (eapply (C33_closed c c a); auto). assert (valid_element (xmul (fz a) c')) as M' by (eapply (C33_closed c' c' a); auto).
      split; [apply (C33_closed _ _ a M A)|]. split; [apply (C33_closed _ _ a M' B)|].
      eapply (C33_congruence (xmul (fz a) c) (xmul (fz a) c') _ _ a); auto. apply (C33_congruence c c' c c' a); auto.
Qed.
Theorem C68_double : forall a A P b, denotes A P -> denotes (r_VarTimeDoubleScalarBaseMult a A b) (eadd (emul (fz a) P) (emul (fz b) eB)).
Proof.
  intros a A P b H. unfold r_VarTimeDoubleScalarBaseMult. apply rep_add; apply rep_mul; auto using fz_Fq_range, rep_base; apply fz_Fq_range.
Qed.
(** It is the sum of two multiples, as the other functions compute it. *)
Theorem C68_double_sum : forall a A b, valid_element A -> exists c, r_VarTimeMultiScalarMult [a; b] [A; r_NewGeneratorElement] = Ret c /\
  r_Equal c (r_VarTimeDoubleScalarBaseMult a A b) = true /\ valid_element (r_VarTimeDoubleScalarBaseMult a A b).
Proof.
  intros a A b V. destruct V as (P & Q & D & E). destruct (C68_sum [a; b] [A; xbase] [P; eB]) as (_ & c & _ & X & _ & R); [constructor; [exact D|constructor; [apply rep_base|constructor] ]|reflexivity|].
  exists c. split; [exact X|]. split.
  - apply (C32_equal_spec _ _ _ _ R (C68_double a A P b D)). cbn [combine curve_sum fold_right fst snd]. rewrite eadd_0_r. unfold same_element, four_torsion. rewrite eadd_neg_r. apply emul_e0.
  - assert (valid_element A) as V by (exists P, Q; auto). unfold r_VarTimeDoubleScalarBaseMult.
    apply (C33_closed (xmul (fz a) A) (xmul (fz b) xbase) a); [apply (C33_closed A A a V V)|apply (C33_closed xbase xbase b valid_base valid_base)].
Qed.
Theorem C68_string : forall e e', valid_element e -> valid_element e' -> (r_String e = r_String e' <-> r_Equal e e' = true).
Proof. exact C40_element_equal. Qed.
Example C68_example : exists c, r_MultiScalarMult [f1; f1] [xbase; xneg xbase] = Ret c /\ r_Equal c xid = true.
Proof.
  destruct (C68_sum [f1; f1] [xbase; xneg xbase] [eB; eneg eB]) as (c & _ & E & _ & R & _); [constructor; [apply rep_base|constructor; [apply rep_neg, rep_base|constructor] ]|reflexivity|].
  exists c. split; [exact E|]. apply (C32_equal_spec c xid _ e0 R rep_id). cbn [combine curve_sum fold_right fst snd]. unfold same_element, four_torsion.
  rewrite eadd_0_r, emul_neg, eadd_neg_r, eneg_0, eadd_0_l. apply emul_e0.
Qed.

(** ** C62: the tests of the package *)
Theorem C62_Basepoint : forall b, exists ok, test_Basepoint b = Ret ok /\ (ok = true <-> b = r_Bytes xbase).
Proof.
  intros b. unfold test_Basepoint. destruct (C32_total b) as [ [c E]|[e E] ]; rewrite E.
  - eexists. split; [reflexivity|]. destruct (C32_canonical b c E) as [V EB]. unfold r_NewGeneratorElement. rewrite EB. split.
    + intros H. apply andb_true_iff in H as [_ H]. now apply bytes_eqb_eq in H.
    + intros ->. rewrite !(proj2 (bytes_eqb_eq _ _) eq_refl), !andb_true_r. apply (C32_equal c xbase V valid_base). exact EB.
  - exists false. split; [reflexivity|]. split; [discriminate|]. intros ->. destruct (C32_round_trip xbase valid_base) as (c & E' & _). congruence.
Qed.
Example C62_Basepoint_example : test_Basepoint base_vector = Ret true.
Proof. destruct (C62_Basepoint base_vector) as (ok & E & H). rewrite E. f_equal. apply H. symmetry. exact base_vector_ok. Qed.

(** The table must hold the encodings of 0B, 1B, 2B, ... *)
Theorem C62_SmallMultiples : forall tv, exists ok, test_SmallMultiples tv = Ret ok /\
  (ok = true <-> forall i b c, nth_error tv i = Some b -> denotes c (emul (Z.of_nat i) eB) -> b = r_Bytes c).
Proof.
  assert (forall P c c', denotes c P -> denotes c' P -> valid_element c -> r_Bytes c = r_Bytes c') as Same.
  { intros P c c' D D' (P0 & Q & D0 & ->). assert (P = eadd Q Q) as -> by exact (rep_inj c P (eadd Q Q) D D0). apply C32_equal; [now exists (eadd Q Q), Q|now exists (eadd Q Q), Q|].
    apply (C32_equal_spec _ _ _ _ D D'). unfold same_element, four_torsion. rewrite eadd_neg_r. apply emul_e0. }
  assert (forall tv k m, denotes m (emul (Z.of_nat k) eB) -> valid_element m -> exists ok, test_SmallMultiples_loop m tv = Ret ok /\
    (ok = true <-> forall i b c, nth_error tv i = Some b -> denotes c (emul (Z.of_nat (k + i)) eB) -> b = r_Bytes c)) as G.
  { induction tv as [|b tv IH]; intros k m D V; cbn [test_SmallMultiples_loop].
    - exists true. split; [reflexivity|]. split; auto. intros _ [|i] b c E; discriminate E.
    - destruct (C32_total b) as [ [c E]|[e E] ]; rewrite E.
      + destruct (C32_canonical b c E) as [Vc EB]. destruct (IH (S k) (r_Add m r_NewGeneratorElement)) as (ok & E1 & H1).
        { replace (Z.of_nat (S k)) with (Z.of_nat k + 1) by lia. rewrite emul_add, emul_1. apply rep_add; auto. apply rep_base. }
        { apply (C33_closed m xbase f0 V valid_base). }
        rewrite E1. cbn [obind]. eexists. split; [reflexivity|]. rewrite EB, (proj2 (bytes_eqb_eq b b) eq_refl). cbn [andb]. split.
        * intros H. apply andb_true_iff in H as [H H2]. apply andb_true_iff in H as [_ H]. apply bytes_eqb_eq in H. intros [|i] b' c' Ei Di.
          -- inversion Ei; subst b'. rewrite Nat.add_0_r in Di. rewrite H. exact (Same _ _ _ D Di V).
          -- apply (proj1 H1 H2 i b' c' Ei). now rewrite Nat.add_succ_comm.
        * intros H. assert (b = r_Bytes m) as Hm by (apply (H 0%nat b m eq_refl); now rewrite Nat.add_0_r). rewrite (proj2 (bytes_eqb_eq _ _) Hm).
          rewrite (proj2 (C32_equal m c V Vc)) by congruence. cbn [andb]. apply H1. intros i b' c' Ei Di. apply (H (S i) b' c' Ei). now rewrite <- Nat.add_succ_comm.
      + exists false. split; [reflexivity|]. split; [discriminate|]. intros H. assert (b = r_Bytes m) as Hm by (apply (H 0%nat b m eq_refl); now rewrite Nat.add_0_r).
        destruct (C32_round_trip m V) as (c & E' & _). congruence. }
  intros tv. exact (G tv 0%nat xid rep_id valid_id).
Qed.
Theorem C62_BadEncodings : forall tv, exists ok, test_BadEncodings tv = Ret ok /\ (ok = true <-> forall b c, In b tv -> valid_element c -> r_Bytes c <> b).
Proof.
  induction tv as [|b tv (ok & E1 & H1)]; cbn [test_BadEncodings].
  - exists true. split; [reflexivity|]. split; auto.
  - destruct (C32_total b) as [ [c E]|[e E] ]; rewrite E.
    + exists false. split; [reflexivity|]. split; [discriminate|]. intros H. destruct (C32_canonical b c E) as [V EB]. now destruct (H b c (or_introl eq_refl) V).
    + exists ok. split; [exact E1|]. rewrite H1. split.
      * intros H b' c [<-|Hin] V; [|now apply H]. intros EB. destruct (C32_round_trip c V) as (c' & E' & _). congruence.
      * intros H b' c Hin V. apply H; auto. now right.
Qed.
Example C62_BadEncodings_example : test_BadEncodings [x01 :: repeat x00 31; repeat xff 32] = Ret true /\ test_BadEncodings [repeat xff 32; base_vector] = Ret false.
Proof.
  destruct C32_rejects as [ [e1 E1] [e2 E2] ]. cbn [test_BadEncodings]. rewrite E1, E2. split; [reflexivity|].
  destruct C32_example as (c & E & _). now rewrite E.
Qed.

(** Both tests of SetUniformBytes, for 64 byte inputs: every expected encoding must be that of the input's element. *)
Theorem C62_Uniform : forall table m, Forall (fun he => List.length (fst he) = 64%nat) table -> exists ok, test_Uniform m table = Ret ok /\
  (ok = true <-> forall h e, In (h, e) table -> exists c, r_SetUniformBytes h = Ret c /\ r_Bytes c = e).
Proof.
  intros table m H. revert m. induction H as [|[h e] table HL _ IH]; intros m; cbn [test_Uniform].
  - exists true. split; [reflexivity|]. split; auto. intros _ h e [].
  - unfold test_Uniform_step. destruct (C42_uniform h HL) as (c & _ & _ & E & _). rewrite E. cbn [obind fst snd]. destruct (IH c) as (ok & E1 & H1). rewrite E1. cbn [obind].
    eexists. split; [reflexivity|]. rewrite andb_true_iff, bytes_eqb_eq, H1. split.
    + intros [EB H2] h' e' [X|Hin]; [|now apply H2]. inversion X; subst. eauto.
    + intros H2. split; [|intros h' e' Hin; apply H2; now right]. destruct (H2 h e (or_introl eq_refl)) as (c' & E' & EB). congruence.
Qed.
(** Inputs whose halves agree without the top bit and modulo p have one result, so that the second test can only fail for all of them. *)
Definition same_halves (b b' : list byte) : Prop :=
  (le_val (firstn 32 b) mod 2 ^ 255) mod p25519 = (le_val (firstn 32 b') mod 2 ^ 255) mod p25519 /\
  (le_val (skipn 32 b) mod 2 ^ 255) mod p25519 = (le_val (skipn 32 b') mod 2 ^ 255) mod p25519.
Theorem C62_Equivalent : forall h inputs expected m, List.length h = 64%nat -> Forall (fun b => List.length b = 64%nat /\ same_halves h b) inputs ->
  test_Uniform m (map (fun b => (b, expected)) (h :: inputs)) = test_Uniform m [(h, expected)].
Proof.
  intros h inputs expected m HL H. destruct (C42_uniform h HL) as (c & _ & _ & E & _).
  assert (forall m0, test_Uniform m0 (map (fun b => (b, expected)) inputs) = Ret true \/ test_Uniform m0 (map (fun b => (b, expected)) inputs) = Ret (bytes_eqb (r_Bytes c) expected)) as G.
  { induction H as [|b inputs [Hb [S1 S2] ] _ IH]; intros m0; cbn [map test_Uniform]; [now left|]. right. unfold test_Uniform_step.
    rewrite <- (C42_halves h b HL Hb S1 S2), E. cbn [obind fst snd]. destruct (IH c) as [->| ->]; cbn [obind]; f_equal; [apply andb_true_r|now destruct (bytes_eqb _ _)]. }
  cbn [map test_Uniform]. unfold test_Uniform_step. rewrite E. cbn [obind fst snd]. destruct (G c) as [->| ->]; cbn [obind]; f_equal. rewrite andb_true_r. now destruct (bytes_eqb _ _).
Qed.
(** The four inputs of TestEquivalentFromUniformBytes are such inputs. *)
Definition equivalent_inputs : list (list byte) := [
  xed :: repeat xff 31 ++ x12 :: repeat x00 31;
  xed :: repeat xff 30 ++ x7f :: repeat xff 32;
  repeat x00 31 ++ x80 :: repeat xff 31 ++ [x7f];
  repeat x00 32 ++ x12 :: repeat x00 30 ++ [x80]].
Example C62_Equivalent_example : Forall (fun b => List.length b = 64%nat /\ same_halves (hd [] equivalent_inputs) b) equivalent_inputs.
Proof. unfold same_halves. rewrite p_val. repeat constructor; vm_compute; reflexivity. Qed.

Theorem C62_MarshalElement : forall b, List.length b = 64%nat -> test_MarshalElement b = Ret true.
Proof.
  intros b HL. unfold test_MarshalElement. destruct (C42_uniform b HL) as (x & _ & _ & E & V & _). rewrite E.
  rewrite C46_print_parse; [|apply b64_plain|cbn; lia]. destruct (C40_element_round_trip x V) as (y & -> & _ & ->). reflexivity.
Qed.

Theorem C62_ElementSet : forall m, valid_element (m 0%nat) -> valid_element (m 1%nat) ->
  (test_ElementSet m = true <-> r_Equal (m 0%nat) (m 1%nat) = false /\ r_Equal (m 1%nat) xid = false).
Proof.
  intros m V0 V1. unfold test_ElementSet, Set_, Add_, store. cbn [Nat.eqb]. cbv iota. set (y := m 1%nat) in *.
  assert (r_Equal y y = true) as Ey by now apply Equal_refl. rewrite Ey, !andb_true_r, andb_true_iff, !negb_true_iff.
  assert (r_Equal y (r_Add y y) = true <-> r_Equal y xid = true) as K; [|destruct (r_Equal y (r_Add y y)), (r_Equal y xid); intuition discriminate].
  apply valid_iff in V1. pose proof ristretto_laws as L. set (Y := el y V1 : @G ristretto_group).
  change (geq Y (gadd Y Y) <-> geq Y gid). split; intros H.
  - apply (gadd_cancel_l Y). rewrite gadd_id_r. now symmetry.
  - rewrite H. now rewrite gadd_id_l.
Qed.
Theorem C62_ScalarSet : forall m, test_ScalarSet m = true <-> m 0%nat <> m 1%nat /\ m 0%nat <> f0.
Proof.
  intros m. unfold test_ScalarSet, Set_, Add_, store. cbn [Nat.eqb]. cbv iota. set (a := m 0%nat). rewrite feqb_refl, !andb_true_r, andb_true_iff, !negb_true_iff, !feqb_neq.
  assert (fadd a a = a <-> a = f0) as ->; [|tauto]. split; [|intros ->; ring]. intros H. transitivity (fsub (fadd a a) a); [ring|]. rewrite H. ring.
Qed.
Example C62_ElementSet_example : valid_element xid /\ valid_element xbase.
Proof. split; [apply valid_id|apply valid_base]. Qed.

(** testConstant accepts exactly the absolute value of the constant and crashes on 2^256 and above. *)
Lemma swap_loop_ok (l : list byte) : forall k i buf, (i + k = List.length l / 2)%nat -> List.length buf = List.length l ->
  (forall n, (n < List.length l)%nat -> nth n buf x00 = if Nat.ltb n i || Nat.leb (List.length l - i) n then nth (List.length l - 1 - n) l x00 else nth n l x00) ->
  swap_loop k i buf = rev l.
Proof.
  set (len := List.length l). assert (2 * (len / 2) <= len < 2 * (len / 2) + 2)%nat as HD by (pose proof (Nat.div_mod len 2 ltac:(lia)); pose proof (Nat.mod_upper_bound len 2 ltac:(lia)); lia).
  induction k as [|k IH]; intros i buf Hi HL H; cbn [swap_loop].
  - apply (nth_ext _ _ x00 x00); [now rewrite rev_length|]. rewrite HL. intros n Hn. rewrite rev_nth by exact Hn. rewrite H by exact Hn. fold len. replace (len - S n)%nat with (len - 1 - n)%nat by lia.
    destruct (Nat.ltb_spec n i), (Nat.leb_spec (len - i) n); cbn [orb]; auto. f_equal. lia.
  - apply IH; [lia|now rewrite map_length, seq_length|]. intros n Hn. rewrite HL. rewrite (nth_indep _ x00 ((fun m => if Nat.eqb m i then nth (len - i - 1) buf x00 else if Nat.eqb m (len - i - 1) then nth i buf x00 else nth m buf x00) 0%nat)) by now rewrite map_length, seq_length.
    rewrite (map_nth (fun m => if Nat.eqb m i then nth (len - i - 1) buf x00 else if Nat.eqb m (len - i - 1) then nth i buf x00 else nth m buf x00)). rewrite seq_nth by exact Hn. cbn [Nat.add].
    destruct (Nat.eqb_spec n i) as [->|N1]; [|destruct (Nat.eqb_spec n (len - i - 1)) as [->|N2] ].
    + rewrite H by lia. destruct (Nat.ltb_spec (len - i - 1) i), (Nat.leb_spec (len - i) (len - i - 1)), (Nat.ltb_spec i (S i)), (Nat.leb_spec (len - S i) i); cbn [orb]; try lia; f_equal; lia.
    + rewrite H by lia. destruct (Nat.ltb_spec i i), (Nat.leb_spec (len - i) i), (Nat.ltb_spec (len - i - 1) (S i)), (Nat.leb_spec (len - S i) (len - i - 1)); cbn [orb]; try lia; f_equal; lia.
    + rewrite H by lia. destruct (Nat.ltb_spec n i), (Nat.leb_spec (len - i) n), (Nat.ltb_spec n (S i)), (Nat.leb_spec (len - S i) n); cbn [orb]; try lia; reflexivity.
Qed.
Lemma swap_rev (l : list byte) : swap_loop (List.length l / 2) 0 l = rev l.
Proof.
  apply (swap_loop_ok l); auto. intros n Hn. rewrite Nat.sub_0_r, (proj2 (Nat.leb_gt _ _) Hn). reflexivity.
Qed.
Theorem C62_Constant : forall f z, testConstant f (Some z) = if 2 ^ 256 <=? Z.abs z then Panics "math/big: buffer too small to fit value" else Ret (fz f =? Z.abs z).
Proof.
  intros f z. unfold testConstant. destruct (Z.leb_spec (2 ^ 256) (Z.abs z)) as [|H]; auto. rewrite swap_rev, rev_involutive. f_equal. apply Bool.eq_iff_eq_true.
  rewrite bytes_eqb_eq, Z.eqb_eq. unfold fe_bytes. split; [|now intros ->]. intros E. apply (le_bytes_inj 32) in E; auto.
  - destruct (fz_Fp_range f) as [H1 H2]. split; [exact H1|]. eapply Z.lt_trans; [exact H2|]. rewrite p_val. reflexivity.
  - change (256 ^ Z.of_nat 32) with (2 ^ 256). lia.
Qed.
(** TestConstants passes. *)
Theorem C62_Constants : forallb (fun fz => match testConstant (fst fz) (Some (snd fz)) with Ret true => true | _ => false end) [
  (r_d, 37095705934669439343138083508754565189542113879843219016388785533085940283555);
  (r_sqrtM1, 19681161376707505956807079304988542015446066515923890162744021073123829784752);
  (r_sqrtADMinusOne, 25063068953384623474111414158702152701244531502492656460079210482610430750235);
  (r_invSqrtAMinusD, 54469307008909316920995813868745141605393597292927456921205312896311721017578);
  (r_oneMinusDSQ, 1159843021668779879193775521855586647937357759715417654439879720876111806838);
  (r_dMinusOneSQ, 40440834346308536858101042469323190826248399146238708352240133220865137265952)] = true.
Proof. cbn [forallb fst snd]. rewrite !C62_Constant. vm_compute. reflexivity. Qed.

Print Assumptions C68_order.
Print Assumptions C68_equal.
Print Assumptions C62_SmallMultiples.
Print Assumptions C62_Constants.
