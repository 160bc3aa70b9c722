(** C62: the test functions of /repo, for all their random draws and for all parameters instead of the constants they fix. *)
From Coq Require Import ZArith Lia List Bool String Ring Field Permutation Sorting.Sorted Setoid Morphisms.
From Coq.Strings Require Import Byte.
From stdpp Require Import base gmap list fin_maps.
From Verif Require Import ZField Primes Bytes Scalar Go Group ToyGroup Spec_Poly Spec_Wire Spec_Text Party Text Poly PolyAlg PolyFacts Zk Eddsa Messages State StateFacts Keygen Sign
  Helpers Cmd Json Slices Tests Spec_Group Spec_State Spec_Public Spec_Sign Properties_Algebra CodecFacts Properties_Codec Properties_Text Properties_Public Properties_Helpers
  Properties_Json Properties_Slices SignFacts SignRun Spec_SignRun Properties_Sign Properties_HonestSign Lift Net KeygenFacts KeygenRun Spec_Keygen Properties_Keygen
  Properties_HonestKeygen Progress NetProgress Lockstep RoundFacts ToyRuns Properties_Cmd.
Import ListNotations.
Local Open Scope Z_scope.

(** ** RandID and loops of cases *)
Theorem C62_RandID : forall n, 0 <= n < 65536 -> 1 <= RandID n < 65536 /\ RandID n = Z.max 1 n.
Proof.
  intros n H. unfold RandID, u16. destruct (Z.eqb_spec n 0) as [->|N].
  - change ((0 + 1) mod 65536) with 1. lia.
  - rewrite Z.mod_small by lia. lia.
Qed.
Lemma all_cases_ret {A} (f : A -> outcome bool) (g : A -> bool) l : (forall a, In a l -> f a = Ret (g a)) -> all_cases f l = Ret (forallb g l).
Proof.
  intros H. unfold all_cases. assert (forall b, ofold (fun ok a => let* x := f a in Ret (ok && x)) b l = Ret (b && forallb g l)) as X; [|exact (X true)].
  induction l as [|a l IH]; intros b; cbn [ofold forallb]; [now rewrite andb_true_r|].
  rewrite H by now left. cbn [obind]. rewrite IH by (intros; apply H; now right). now rewrite andb_assoc.
Qed.
Lemma all_cases_true {A} (f : A -> outcome bool) l : (forall a, In a l -> f a = Ret true) -> all_cases f l = Ret true.
Proof. intros H. rewrite (all_cases_ret f (fun _ => true)) by auto. f_equal. induction l; cbn; auto. apply IHl. intros; apply H; now right. Qed.

(** ** scalar_test.go *)
Lemma iter_one n : Nat.iter n (fun s : Fq => fadd s f1) f0 = qof (Z.of_nat n).
Proof.
  induction n as [|n IH]; cbn [Nat.iter nat_rect]; [reflexivity|]. unfold Nat.iter in IH. rewrite IH.
  rewrite Nat2Z.inj_succ. unfold Z.succ, qof. rewrite fof_add. reflexivity.
Qed.
(** SetScalarUInt32 never panics, and the function used everywhere else is what its bytes give. *)
Theorem C62_SetScalarUInt32 : forall x, 0 <= x < 2 ^ 32 -> SetScalarUInt32 x = Ret (NewScalarUInt32 x) /\ fz (NewScalarUInt32 x) = x.
Proof.
  intros x H. assert (Q : 2 ^ 32 < q25519) by (vm_compute; reflexivity).
  assert (V : fz (NewScalarUInt32 x) = x). { unfold NewScalarUInt32. rewrite fz_qof, (Z.mod_small x) by lia. apply Z.mod_small. lia. }
  split; [|exact V]. unfold SetScalarUInt32.
  assert (E : [z2b x; z2b (Z.shiftr x 8); z2b (Z.shiftr x 16); z2b (Z.shiftr x 24)] ++ repeat x00 28 = scalar_bytes (NewScalarUInt32 x)).
  { unfold scalar_bytes. rewrite V. apply le_val_inj; [rewrite le_bytes_length; reflexivity|]. rewrite le_val_le_bytes, Z.mod_small by (change (256 ^ Z.of_nat 32) with (2 ^ 32 * 2 ^ 224); lia).
    rewrite !Z.shiftr_div_pow2 by lia. cbn [repeat app le_val]. rewrite !b2z_z2b. change (b2z x00) with 0.
    change (2 ^ 8) with 256. change (2 ^ 16) with (256 * 256). change (2 ^ 24) with (256 * 256 * 256). rewrite <- !Z.div_div by lia.
    pose proof (Z.div_mod x 256 ltac:(lia)). pose proof (Z.div_mod (x / 256) 256 ltac:(lia)). pose proof (Z.div_mod (x / 256 / 256) 256 ltac:(lia)).
    rewrite (Z.mod_small (x / 256 / 256 / 256)); [lia|]. split; [repeat apply Z.div_pos; lia|]. repeat apply Z.div_lt_upper_bound; lia. }
  rewrite E, scalar_canonical_bytes. reflexivity.
Qed.
Theorem C62_NewScalarUInt32 : forall tests, Forall (fun x => 0 <= x < 2 ^ 32) tests -> test_NewScalarUInt32 tests = Ret true.
Proof.
  intros tests H. unfold test_NewScalarUInt32.
  assert (scalar_set_canonical (x01 :: repeat x00 31) = Some f1) as ->.
  { replace (x01 :: repeat x00 31) with (scalar_bytes f1) by (vm_compute; reflexivity).
    apply scalar_canonical_bytes. }
  apply all_cases_true. intros x Hx. rewrite List.Forall_forall in H. specialize (H x Hx). f_equal. rewrite iter_one. unfold NewScalarUInt32.
  rewrite Z.mod_small by lia. rewrite Z2Nat.id by lia. apply feqb_refl.
Qed.

(** ** id_test.go *)
Theorem C62_FromBytes : forall b want wantErr, test_FromBytes b want wantErr = true <->
  ((List.length b < 2)%nat /\ wantErr = true /\ want = 0) \/ (exists x y rest, b = x :: y :: rest /\ wantErr = false /\ want = 256 * b2z x + b2z y).
Proof.
  intros b want e. unfold test_FromBytes. destruct b as [|x [|y rest]].
  - cbn [FromBytes]. destruct e; cbn [andb]; [rewrite Z.eqb_eq|]; split; intros H; try discriminate; [left; cbn; repeat split; lia|destruct H as [(_ & _ & ->)|(? & ? & ? & ? & _)]; [reflexivity|discriminate]|destruct H as [(_ & ? & _)|(? & ? & ? & ? & _)]; discriminate].
  - cbn [FromBytes]. destruct e; cbn [andb]; [rewrite Z.eqb_eq|]; split; intros H; try discriminate; [left; cbn; repeat split; lia|destruct H as [(_ & _ & ->)|(? & ? & ? & ? & _)]; [reflexivity|discriminate]|destruct H as [(_ & ? & _)|(? & ? & ? & ? & _)]; discriminate].
  - rewrite C24_bytes_big_endian. destruct e; cbn [negb andb].
    + split; [discriminate|]. intros [(H & _)|(? & ? & ? & _ & H & _)]; [cbn in H; lia|discriminate].
    + rewrite Z.eqb_eq. split; [intros <-; right; eauto 8|]. intros [(H & _)|(x' & y' & r' & E & _ & ->)]; [cbn in H; lia|]. inversion E; subst. reflexivity.
Qed.

(** A number has one shortest decimal numeral. *)
Lemma dec_snoc t c : dec_value (t ++ [c]) = 10 * dec_value t + (b2z c - 48).
Proof. unfold dec_value. rewrite fold_left_app. reflexivity. Qed.
Lemma dec_nonneg t : Forall digit t -> 0 <= dec_value t.
Proof.
  induction t as [|c t IH] using rev_ind; intros H; [cbn; lia|]. rewrite dec_snoc. apply Forall_app in H as [H1 H2]. inversion H2 as [|? ? D _]; subst.
  unfold digit in D. specialize (IH H1). lia.
Qed.
Lemma dec_positive t c : Forall digit (t ++ [c]) -> shortest (t ++ [c]) -> t <> [] -> shortest t /\ 1 <= dec_value t.
Proof.
  intros H (x & t' & E & Hx) N. destruct t as [|y t]; [congruence|]. cbn [app] in E. inversion E; subst y t'. apply Forall_app in H as [H _].
  assert (b2z x <> 48) as NX. { intros X. specialize (Hx X). destruct t; discriminate. }
  split; [exists x, t; split; [reflexivity|intros; contradiction]|]. clear -H NX. inversion H as [|? ? D H']; subst. unfold digit in D.
  induction t as [|c t IH] using rev_ind; [unfold dec_value; cbn; lia|]. change (x :: t ++ [c]) with ((x :: t) ++ [c]) in *. rewrite dec_snoc. apply Forall_app in H' as [H1 H2]. inversion H2 as [|? ? D2 _]; subst. unfold digit in D2.
  assert (Forall digit (x :: t)) as HH by (constructor; auto). specialize (IH HH H1). lia.
Qed.
Lemma dec_unique : forall a b, Forall digit a -> Forall digit b -> shortest a -> shortest b -> dec_value a = dec_value b -> a = b.
Proof.
  induction a as [|c a IH] using rev_ind; intros b Ha Hb Sa Sb E.
  - destruct Sa as (? & ? & ? & _). discriminate.
  - destruct b as [|d b _] using rev_ind; [destruct Sb as (? & ? & ? & _); discriminate|]. rewrite !dec_snoc in E.
    pose proof Ha as Ha'. pose proof Hb as Hb'. apply Forall_app in Ha' as [A1 A2]. apply Forall_app in Hb' as [B1 B2].
    inversion A2 as [|? ? D1 _]; subst. inversion B2 as [|? ? D2 _]; subst. unfold digit in D1, D2.
    pose proof (dec_nonneg a A1). pose proof (dec_nonneg b B1).
    assert (c = d /\ dec_value a = dec_value b) as [-> E']. { split; [apply b2z_inj|]; lia. }
    f_equal. destruct (list_eq_nil_dec a) as [->|Na], (list_eq_nil_dec b) as [->|Nb].
    + reflexivity.
    + destruct (dec_positive b d Hb Sb Nb) as [_ P]. unfold dec_value in E' at 1. cbn in E'. lia.
    + destruct (dec_positive a d Ha Sa Na) as [_ P]. unfold dec_value in E' at 2. cbn in E'. lia.
    + apply IH; auto; [eapply dec_positive; eauto|eapply dec_positive; eauto].
Qed.
Theorem C62_MarshalText : forall p wantText wantErr, 0 <= p < 65536 -> (test_MarshalText p wantText wantErr = true <->
  wantErr = false /\ Forall digit wantText /\ shortest wantText /\ dec_value wantText = p).
Proof.
  intros p t e Hp. unfold test_MarshalText. destruct (C40_id_marshal p Hp) as (M1 & M2 & M3). rewrite andb_true_iff, negb_true_iff, bytes_eqb_eq. split.
  - intros [-> <-]. auto.
  - intros (-> & H1 & H2 & H3). split; [reflexivity|]. apply dec_unique; auto. congruence.
Qed.
Theorem C62_UnmarshalText : forall text wantErr, test_UnmarshalText text wantErr = true <->
  (wantErr = false <-> text <> [] /\ Forall digit text /\ dec_value text < 65536).
Proof.
  intros text e. unfold test_UnmarshalText. pose proof (C40_id_accepts text) as A. destruct (C40_id_total text) as [[n E]|[x E]]; rewrite E.
  - apply A in E as (H1 & H2 & <- & H3). rewrite negb_true_iff. tauto.
  - split.
    + intros ->. split; [discriminate|]. intros (H1 & H2 & H3). exfalso. rewrite (proj2 (A (dec_value text))) in E; auto. discriminate.
    + intros H. destruct e; [reflexivity|]. destruct (proj1 H eq_refl) as (H1 & H2 & H3). rewrite (proj2 (A (dec_value text))) in E; auto. discriminate.
Qed.

(** The coefficients of any set of non-zero IDs sum to 1, and the two rejected cases are exactly those in which Lagrange fails. *)
Theorem C62_Lagrange : forall partyIDs bad, valid_ids partyIDs -> partyIDs <> [] ->
  test_Lagrange partyIDs bad = Ret (forallb (fun j => (j =? 0) || negb (existsb (Z.eqb j) partyIDs)) bad).
Proof.
  intros ids bad V N. destruct (C25_coefficients_sum_to_one ids V N) as (l & H1 & H2). unfold test_Lagrange.
  assert (forall k acc, incl k ids -> ofold (fun (acc : Fq * bool) id => match Lagrange id ids with
      | Ret c => Ret (fadd (fst acc) c, snd acc) | Fail _ => Panics "nil Scalar" | Panics w => Panics w end) acc k = Ret (fadd (fst acc) (Fsum (map l k)), snd acc)) as X.
  { induction k as [|i k IH]; intros [s b] Hk; cbn [ofold].
    - cbn. do 2 f_equal. ring.
    - rewrite (H1 i) by (apply Hk; now left). cbn [obind]. rewrite IH by (intros x Hx; apply Hk; now right). cbn [fst snd map]. unfold Fsum. cbn [fold_right]. do 2 f_equal. ring. }
  rewrite X by (intros x; auto). cbn [obind fst snd]. rewrite H2.
  assert (all_cases (fun id => match Lagrange id ids with Ret _ => Ret false | Fail _ => Ret true | Panics w => Panics w end) bad =
    Ret (forallb (fun j => (j =? 0) || negb (existsb (Z.eqb j) ids)) bad)) as ->.
  { apply all_cases_ret. intros j _. destruct (C25_lagrange_error ids j (valid_u16 _ V)) as (E1 & E2 & _).
    assert ((j =? 0) || negb (existsb (Z.eqb j) ids) = true <-> j = 0 \/ ~ In j ids) as Q.
    { rewrite orb_true_iff, Z.eqb_eq, negb_true_iff. rewrite <- not_true_iff_false, existsb_exists.
      assert ((exists x, In x ids /\ (j =? x) = true) <-> In j ids) as ->; [|reflexivity]. split; [intros (x & Hx & E); apply Z.eqb_eq in E; congruence|intros Hj; exists j; split; auto; apply Z.eqb_refl]. }
    destruct (Lagrange j ids) as [c|e|w] eqn:EL; try discriminate; f_equal; symmetry.
    - apply not_true_iff_false. intros T. apply Q, E1 in T as [e T]. discriminate.
    - apply Q, E1. eauto. }
  cbn [obind]. unfold verdict. cbn [forallb]. rewrite andb_true_r. cbn [andb]. change (NewScalarUInt32 1) with (@f1 q25519). rewrite feqb_refl. reflexivity.
Qed.
(** Without IDs the sum is 0 and the test would fail. *)
Theorem C62_Lagrange_empty : forall bad, test_Lagrange [] bad = Ret false.
Proof.
  intros bad. unfold test_Lagrange. cbn [ofold obind].
  rewrite (all_cases_ret _ (fun _ => true)).
  2:{ intros j _. destruct (C25_lagrange_error [] j (List.Forall_nil _)) as (E1 & E2 & _). destruct (proj2 E1) as [e ->]; [right; intros []|reflexivity]. }
  cbn [obind fst snd]. unfold verdict. cbn [forallb]. replace (feqb (NewScalarUInt32 1) f0) with false; [reflexivity|]. symmetry. vm_compute. reflexivity.
Qed.

(** ** polynomial_test.go *)
Lemma q_large : 2 ^ 40 < q25519. Proof. vm_compute. reflexivity. Qed.
Lemma firstn_le_bytes k : forall n z, (k <= n)%nat -> firstn k (le_bytes n z) = le_bytes k z.
Proof. induction k as [|k IH]; intros [|n] z H; cbn [firstn le_bytes]; try reflexivity; [lia|]. f_equal. apply IH. lia. Qed.
Theorem C62_Polynomial_Evaluate : forall draws, Forall (fun n => 0 <= n < 65536) draws -> test_Polynomial_Evaluate draws = Ret true.
Proof.
  intros draws H. unfold test_Polynomial_Evaluate. apply all_cases_true. intros n Hn. rewrite List.Forall_forall in H. destruct (C62_RandID n (H n Hn)) as [R _].
  set (x := RandID n) in *. rewrite id_scalar_ok by (unfold is_u16; lia). cbn [obind]. rewrite poly_eval_ok. 2:{ intros E. apply idF_0 in E; unfold is_u16; lia. }
  cbn [obind]. f_equal. apply Z.eqb_eq. rewrite Z.mod_small by nia.
  assert (peval [NewScalarUInt32 1; NewScalarUInt32 0; NewScalarUInt32 1] (idF x) = qof (1 + x * x)) as ->.
  { cbn [peval]. change (NewScalarUInt32 1) with (@f1 q25519). change (NewScalarUInt32 0) with (@f0 q25519). unfold idF, qof. rewrite fof_add, fof_mul. change (fof q25519 1) with (@f1 q25519). ring. }
  unfold uint64_le, scalar_bytes.
  assert (fz (qof (1 + x * x)) = 1 + x * x) as ->. { rewrite fz_qof. apply Z.mod_small. pose proof q_large. nia. }
  rewrite firstn_le_bytes by lia. rewrite le_val_le_bytes. rewrite Z.mod_small; [reflexivity|]. change (256 ^ Z.of_nat 8) with (2 ^ 64). nia.
Qed.

Section Parts.
  Context `{L : group_laws} `{Hf : hash_fn}.

  Lemma geqb_of (x y : G) : geq x y -> geqb x y = true. Proof. auto. Qed.
  Lemma gbmul_0 : geq (gbmul f0) gid. Proof. unfold gbmul. apply gsmul_0. Qed.
  Lemma gbmul_add a b : geq (gbmul (fadd a b)) (gadd (gbmul a) (gbmul b)). Proof. symmetry. apply gb_add. Qed.
  Lemma NewPolynomial_ret r k d c : 0 <= d < 65535 -> exists p, NewPolynomial r k d c = Ret p /\ Z.of_nat (List.length p) = d + 1.
  Proof. intros H. destruct (C27_new_polynomial r k d c H) as (p & E & HL & _). eauto. Qed.
  Lemma index_ok n : 0 <= n < 65536 -> exists x, id_scalar (RandID n) = Ret x /\ x <> f0.
  Proof.
    intros H. destruct (C62_RandID n H) as [R _]. rewrite id_scalar_ok by (unfold is_u16; lia). eexists. split; [reflexivity|].
    intros E. apply idF_0 in E; unfold is_u16; lia.
  Qed.

  (** ** exponent_test.go *)
  Theorem C62_Exponent_Evaluate : forall N r n, 0 <= N < 65535 -> 0 <= n < 65536 -> test_Exponent_Evaluate N r n = Ret true.
  Proof.
    intros N r n HN Hn. unfold test_Exponent_Evaluate. destruct (NewPolynomial_ret r 1 N (SetScalarRandom r 0) HN) as (p & -> & _). cbn [obind].
    destruct (index_ok n Hn) as (x & -> & Hx). cbn [obind]. destruct (C27_commitment p x Hx) as (P & y & EP & Ey & HP). rewrite Ey. cbn [obind].
    destruct (C27_exponent_evaluate (NewPolynomialExponent p) x Hx) as (P1 & P2 & P3 & E1 & E2 & E3 & H1 & H2 & H3).
    rewrite E3. cbn [obind]. rewrite E1. cbn [obind]. unfold exp_eval in EP. rewrite EP in E2. apply Ret_inj in E2 as <-. rewrite EP. cbn [obind].
    unfold verdict. cbn [forallb]. rewrite (geqb_of (gbmul y) P3), (geqb_of (gbmul y) P1), (geqb_of (gbmul y) P); [reflexivity|..]; rewrite <- HP; [reflexivity|now rewrite H1, H2|now rewrite H3, H2].
  Qed.
  (** Degree 65535 (the largest Size) crashes. *)
  Theorem C62_Exponent_Evaluate_max : forall r n, is_panic (test_Exponent_Evaluate 65535 r n) = true.
  Proof. reflexivity. Qed.

  Theorem C62_Sum : forall Deg rs n, 0 <= Deg < 65535 -> 0 <= n < 65536 -> rs <> [] -> test_Sum Deg rs n = Ret true.
  Proof.
    intros Deg rs n HD Hn NE. unfold test_Sum. destruct (index_ok n Hn) as (x & -> & Hx). cbn [obind].
    match goal with |- context [ofold ?F _ rs] => set (step := F) end.
    assert (forall ex s P r, exists p Y, step (ex, s, P) r = Ret (ex ++ [NewPolynomialExponent p], fadd s (peval p x), gadd P Y) /\ Z.of_nat (List.length p) = Deg + 1 /\ geq Y (gbmul (peval p x))) as ST.
    { intros ex s P r. destruct (NewPolynomial_ret r 1 Deg (SetScalarRandom r 0) HD) as (p & E & Hp). destruct (C27_commitment p x Hx) as (Y & y & EY & Ey & HY).
      exists p, Y. unfold step. rewrite E. cbn [obind]. rewrite Ey. cbn [obind]. rewrite EY. cbn [obind]. rewrite poly_eval_ok in Ey by auto. apply Ret_inj in Ey. subst y. auto. }
    assert (forall l ex s P, exists qs s' P', ofold step (ex, s, P) l = Ret (ex ++ map NewPolynomialExponent qs, s', P') /\
       List.length qs = List.length l /\ Forall (fun q => Z.of_nat (List.length q) = Deg + 1) qs /\
       s' = fadd s (Fsum (map (fun q => peval q x) qs)) /\ geq P' (gadd P (gbmul (Fsum (map (fun q => peval q x) qs))))) as X.
    { induction l as [|r l IH]; intros ex s P; cbn [ofold].
      - exists [], s, P. cbn [map]. rewrite app_nil_r. split; [reflexivity|]. split; [reflexivity|]. split; [constructor|]. cbn [Fsum fold_right]. split; [ring|]. now rewrite gbmul_0, gadd_id_r.
      - destruct (ST ex s P r) as (p & Y & -> & Hp & HY). cbn [obind].
        destruct (IH (ex ++ [NewPolynomialExponent p]) (fadd s (peval p x)) (gadd P Y)) as (qs & s' & P' & E & HL & HF & Hs & HP). exists (p :: qs), s', P'. rewrite E.
        split; [cbn [map]; now rewrite <- app_assoc|]. split; [cbn; lia|]. split; [constructor; auto|]. cbn [map Fsum fold_right]. split; [rewrite Hs; unfold Fsum; ring|].
        rewrite HP, HY. fold (Fsum (map (fun q => peval q x) qs)). rewrite gbmul_add. now rewrite gadd_assoc. }
    destruct (X rs [] f0 gid) as (qs & s' & P' & -> & HL & HF & -> & HP). cbn [obind app]. destruct qs as [|p qs]; [destruct rs; [congruence|discriminate]|].
    destruct (C27_sum (NewPolynomialExponent p) (map NewPolynomialExponent qs)) as [HS _]. destruct HS as (C & EC & HC & HE).
    { apply List.Forall_forall. intros B HB. apply in_map_iff in HB as (q & <- & Hq). unfold NewPolynomialExponent. rewrite !map_length. inversion HF as [|? ? H1 H2]; subst. rewrite List.Forall_forall in H2. specialize (H2 q Hq). lia. }
    assert (exp_sum (map NewPolynomialExponent (p :: qs)) = Ret C) as EC' by exact EC. rewrite EC'. clear EC'. destruct (exp_eval_ok C x Hx) as (Q & -> & HQ). cbn [obind].
    assert (geq Q (gbmul (Fsum (map (fun q => peval q x) (p :: qs))))) as HQ'.
    { rewrite HQ, gpeval_gpoly, HE. clear - L. change (NewPolynomialExponent p :: map NewPolynomialExponent qs) with (map NewPolynomialExponent (p :: qs)). induction (p :: qs) as [|a l IH]; cbn [map Gsum fold_right Fsum]; [now rewrite gbmul_0|].
      rewrite gbmul_add, <- gpeval_gpoly, gpeval_commit. fold Gsum. unfold Fsum, Gsum in IH. rewrite IH. reflexivity. }
    unfold verdict. cbn [forallb]. rewrite (geqb_of Q (gbmul _)), (geqb_of Q P'); [reflexivity|..].
    - rewrite HP, gadd_id_l. exact HQ'.
    - rewrite HQ'. now replace (fadd f0 (Fsum (map (fun q => peval q x) (p :: qs)))) with (Fsum (map (fun q => peval q x) (p :: qs))) by ring.
  Qed.
  Theorem C62_Sum_empty : forall Deg n, 0 <= n < 65536 -> is_panic (test_Sum Deg [] n) = true.
  Proof. intros Deg n Hn. unfold test_Sum. destruct (index_ok n Hn) as (x & -> & Hx). reflexivity. Qed.
End Parts.

Section Proofs.
  Context `{L : group_laws} `{Hf : hash_fn}.

  (** ** schnorr_test.go *)
  Theorem C62_SchnorrProof : forall id ctx private k,
    test_SchnorrProof id ctx private k = if (List.length ctx <? 32)%nat then Panics "slice bounds out of range [:32]" else Ret true.
  Proof.
    intros id ctx private k. unfold test_SchnorrProof. destruct (Nat.ltb_spec (List.length ctx) 32) as [H|H].
    - unfold NewSchnorrProof, zk_challenge. now rewrite (proj2 (Nat.ltb_lt _ _) H).
    - destruct (C07_proof_exists k id private ctx (gbmul private) H) as [pr E]. rewrite E. cbn [obind].
      rewrite (C07_complete k id private ctx (gbmul private) pr ltac:(reflexivity) E). cbn [obind]. unfold verdict. cbn [forallb]. now rewrite geqb_of by reflexivity.
  Qed.
  (** The test cannot see what the challenge is: it passes whatever function of the group element replaces it, hence also with
      the constant 0 that the code computes (C07). *)
  Definition test_Schnorr_with (challenge : G -> Fq) (private k : Fq) : bool :=
    let public := gbmul private in
    let Sc := challenge (gbmul k) in
    let Rc := fadd (fmul private Sc) k in
    feqb Sc (challenge (gdsmul Sc (gneg public) Rc)).
  Theorem C62_schnorr_blind : forall challenge, (forall X Y, geq X Y -> challenge X = challenge Y) -> forall private k, test_Schnorr_with challenge private k = true.
  Proof.
    intros ch HP private k. unfold test_Schnorr_with. cbv zeta. apply feqb_eq. apply HP. unfold gdsmul. gcollapse. apply gb_inj. ring.
  Qed.
  Theorem C62_schnorr_with : hash_ok Hf -> forall id ctx private k, (32 <= List.length ctx)%nat ->
    test_SchnorrProof id ctx private k = Ret (test_Schnorr_with (fun _ => f0) private k).
  Proof.
    intros HO id ctx private k H. rewrite C62_SchnorrProof, (proj2 (Nat.ltb_ge _ _) H). reflexivity.
  Qed.

  (** ** messages *)
  Lemma check_decoded_ok grow h m : built m -> exists m', check_decoded grow h m = Ret m' /\ msg_Equal m m' = true.
  Proof.
    intros B. unfold check_decoded. rewrite (C61_checker grow h m zero_message B). cbn [obind].
    destruct (C20_round_trip m zero_message B) as (b & m' & E & _ & U & Q & _). rewrite E. cbn [obind]. eauto.
  Qed.
  Lemma geqb_comm (x y : G) : geqb x y = geqb y x.
  Proof. apply eq_iff_eq_true. change (geq x y <-> geq y x). split; intros; now symmetry. Qed.

  Lemma feqb_comm (x y : Fq) : feqb x y = feqb y x.
  Proof. apply eq_iff_eq_true. rewrite !feqb_eq. split; congruence. Qed.
  Lemma exp_equal_comm (A B : list G) : exp_equal A B = exp_equal B A.
  Proof.
    apply eq_iff_eq_true. rewrite !exp_equal_iff. assert (forall A B : list G, Forall2 geq A B -> Forall2 geq B A) as X; [|split; apply X].
    clear - L. induction 1; constructor; auto. now symmetry.
  Qed.
  (** Message.Equal is symmetric. *)
  Lemma msg_equal_sym a b : msg_Equal a b = msg_Equal b a.
  Proof.
    unfold msg_Equal. assert (header_equal (m_Header a) (m_Header b) = header_equal (m_Header b) (m_Header a)) as E.
    { unfold header_equal. now rewrite (Z.eqb_sym (h_Type (m_Header a))), (Z.eqb_sym (h_From (m_Header a))), (Z.eqb_sym (h_To (m_Header a))). }
    rewrite E. destruct (header_equal (m_Header b) (m_Header a)) eqn:EH; auto. cbn [andb].
    assert (m_Type a = m_Type b) as ->. { unfold header_equal in EH. rewrite !andb_true_iff, !Z.eqb_eq in EH. unfold m_Type. intuition. }
    repeat match goal with |- context [if ?c then _ else _] => destruct c end; auto.
    - destruct (m_KeyGen1 a), (m_KeyGen1 b); cbn [oequal]; auto. unfold k1_equal, schnorr_equal. rewrite exp_equal_comm, (feqb_comm (pr_S _)), (feqb_comm (pr_R _)). reflexivity.
    - destruct (m_KeyGen2 a), (m_KeyGen2 b); cbn [oequal]; auto. apply feqb_comm.
    - destruct (m_Sign1 a), (m_Sign1 b); cbn [oequal]; auto. unfold s1_equal. now rewrite (geqb_comm (s1_Di _)), (geqb_comm (s1_Ei _)).
    - destruct (m_Sign2 a), (m_Sign2 b); cbn [oequal]; auto. apply feqb_comm.
  Qed.
  Theorem C62_KeyGen1 : forall grow h n deg r k context, 0 <= n < 65536 -> 0 <= deg < 65535 ->
    test_KeyGen1 grow h n deg r k context = if (List.length context <? 32)%nat then Panics "slice bounds out of range [:32]" else Ret true.
  Proof.
    intros grow h n deg r k context Hn Hd. unfold test_KeyGen1. destruct (C62_RandID n Hn) as [R _]. destruct (C27_new_polynomial r 1 deg (SetScalarRandom r 0) Hd) as (p & -> & HL & _ & Ec & _). cbn [obind].
    destruct p as [|c p]; [discriminate|]. cbn [NewPolynomialExponent map exp_constant poly_constant obind].
    destruct (Nat.ltb_spec (List.length context) 32) as [H|H].
    - unfold NewSchnorrProof, zk_challenge. now rewrite (proj2 (Nat.ltb_lt _ _) H).
    - destruct (C07_proof_exists k (RandID n) c context (gbmul c) H) as [pr E]. rewrite E. cbn [obind].
      assert (built (NewKeyGen1 (RandID n) pr (NewPolynomialExponent (c :: p)))) as B.
      { constructor; unfold NewPolynomialExponent; rewrite ?map_length; cbn [List.length] in *; lia. }
      destruct (check_decoded_ok grow h _ B) as (m' & E' & Q). cbn [NewPolynomialExponent map] in E', Q. rewrite E'. cbn [require_ok].
      f_equal. rewrite <- Q. symmetry. apply msg_equal_sym.
  Qed.
  (** The sender and the receiver are drawn with rand.Uint32 instead of RandID: the test fails when one of them happens to be 0. *)
  Theorem C62_KeyGen2_refuted : forall grow h a b secret, test_KeyGen2 grow h a b secret = Ret (negb (a mod 65536 =? 0) && negb (b mod 65536 =? 0)).
  Proof.
    intros grow h a b secret. unfold test_KeyGen2. unfold u16. pose proof (Z.mod_pos_bound a 65536 ltac:(lia)) as Ha. pose proof (Z.mod_pos_bound b 65536 ltac:(lia)) as Hb.
    set (x := a mod 65536) in *. set (y := b mod 65536) in *.
    assert (~ (1 <= x < 65536 /\ 1 <= y < 65536) -> exists e, check_decoded grow h (NewKeyGen2 x y secret) = Fail e) as FA.
    { intros H. unfold check_decoded, check_message, CheckFROSTMarshaler. pose proof (C61_marshal_any grow h (NewKeyGen2 x y secret)) as P.
      unfold msg_MarshalBinary in P. change (m_Header (NewKeyGen2 x y secret)) with (mkHeader MTKeyGen2 x y) in P. destruct (header_bytes (mkHeader MTKeyGen2 x y)) as [hb|e|w] eqn:E; cbn [obind] in P.
      - exfalso. apply H. assert (exists b, header_bytes (mkHeader MTKeyGen2 x y) = Ret b) as X by eauto. apply C22_encode in X. unfold addressing in X. cbn [h_Type h_From h_To] in X. unfold MTKeyGen2 in X. lia.
      - destruct (msg_MarshalBinary_slice grow h (NewKeyGen2 x y secret)) as [|e'|w]; try contradiction. cbn [obind]. eauto.
      - now destruct (msg_MarshalBinary_slice grow h (NewKeyGen2 x y secret)). }
    destruct (Z.eqb_spec x 0) as [Hx|Hx]; [destruct FA as [e ->]; [lia|reflexivity]|]. destruct (Z.eqb_spec y 0) as [Hy|Hy]; [destruct FA as [e ->]; [lia|reflexivity]|].
    assert (built (NewKeyGen2 x y secret)) as B by (constructor; lia). clear FA.
    unfold check_decoded. rewrite (C61_checker grow h _ zero_message B). cbn [obind]. destruct (C20_layout x y (mkSchnorr f0 f0) [gid] secret gid gid f0) as (_ & E & _); [lia|lia|cbn; lia|cbn; lia|].
    destruct (C20_round_trip _ zero_message B) as (bs0 & m' & E0 & _ & U & Q & HH). rewrite E0. cbn [obind]. rewrite U. cbn [require_ok]. f_equal.
    assert (m_KeyGen1 m' = None /\ m_Sign1 m' = None /\ m_Sign2 m' = None) as (N1 & N2 & N3).
    { revert U HH. clear. unfold msg_UnmarshalBinary, zero_message. intros U HH. apply obind_ret in U as (hd & _ & U). cbv zeta in U.
      destruct (h_Type hd =? MTKeyGen1) eqn:T1.
      { exfalso. apply obind_ret in U as (k & _ & U). apply Ret_inj in U. subst m'. cbn in HH. subst hd. discriminate. }
      destruct (h_Type hd =? MTKeyGen2) eqn:T2. { apply obind_ret in U as (k & _ & U). apply Ret_inj in U. subst m'. auto. }
      destruct (h_Type hd =? MTSign1) eqn:T3. { exfalso. apply obind_ret in U as (k & _ & U). apply Ret_inj in U. subst m'. cbn in HH. subst hd. discriminate. }
      destruct (h_Type hd =? MTSign2) eqn:T4; [|discriminate]. exfalso. apply obind_ret in U as (k & _ & U). apply Ret_inj in U. subst m'. cbn in HH. subst hd. discriminate. }
    unfold deep_equal_K2. rewrite N1, N2, N3. unfold msg_Equal in Q. apply andb_true_iff in Q as [Q1 Q2]. change (oequal k2_equal (m_KeyGen2 (NewKeyGen2 x y secret)) (m_KeyGen2 m') = true) in Q2. rewrite Q1, Q2. reflexivity.
  Qed.
  Theorem C62_Sign1 : forall grow h from d e, 1 <= from < 65536 -> test_Sign1 grow h from d e = Ret true.
  Proof.
    intros grow h from d e H. unfold test_Sign1. assert (built (NewSign1 from (gbmul d) (gbmul e))) as B by now constructor.
    destruct (check_decoded_ok grow h _ B) as (m' & -> & Q). cbn [require_ok]. now rewrite Q.
  Qed.
  Theorem C62_Sign2 : forall grow h n s, 0 <= n < 65536 -> test_Sign2 grow h n s = Ret true.
  Proof.
    intros grow h n s H. unfold test_Sign2. destruct (C62_RandID n H) as [R _]. assert (built (NewSign2 (RandID n) s)) as B by now constructor.
    unfold check_decoded. rewrite (C61_checker grow h _ zero_message B). cbn [obind].
    destruct (C20_round_trip _ zero_message B) as (bs0 & m' & E0 & _ & U & Q & HH). rewrite E0. cbn [obind]. rewrite U. cbn [require_ok]. f_equal.
    assert (m_KeyGen1 m' = None /\ m_KeyGen2 m' = None /\ m_Sign1 m' = None) as (N1 & N2 & N3).
    { revert U HH. clear. unfold msg_UnmarshalBinary, zero_message. intros U HH. apply obind_ret in U as (hd & _ & U). cbv zeta in U.
      destruct (h_Type hd =? MTKeyGen1) eqn:T1.
      { exfalso. apply obind_ret in U as (k & _ & U). apply Ret_inj in U. subst m'. cbn in HH. subst hd. discriminate. }
      destruct (h_Type hd =? MTKeyGen2) eqn:T2. { exfalso. apply obind_ret in U as (k & _ & U). apply Ret_inj in U. subst m'. cbn in HH. subst hd. discriminate. }
      destruct (h_Type hd =? MTSign1) eqn:T3. { exfalso. apply obind_ret in U as (k & _ & U). apply Ret_inj in U. subst m'. cbn in HH. subst hd. discriminate. }
      destruct (h_Type hd =? MTSign2) eqn:T4; [|discriminate]. apply obind_ret in U as (k & _ & U). apply Ret_inj in U. subst m'. auto. }
    unfold deep_equal_S2. rewrite N1, N2, N3. unfold msg_Equal in Q. apply andb_true_iff in Q as [Q1 Q2]. change (oequal s2_equal (m_Sign2 (NewSign2 (RandID n) s)) (m_Sign2 m') = true) in Q2. rewrite Q1, Q2. reflexivity.
  Qed.
End Proofs.

(** ** header_test.go *)
(** A row that expects success passes exactly if the data start with the encoding of the expected (admissible) header; a row that expects an
    error passes exactly if the data do not start with the encoding of any header. *)
Theorem C62_Header : forall h data,
  (test_Header h data false = true <-> addressing h /\ exists b, header_bytes h = Ret b /\ firstn 5 data = b /\ is_u16 (h_From h) /\ is_u16 (h_To h)) /\
  (test_Header h data true = true <-> ~ exists h2 b, header_bytes h2 = Ret b /\ firstn 5 data = b /\ is_u16 (h_From h2) /\ is_u16 (h_To h2)).
Proof.
  intros h data.
  assert (forall h2, header_unmarshal data = Ret h2 <-> exists b, header_bytes h2 = Ret b /\ firstn 5 data = b /\ is_u16 (h_From h2) /\ is_u16 (h_To h2)) as X.
  { intros h2. split.
    - intros E. destruct (C22_decode_canonical data h2 E) as (b & Eb & ED). destruct (C22_decode data h2 E) as (_ & U1 & U2). exists b. split; auto. split; auto.
      rewrite ED. assert (exists b, header_bytes h2 = Ret b) as A by eauto. apply C22_encode in A. destruct (C22_round_trip h2 [] A U1 U2) as (b' & Eb' & HL & _). rewrite Eb in Eb'. apply Ret_inj in Eb'. subst b'.
      now rewrite <- HL, firstn_app, Nat.sub_diag, firstn_all, firstn_O, app_nil_r.
    - intros (b & Eb & ED & U1 & U2). assert (exists b, header_bytes h2 = Ret b) as A by eauto. apply C22_encode in A. destruct (C22_round_trip h2 (skipn 5 data) A U1 U2) as (b' & Eb' & HL & EU).
      rewrite Eb in Eb'. apply Ret_inj in Eb'. subst b'. rewrite <- ED in EU. now rewrite firstn_skipn in EU. }
  assert (forall a b, header_equal a b = true <-> a = b) as HE.
  { intros [t f o] [t' f' o']. unfold header_equal. cbn. rewrite !andb_true_iff, !Z.eqb_eq. split; [intros [[-> ->] ->]; auto|intros E; injection E; auto]. }
  unfold test_Header. destruct (header_unmarshal data) as [h2|e|w] eqn:E; cbn [negb andb].
  - split.
    + rewrite HE. split.
      * intros ->. split; [now apply (C22_decode data)|]. now apply X.
      * intros (_ & b & Eb). assert (Ret h2 = Ret h) as E' by (apply X; eauto). now apply Ret_inj in E'.
    + split; [discriminate|]. intros N. exfalso. apply N. exists h2. now apply X.
  - split; (split; [|auto]); [discriminate| |].
    + intros (_ & b & Eb). assert (Fail e = Ret h) as E' by (apply X; eauto). discriminate.
    + intros _ (h2 & b & Eb). assert (Fail e = Ret h2) as E' by (apply X; eauto). discriminate.
  - split; (split; [|auto]); [discriminate| |].
    + intros (_ & b & Eb). assert (Panics w = Ret h) as E' by (apply X; eauto). discriminate.
    + intros _ (h2 & b & Eb). assert (Panics w = Ret h2) as E' by (apply X; eauto). discriminate.
Qed.
(** The rows of the table, header_test.go:29-111. *)
Example C62_Header_table : forallb (fun row => test_Header (fst (fst row)) (snd (fst row)) (snd row))
  [(mkHeader 1 1 0, [x01; x00; x01; x00; x00], false); (mkHeader 1 1 2, [x01; x00; x01; x00; x02], true);
   (mkHeader 2 2 1, [x02; x00; x02; x00; x01], false); (mkHeader 2 2 0, [x02; x00; x02; x00; x00], true);
   (mkHeader 3 2 0, [x03; x00; x02; x00; x00], false); (mkHeader 3 2 1, [x03; x00; x02; x00; x01], true);
   (mkHeader 4 2 0, [x04; x00; x02; x00; x00], false); (mkHeader 4 2 1, [x04; x00; x02; x00; x01], true);
   (mkHeader 0 2 1, [x04; x00; x02; x00; x01], true)] = true.
Proof. vm_compute. reflexivity. Qed.
(** The last row, "bad type", does not test the type: it repeats the data of the row before. *)

Section Shares.
  Context `{L : group_laws} `{Hf : hash_fn}.

  (** ** secret_share_test.go *)
  Theorem C62_SecretShare : forall id secret, is_u16 id -> test_SecretShare_JSON id secret = Ret true /\ test_SecretShare_Binary id secret = Ret true.
  Proof.
    intros id secret H. unfold test_SecretShare_JSON, test_SecretShare_Binary. cbv zeta. rewrite C46_share_round_trip by auto. destruct (C28_share_round_trip id secret H) as [_ ->].
    assert (share_equal (NewSecretShare id secret) (NewSecretShare id secret) = true) as -> by (unfold share_equal; now rewrite Z.eqb_refl, feqb_refl). auto.
  Qed.

  (** ** public_test.go *)
  Definition distinct_ids (draws : list Z) : list Z := nodup Z.eq_dec (map RandID draws).
  Lemma distinct_In draws i : In i (distinct_ids draws) <-> In i (map RandID draws).
  Proof. unfold distinct_ids. apply nodup_In. Qed.

  Lemma fake_points_ok r draws T : Forall (fun n => 0 <= n < 65536) draws -> 0 <= T < 65535 -> exists m, fake_points r draws T = Ret (SetScalarRandom r 0, m) /\
    (forall i, In i (map RandID draws) -> m !! i = Some (gbmul (spoly (dealt r (Z.to_nat T)) (qof i)))) /\ (forall i, ~ In i (map RandID draws) -> m !! i = None).
  Proof.
    intros HF HT. unfold fake_points. unfold NewPolynomial, u16. rewrite Z.mod_small by lia. rewrite (proj2 (Z.eqb_neq _ _)) by lia. cbn [obind]. rewrite dealt_cons. set (f := dealt r (Z.to_nat T)).
    match goal with |- context [ofold ?F _ draws] => set (step := F) end.
    assert (forall l (acc : gmap Z G), Forall (fun n => 0 <= n < 65536) l -> exists m,
      ofold step acc l = Ret m /\
      (forall i, In i (map RandID l) -> m !! i = Some (gbmul (spoly f (qof i)))) /\ (forall i, ~ In i (map RandID l) -> m !! i = acc !! i)) as X.
    { clear HF. induction l as [|n l IH]; intros acc HF; cbn [ofold map].
      - exists acc. split; auto. split; [intros i []|auto].
      - inversion HF as [|? ? Hn HF']; subst. destruct (C62_RandID n Hn) as [R _]. unfold step at 1. cbv zeta. rewrite id_scalar_ok by (unfold is_u16; lia). cbn [obind].
        rewrite poly_eval_ok. 2:{ intros E. apply idF_0 in E; unfold is_u16; lia. } cbn [obind].
        destruct (IH (<[RandID n := gbmul (peval f (idF (RandID n)))]> acc) HF') as (m & E & H1 & H2). exists m. split; [exact E|]. split.
        + intros i [<-|Hi]; auto. destruct (in_dec Z.eq_dec (RandID n) (map RandID l)) as [Hin|Hin]; auto. rewrite H2 by auto. setoid_rewrite lookup_insert. rewrite peval_spoly. reflexivity.
        + intros i Hi. rewrite H2 by (intros Y; apply Hi; now right). apply lookup_insert_ne. intros E9. apply Hi. now left. }
    destruct (X draws ∅ HF) as (m & E & H1 & H2). exists m. rewrite E. cbn [obind]. split; [reflexivity|]. split; auto. 
  Qed.

  Lemma fake_size r draws T (m : gmap Z G) : (forall i, In i (map RandID draws) -> m !! i = Some (gbmul (spoly (dealt r (Z.to_nat T)) (qof i)))) -> (forall i, ~ In i (map RandID draws) -> m !! i = None) ->
    size m = List.length (distinct_ids draws).
  Proof.
    intros H1 H2. rewrite <- (map_keys_length [] m). apply Permutation_length. apply Permutation.NoDup_Permutation; [apply map_keys_NoDup|apply NoDup_nodup|].
    intros i. rewrite map_keys_In, distinct_In. split.
    - intros [P HP]. destruct (in_dec Z.eq_dec i (map RandID draws)) as [|N]; auto. rewrite H2 in HP by auto. discriminate.
    - intros Hi. rewrite H1 by auto. eauto.
  Qed.

  (** The tests pass if more than T distinct IDs were drawn; otherwise NewPublic fails and the nil Public is dereferenced. *)
  Theorem C62_Shares_GroupKey : forall sched r draws T, Forall (fun n => 0 <= n < 65536) draws -> 0 <= T < 65535 ->
    test_Shares_GroupKey sched r draws T = if T <? Z.of_nat (List.length (distinct_ids draws)) then Ret true else Panics "nil Public".
  Proof.
    intros sched r draws T HF HT. unfold test_Shares_GroupKey. destruct (fake_points_ok r draws T HF HT) as (m & -> & H1 & H2). cbn [obind fst snd].
    assert (usable m) as U. { intros j P Hj. destruct (in_dec Z.eq_dec j (map RandID draws)) as [Hi|N]; [|rewrite H2 in Hj by auto; discriminate].
      apply in_map_iff in Hi as (n & <- & Hn). rewrite List.Forall_forall in HF. apply C62_RandID. auto. }
    rewrite <- (fake_size r draws T m H1 H2). destruct (C29_NewPublic sched m T U HT) as [A B]. destruct (Z.ltb_spec T (Z.of_nat (size m))) as [Hlt|Hge].
    - destruct (A Hlt) as (p & E & _). rewrite E. f_equal. apply geqb_of.
      rewrite (C29_group_key sched m T (dealt r (Z.to_nat T)) p U HT E).
      + rewrite <- peval_spoly. apply eq_subrelation; [typeclasses eauto|]. f_equal. unfold dealt. cbn [seq map]. now rewrite peval_0.
      + unfold degree_le, dealt. rewrite map_length, seq_length. lia.
      + intros j P Hj. destruct (in_dec Z.eq_dec j (map RandID draws)) as [Hi|N]; [|rewrite H2 in Hj by auto; discriminate]. rewrite H1 in Hj by auto. injection Hj as <-. reflexivity.
    - destruct (B Hge) as (e & ->). reflexivity.
  Qed.
  Theorem C62_Shares_JSON : forall sched sched' r draws T, Forall (fun n => 0 <= n < 65536) draws -> 0 <= T < 65535 ->
    test_Shares_JSON sched sched' r draws T = if T <? Z.of_nat (List.length (distinct_ids draws)) then Ret true else Panics "nil Public".
  Proof.
    intros sched sched' r draws T HF HT. pose proof (C62_Shares_GroupKey sched r draws T HF HT) as K. unfold test_Shares_GroupKey, test_Shares_JSON in *. destruct (fake_points_ok r draws T HF HT) as (m & E0 & H1 & H2). rewrite E0 in *. cbn [obind fst snd] in *.
    assert (usable m) as U. { intros j P Hj. destruct (in_dec Z.eq_dec j (map RandID draws)) as [Hi|N]; [|rewrite H2 in Hj by auto; discriminate].
      apply in_map_iff in Hi as (n & <- & Hn). rewrite List.Forall_forall in HF. apply C62_RandID. auto. }
    rewrite <- (fake_size r draws T m H1 H2) in *. destruct (C29_NewPublic sched m T U HT) as [A B]. destruct (Z.ltb_spec T (Z.of_nat (size m))) as [Hlt|Hge].
    - destruct (A Hlt) as (p & E & P1 & P2 & P3 & P4). rewrite E in *. apply Ret_inj in K.
      destruct (C46_public_round_trip sched' p) as (p' & E' & Q).
      + unfold well_formed. now rewrite P2.
      + now rewrite P2.
      + rewrite P1, P2. lia.
      + now rewrite P2.
      + rewrite E'. cbn [obind]. rewrite Q. cbn [obind]. unfold verdict. cbn [forallb]. now rewrite K.
    - destruct (B Hge) as (e & ->). reflexivity.
  Qed.
End Shares.

Section Signatures.
  Context `{L : group_laws} `{Hf : hash_fn} (HH : hash_ok Hf).

  (** ** signature_test.go *)
  Lemma generated_verifies seed message r : Verify (snd (generateSignature seed message r)) message (fst (generateSignature seed message r)) = true.
  Proof.
    unfold generateSignature, newKeyPair, share_sign, NewSecretShare. cbv zeta. cbn [fst snd sh_Public sh_Secret]. apply (Verify_iff HH). unfold schnorr_valid. cbn [sig_R sig_S].
    rewrite (ComputeChallenge_chal HH). set (c := chal _ _ _). gcollapse. apply gb_inj. ring.
  Qed.
  Theorem C62_Signature_Verify : forall edv seed message r,
    (forall Y sig, Verify Y message sig = true -> edv (pk_ToEd25519 Y) message (sig_ToEd25519 sig) = true) -> test_Signature_Verify edv seed message r = Ret true.
  Proof.
    intros edv seed message r ED. unfold test_Signature_Verify. pose proof (generated_verifies seed message r) as V. destruct (generateSignature seed message r) as [sig pk]. cbn [fst snd] in V.
    rewrite V, (ED _ _ V). reflexivity.
  Qed.
  Theorem C62_Signature_Encode : forall grow h seed message r, test_Signature_Encode grow h seed message r = Ret true.
  Proof.
    intros grow h seed message r. unfold test_Signature_Encode. destruct (generateSignature seed message r) as [sig pk]. rewrite C61_checker_signature. cbn [obind].
    destruct (C28_signature_round_trip sig) as (_ & s' & -> & _ & E1 & E2). cbn [require_ok]. unfold verdict. cbn [forallb]. rewrite E2, feqb_refl. rewrite geqb_of by now symmetry. reflexivity.
  Qed.

  (** ** keygen_test.go *)
  Lemma CompareOutput_ok ids pub1 pub2 (F : Fq -> Fq) gk1 gk2 : StronglySorted Z.lt ids ->
    (forall pub, pub = pub1 \/ pub = pub2 -> pub_PartyIDs pub = ids /\ geq (pub_GroupKey pub) (gbmul (F f0)) /\
       (forall j, In j ids -> exists A, pub_Shares pub !! j = Some A /\ geq A (gbmul (F (qof j)))) /\ (forall j, ~ In j ids -> pub_Shares pub !! j = None)) ->
    pub_Threshold pub1 = pub_Threshold pub2 -> geq gk1 (pub_GroupKey pub1) -> geq gk2 (pub_GroupKey pub2) -> CompareOutput gk1 gk2 pub1 pub2 = Ret true.
  Proof.
    intros HS HP HT G1 G2. destruct (HP pub1 (or_introl eq_refl)) as (A1 & A2 & A3 & A4). destruct (HP pub2 (or_intror eq_refl)) as (B1 & B2 & B3 & B4).
    assert (forall pub, pub = pub1 \/ pub = pub2 -> well_formed pub) as WF.
    { intros pub Hp. destruct (HP pub Hp) as (C1 & _ & C3 & C4). unfold well_formed. rewrite C1. split; auto. intros j. split; [intros Hj; destruct (C3 j Hj) as (A & EA & _); eauto|].
      intros [P EP]. destruct (in_dec Z.eq_dec j ids) as [|N]; auto. rewrite C4 in EP by auto. discriminate. }
    unfold CompareOutput. destruct (C29_Equal pub1 pub2 (WF _ (or_introl eq_refl)) (WF _ (or_intror eq_refl))) as (b & -> & Hb). cbn [obind].
    assert (b = true) as ->.
    { apply Hb. split; [congruence|]. split; auto. split; [now rewrite A2, B2|]. intros j P P2 E1 E2. destruct (in_dec Z.eq_dec j ids) as [Hj|N]; [|rewrite A4 in E1 by auto; discriminate].
      destruct (A3 j Hj) as (X & EX & HX). destruct (B3 j Hj) as (Y & EY & HY). rewrite E1 in EX. rewrite E2 in EY. injection EX as ->. injection EY as ->. now rewrite HX, HY. }
    cbn [negb]. rewrite A1, B1. rewrite Nat.eqb_refl. cbn [negb].
    match goal with |- obind ?X _ = _ => assert (X = Ret true) as -> end.
    { clear - A3 B3 L. match goal with |- ?X ids ids = _ => set (loop := X) end. assert (forall l, incl l ids -> loop l l = Ret true) as X0; [|apply X0; intros x; auto].
      induction l as [|i l IH]; intros Hl; auto. cbn [loop]. fold loop. rewrite Z.eqb_refl. cbn [negb].
      destruct (A3 i (Hl i (or_introl eq_refl))) as (X & -> & HX). destruct (B3 i (Hl i (or_introl eq_refl))) as (Y & -> & HY). rewrite geqb_of by now rewrite HX, HY. cbn [negb]. apply IH. intros j Hj. apply Hl. now right. }
    cbn [obind negb]. rewrite (geqb_of gk1) by auto. cbn [negb]. now rewrite (geqb_of gk2) by auto.
  Qed.

  Lemma ValidateSecrets_ok sched ids secrets gk pub f : valid_ids ids -> (List.length f <= List.length ids)%nat -> pub_PartyIDs pub = ids -> geq gk (gbmul (spoly f f0)) ->
    (forall j, In j ids -> exists A, pub_Shares pub !! j = Some A /\ geq A (gbmul (spoly f (qof j)))) ->
    (forall i, In i ids -> exists sk, secrets !! i = Some sk /\ sh_Secret sk = spoly f (qof i) /\ geq (sh_Public sk) (gbmul (spoly f (qof i)))) ->
    (forall i, ~ In i ids -> secrets !! i = None) -> ValidateSecrets sched secrets gk pub = Ret true.
  Proof.
    intros V HL EI HG HP HS HN. unfold ValidateSecrets. destruct (C25_interpolation_at_zero ids f V HL) as (l & H1 & H2). rewrite EI.
    match goal with |- obind (?X (map_keys sched secrets) f0) _ = _ => set (loop := X) end.
    assert (forall ks acc, incl ks ids -> loop ks acc = Ret (Some (fadd acc (Fsum (map (fun i => fmul (l i) (spoly f (qof i))) ks))))) as X.
    { induction ks as [|i ks IH]; intros acc Hk.
      - cbn. do 2 f_equal. unfold Fsum. cbn. ring.
      - pose proof (Hk i (or_introl eq_refl)) as Hi. destruct (HS i Hi) as (sk & E1 & E2 & E3). destruct (HP i Hi) as (A & F1 & F2). cbn [loop]. fold loop. rewrite E1, F1. rewrite geqb_of by now rewrite E3, F2. cbn [negb].
        rewrite (H1 i Hi), E2. rewrite IH by (intros j Hj; apply Hk; now right). do 2 f_equal. cbn [map Fsum fold_right]. unfold Fsum. ring. }
    rewrite X. 2:{ intros i Hi. apply map_keys_In in Hi as [sk E]. destruct (in_dec Z.eq_dec i ids) as [|N]; auto. rewrite HN in E by auto. discriminate. }
    cbn [obind]. f_equal. apply geqb_of. rewrite HG. apply gb_inj. rewrite <- H2.
    assert (Permutation (map_keys sched secrets) ids) as P.
    { apply Permutation.NoDup_Permutation; [apply map_keys_NoDup|apply V|]. intros i. rewrite map_keys_In. split.
      - intros [sk E]. destruct (in_dec Z.eq_dec i ids) as [|N]; auto. rewrite HN in E by auto. discriminate.
      - intros Hi. destruct (HS i Hi) as (sk & E & _). eauto. }
    rewrite (Fsum_perm _ _ (Permutation_map (fun i => fmul (l i) (spoly f (qof i))) P)). ring.
  Qed.

  (** CompareOutput accepts exactly equal outputs with the right group keys: it would notice any difference. *)
  Theorem C62_CompareOutput : forall gk1 gk2 p1 p2, well_formed p1 -> well_formed p2 ->
    exists b, CompareOutput gk1 gk2 p1 p2 = Ret b /\
    (b = true <-> (pub_PartyIDs p1 = pub_PartyIDs p2 /\ pub_Threshold p1 = pub_Threshold p2 /\ geq (pub_GroupKey p1) (pub_GroupKey p2) /\
       forall j P P2, pub_Shares p1 !! j = Some P -> pub_Shares p2 !! j = Some P2 -> geq P P2) /\ geq gk1 (pub_GroupKey p1) /\ geq gk2 (pub_GroupKey p2)).
  Proof.
    intros gk1 gk2 p1 p2 W W2. unfold CompareOutput. destruct (C29_Equal p1 p2 W W2) as (b & -> & Hb). cbn [obind].
    destruct b; cbn [negb]; [|exists false; split; [reflexivity|]; split; [discriminate|]; intros [X _]; apply Hb in X; discriminate X].
    destruct (proj1 Hb eq_refl) as (E1 & E2 & E3 & E4). rewrite <- E1, Nat.eqb_refl. cbn [negb].
    match goal with |- exists b, obind ?X _ = _ /\ _ => assert (X = Ret true) as -> end.
    { destruct W as [_ W]. destruct W2 as [_ W2]. rewrite <- E1 in W2. clear - W W2 E4 L. revert W W2. generalize (pub_PartyIDs p1). intros ids W W2.
      match goal with |- ?X ids ids = _ => set (loop := X) end. assert (forall l, incl l ids -> loop l l = Ret true) as X0; [|apply X0; intros x; auto].
      induction l as [|i l IH]; intros Hl; auto. cbn [loop]. fold loop. rewrite Z.eqb_refl. cbn [negb].
      destruct (proj1 (W i) (Hl i (or_introl eq_refl))) as [P EP]. destruct (proj1 (W2 i) (Hl i (or_introl eq_refl))) as [P2 EP2]. rewrite EP, EP2. rewrite geqb_of by exact (E4 i P P2 EP EP2). cbn [negb].
      apply IH. intros j Hj. apply Hl. now right. }
    cbn [obind negb]. destruct (geqb gk1 (pub_GroupKey p1)) eqn:K1; cbn [negb].
    - exists (geqb gk2 (pub_GroupKey p2)). split; [reflexivity|]. split; [intros K2; split; [auto|split; [exact K1|exact K2] ]|]. intros (_ & _ & K2). exact K2.
    - exists false. split; [reflexivity|]. split; [discriminate|]. intros (_ & K & _). unfold geq in K. rewrite K1 in K. discriminate K.
  Qed.
  (** For any two outputs, well formed or not: Equal has already compared everything but the two group keys that were passed separately. *)
  Theorem C62_CompareOutput_any : forall gk1 gk2 p1 p2,
    CompareOutput gk1 gk2 p1 p2 = obind (pub_Equal p1 p2) (fun b => Ret (b && geqb gk1 (pub_GroupKey p1) && geqb gk2 (pub_GroupKey p2))).
  Proof.
    intros gk1 gk2 p1 p2. unfold CompareOutput. destruct (pub_Equal p1 p2) as [b| |] eqn:E; cbn [obind]; auto. destruct b; cbn [negb andb]; auto.
    unfold pub_Equal in E. destruct (Nat.eqb _ _); cbn [negb] in E; [|discriminate E].
    destruct (ids_equal (pub_PartyIDs p1) (pub_PartyIDs p2)) eqn:EI; cbn [negb] in E; [|discriminate E]. apply ids_equal_eq in EI.
    destruct (pub_Threshold p1 =? pub_Threshold p2); cbn [negb] in E; [|discriminate E]. destruct (geqb (pub_GroupKey p1) _); cbn [negb] in E; [|discriminate E].
    rewrite <- EI, Nat.eqb_refl. cbn [negb].
    match goal with |- obind ?X _ = _ => assert (X = Ret true) as -> end.
    - clear - E. revert E. generalize (pub_PartyIDs p1). induction l as [|i l IH]; auto. rewrite Z.eqb_refl. cbn [negb].
      destruct (pub_Shares p1 !! i) as [P1|]; [|discriminate]. destruct (pub_Shares p2 !! i) as [P2|]; [|discriminate]. destruct (geqb P1 P2); [|discriminate]. exact IH.
    - cbn [obind negb]. now destruct (geqb gk1 (pub_GroupKey p1)).
  Qed.
  (** ValidateSecrets accepts exactly if every secret belongs to a listed party, matches its public share, and together they
      interpolate to the group key; [ks] are the parties whose secrets are given. *)
  Theorem C62_ValidateSecrets : forall sched secrets gk pub ks, valid_ids (pub_PartyIDs pub) -> List.NoDup ks -> (forall i, In i ks <-> exists sk, secrets !! i = Some sk) ->
    exists b, ValidateSecrets sched secrets gk pub = Ret b /\
    (b = true <-> (forall i sk, secrets !! i = Some sk -> In i (pub_PartyIDs pub) /\ exists A, pub_Shares pub !! i = Some A /\ geq (sh_Public sk) A) /\
       geq gk (gbmul (Fsum (map (fun i => match secrets !! i with Some sk => fmul (lagrange_spec i (pub_PartyIDs pub)) (sh_Secret sk) | None => f0 end) ks)))).
  Proof.
    intros sched secrets gk pub ks V ND HK. unfold ValidateSecrets. set (ids := pub_PartyIDs pub) in *.
    set (term := fun i => match secrets !! i with Some sk => fmul (lagrange_spec i ids) (sh_Secret sk) | None => f0 end).
    set (good := fun i => forall sk, secrets !! i = Some sk -> In i ids /\ exists A, pub_Shares pub !! i = Some A /\ geq (sh_Public sk) A).
    match goal with |- exists b, obind (?X (map_keys sched secrets) f0) _ = _ /\ _ => set (loop := X) end.
    assert (forall l acc, (forall i, In i l -> exists sk, secrets !! i = Some sk) ->
      (loop l acc = Ret (Some (fadd acc (Fsum (map term l)))) /\ Forall good l) \/ (loop l acc = Ret None /\ ~ Forall good l)) as X.
    { induction l as [|i l IH]; intros acc Hl.
      - left. split; [|constructor]. cbn. do 2 f_equal. unfold Fsum. cbn. ring.
      - destruct (Hl i (or_introl eq_refl)) as [sk Esk]. cbn [loop]. fold loop. rewrite Esk.
        assert (forall P : Prop, (good i -> P) -> ((In i ids /\ exists A, pub_Shares pub !! i = Some A /\ geq (sh_Public sk) A) -> P)) as Hgood.
        { intros P H1 H2. apply H1. intros sk' E'. rewrite Esk in E'. injection E' as <-. exact H2. }
        destruct (pub_Shares pub !! i) as [A|] eqn:EA.
        2:{ right. split; [reflexivity|]. intros HF. apply List.Forall_inv in HF. destruct (HF sk Esk) as (_ & A & X & _). rewrite EA in X. discriminate X. }
        destruct (geqb (sh_Public sk) A) eqn:Eg; cbn [negb].
        2:{ right. split; [reflexivity|]. intros HF. apply List.Forall_inv in HF. destruct (HF sk Esk) as (_ & A' & X & Y). rewrite EA in X. injection X as <-. unfold geq in Y. rewrite Eg in Y. discriminate Y. }
        destruct (in_dec Z.eq_dec i ids) as [Hi|Hi].
        + rewrite (C25_lagrange_value ids i (valid_u16 ids V)) by (auto; pose proof (valid_in ids i V Hi); lia).
          destruct (IH (fadd (fmul (lagrange_spec i ids) (sh_Secret sk)) acc) ltac:(intros j Hj; apply Hl; now right)) as [[E HF]|[E HF] ]; rewrite E.
          * left. split; [|constructor; [|exact HF] ].
            -- do 2 f_equal. cbn [map Fsum fold_right]. unfold term at 2. rewrite Esk. unfold Fsum. ring.
            -- apply (Hgood (good i)); [auto|]. split; [exact Hi|]. exists A. split; [reflexivity|exact Eg].
          * right. split; [reflexivity|]. intros Y. apply HF. now apply List.Forall_inv_tail in Y.
        + destruct (C25_lagrange_error ids i (valid_u16 ids V)) as (EL & _). destruct (proj2 EL (or_intror Hi)) as [e ->].
          right. split; [reflexivity|]. intros HF. apply List.Forall_inv in HF. destruct (HF sk Esk) as (Y & _). contradiction. }
    assert (forall i, In i (map_keys sched secrets) <-> exists sk, secrets !! i = Some sk) as HM by (intros i; apply map_keys_In).
    assert (Permutation (map_keys sched secrets) ks) as P. { apply Permutation.NoDup_Permutation; [apply map_keys_NoDup|exact ND|]. intros i. now rewrite HM, HK. }
    assert (Forall good (map_keys sched secrets) <-> forall i sk, secrets !! i = Some sk -> In i ids /\ exists A, pub_Shares pub !! i = Some A /\ geq (sh_Public sk) A) as HG.
    { rewrite List.Forall_forall. split; [intros HF i sk E; apply (HF i); [apply HM; eauto|exact E]|]. intros HF i _ sk E. exact (HF i sk E). }
    destruct (X (map_keys sched secrets) f0 (fun i Hi => proj1 (HM i) Hi)) as [[E HF]|[E HF] ]; rewrite E; cbn [obind].
    - eexists. split; [reflexivity|]. rewrite (Fsum_perm _ _ (Permutation_map term P)). replace (fadd f0 (Fsum (map term ks))) with (Fsum (map term ks)) by ring.
      split; [intros K; split; [now apply HG|exact K]|]. intros [_ K]. exact K.
    - exists false. split; [reflexivity|]. split; [discriminate|]. intros [K _]. destruct HF. now apply HG.
  Qed.

  Theorem C62_Keygen : forall fuel rg now v sched T N, 0 < T < N -> N < 65535 -> (Z.to_nat N < fuel)%nat -> test_Keygen fuel rg now v sched T N = Some (Ret true).
  Proof.
    intros fuel rg now v sched t n Ht Hn Hfuel. unfold test_Keygen. rewrite C30_set by lia. f_equal.
    set (ids := upto n). pose proof (upto_sorted n) as HS. pose proof (upto_valid n ltac:(lia)) as V. pose proof (upto_length n ltac:(lia)) as Hlen. fold ids in HS, V, Hlen.
    assert (is_u16 t) as HT by (unfold is_u16; lia).
    destruct (choice_ids (fun i s => NewKeygenState (rg i) (now i) 0 i ids t = Ret s) ids
      (NewBaseState keygen_round 0 0 (mkKround 0 0 [] 0 f0 None None ∅ true (mkKOutput None None) (rg 0)))) as [s0 Hs0].
    { intros i Hi. apply C35_accepts_iff; auto. split; auto. lia. }
    destruct (states_fold (fun id => NewKeygenState (rg id) (now id) 0 id ids t) s0 ids ∅ Hs0) as (sts & E & A & B).
    rewrite E.
    assert (over ids sts) as HO. { intros i. split; [|intros Hi; rewrite A by auto; discriminate]. intros Hi. destruct (in_dec Z.eq_dec i ids) as [|Hx]; auto. rewrite B in Hi by auto. now rewrite lookup_empty in Hi. }
    destruct (keygen_drive3 ids t HS V ltac:(lia) rg now (fun _ => 0) s0 Hs0 v sts HO A) as (sts' & E3 & _ & HF). rewrite E3.
    set (F := shared ids t rg).
    assert (forall i, In i ids -> exists s pub sk, wait sts' i = Ret s /\ kg_output s = mkKOutput (Some pub) (Some sk) /\
        sh_ID sk = i /\ sh_Secret sk = F (qof i) /\ geq (sh_Public sk) (gbmul (F (qof i))) /\
        pub_PartyIDs pub = ids /\ pub_Threshold pub = t /\ geq (pub_GroupKey pub) (gbmul (F f0)) /\
        (forall j, In j ids -> exists A, pub_Shares pub !! j = Some A /\ geq A (gbmul (F (qof j)))) /\
        (forall j, ~ In j ids -> pub_Shares pub !! j = None)) as HW.
    { intros i Hi. destruct (HF i Hi) as (s & es & out & Es & HH' & D & Er). exists s. destruct HH' as [Erun HE _ _].
      pose proof (khonest_final ids t V HT rg now (fun _ => 0) s0 Hs0 i es s out Hi HE Erun D) as X. rewrite Er in X. destruct X as (pub & sk & X1 & X2).
      exists pub, sk. split; [|split; auto]. unfold wait. rewrite Es, D, Er. reflexivity. }
    assert (exists l, ids = 1 :: l) as [l El]. { unfold ids, upto. destruct (Z.to_nat n) eqn:En; [lia|]. cbn. eauto. }
    rewrite El. assert (In 1 ids) as H1 by (rewrite El; now left). rewrite <- El. clear l El.
    destruct (HW 1 H1) as (s & pub & sk & W1 & W2 & _ & _ & _ & W3 & W4 & W5 & W6 & W7). rewrite W1. cbn [require_ok]. rewrite W2. cbn [ko_Public].
    match goal with |- require_ok (ofold ?X _ _) _ = _ => set (step := X) end.
    assert (forall l acc, incl l ids -> exists secrets, ofold step (acc, true) l = Ret (secrets, true) /\
       (forall i, In i l -> exists sk, secrets !! i = Some sk /\ sh_Secret sk = F (qof i) /\ geq (sh_Public sk) (gbmul (F (qof i)))) /\
       (forall i, ~ In i l -> secrets !! i = acc !! i)) as X.
    { induction l as [|i l IH]; intros acc Hl; cbn [ofold].
      - exists acc. split; auto. split; [intros i []|auto].
      - destruct (HW i (Hl i (or_introl eq_refl))) as (si & pi & ski & Y1 & Y2 & Y3 & Y4 & Y5 & Z3 & Z4 & Z5 & Z6 & Z7). unfold step at 1. rewrite Y1. cbn [obind]. rewrite Y2. cbn [ko_SecretKey ko_Public].
        rewrite (CompareOutput_ok ids pub pi F) by (auto using (sorted_le_lt ids (proj1 V) HS); try congruence; try reflexivity; intros p [->| ->]; auto). cbn [obind fst snd andb].
        destruct (IH (<[i := ski]> acc)) as (secrets & I1 & I2 & I3); [intros x Hx; apply Hl; now right|].
        exists secrets. split; auto. split.
        + intros j [<-|Hj]; auto. destruct (in_dec Z.eq_dec i l) as [Hi|Hi]; auto. exists ski. rewrite I3 by auto. split; [apply lookup_insert|auto].
        + intros j Hj. rewrite I3 by (intros Y; apply Hj; now right). apply lookup_insert_ne. intros E9. apply Hj. now left. }
    destruct (X ids ∅ ltac:(intros x; auto)) as (secrets & X1 & X2 & X3). rewrite X1. cbn [require_ok fst snd].
    destruct (C04_degree ids t rg) as (g & Gd & Gs). fold F in Gs.
    rewrite (ValidateSecrets_ok sched ids secrets (pub_GroupKey pub) pub g); auto.
    - unfold degree_le in Gd. lia.
    - now rewrite <- Gs.
    - intros j Hj. rewrite <- Gs. auto.
    - intros i Hi. rewrite <- Gs. auto.
  Qed.
  (** For all other parameters it fails (at once, in the first NewKeygenState). *)
  Theorem C62_Keygen_bad : forall fuel rg now v sched T N, 0 < N < 65535 -> is_u16 T -> ~ 0 < T < N -> (Z.to_nat N < fuel)%nat -> test_Keygen fuel rg now v sched T N = Some (Ret false).
  Proof.
    intros fuel rg now v sched t n Hn HT Ht Hfuel. unfold test_Keygen. rewrite C30_set by lia. f_equal.
    set (ids := upto n). pose proof (upto_sorted n) as HS. pose proof (upto_valid n ltac:(lia)) as V. pose proof (upto_length n ltac:(lia)) as Hlen. fold ids in HS, V, Hlen.
    assert (exists l, ids = 1 :: l) as [l El]. { unfold ids, upto. destruct (Z.to_nat n) eqn:En; [lia|]. cbn. eauto. }
    match goal with |- match ofold ?X ?a ids with _ => _ end = _ => set (step := X); set (a0 := a) end.
    assert (exists e, ofold step a0 ids = Fail e) as [e ->]; [|reflexivity].
    assert (exists e, NewKeygenState (rg 1) (now 1) 0 1 ids t = Fail e) as [e E].
    { destruct (NewKeygenState (rg 1) (now 1) 0 1 ids t) as [s|e|w] eqn:E; eauto.
      - exfalso. destruct (proj1 (C35_accepts_iff (rg 1) (now 1) 0 1 ids t HS V HT)) as [_ H]; [eauto|]. lia.
      - exfalso. unfold NewKeygenState in E. destruct (kg_NewRound (rg 1) 1 ids t) eqn:E'; try discriminate. unfold kg_NewRound, NewBaseRound in E'. cbv zeta in E'.
        destruct (t =? 0); try discriminate. destruct (u16 (N_ids ids - 1) <? t); try discriminate. destruct (negb (Contains ids 1)); discriminate. }
    assert (step a0 1 = Fail e) as E1 by (unfold step; now rewrite E). exists e. clearbody step. rewrite El. cbn [ofold]. now rewrite E1.
  Qed.
End Signatures.

(** ** sign_test.go *)
Section SignTest.
  Context `{L : group_laws} `{Hf : hash_fn} (HH : hash_ok Hf).
  Lemma upto_firstn n k : 0 <= k <= n -> firstn (Z.to_nat k) (upto n) = upto k.
  Proof.
    intros H. unfold upto. rewrite firstn_map. f_equal. replace (Z.to_nat n) with (Z.to_nat k + (Z.to_nat n - Z.to_nat k))%nat by lia.
    rewrite seq_app, firstn_app, seq_length, Nat.sub_diag, firstn_O, app_nil_r. apply firstn_all2. rewrite seq_length. lia.
  Qed.
  Theorem C62_setup : forall fuel r sched t n, 0 <= t < n -> n < 65535 -> (Z.to_nat n < fuel)%nat -> exists shares public,
    setupParties fuel r sched t n = Some (Ret (upto n, upto (t + 1), shares, public)) /\ deal_ok r (upto n) t shares /\
    pub_Threshold public = t /\ geq (pub_GroupKey public) (gbmul (spoly (dealt r (Z.to_nat t)) f0)) /\ pub_PartyIDs public = upto n /\
    (forall i, 1 <= i <= n -> exists A, pub_Shares public !! i = Some A /\ geq A (gbmul (spoly (dealt r (Z.to_nat t)) (qof i)))).
  Proof.
    intros fuel r sched t n Ht Hn Hfuel. unfold setupParties. rewrite C30_set by lia. pose proof (upto_valid n ltac:(lia)) as V. pose proof (upto_length n ltac:(lia)) as Hlen.
    assert (Forall (fun i => 1 <= i < 65536) (upto n)) as Hset by (apply List.Forall_forall; intros i Hi; apply upto_In in Hi; lia).
    destruct (C30_secrets r (upto n) t Hset ltac:(lia) ltac:(lia)) as (shares & -> & D). cbn [obind fst snd].
    destruct (C30_public r (upto n) t Hset ltac:(lia) ltac:(lia) sched shares (proj1 V) D) as (public & -> & P1 & P2 & P3 & P4 & P5 & _). cbn [obind].
    unfold u16. rewrite Z.mod_small by lia. rewrite (proj2 (Z.ltb_ge _ _)) by lia. rewrite upto_firstn by lia. exists shares, public. split; [reflexivity|]. split; auto. split; auto. split; auto. split.
    - apply sorted_perm_unique; [apply sorted_lt_le; auto|apply upto_sorted|]. apply Permutation.NoDup_Permutation; [now apply sorted_lt_NoDup|apply V|auto].
    - intros i Hi. apply P5. now apply upto_In.
  Qed.

  (** TestSign passes for all thresholds below N, all messages and all randomness except nonces that are exactly 0, provided
      that ed25519.Verify accepts what Verify accepts (which C03 proves for the real one, see C62_Sign_go). *)
  Theorem C62_Sign : forall edv fuel r sched rg now v order message T N, 0 <= T < N -> N < 65535 -> (Z.to_nat N < fuel)%nat ->
    (forall i, 1 <= i <= T + 1 -> SetScalarRandom (rg i) 0 <> f0 /\ SetScalarRandom (rg i) 1 <> f0) ->
    (forall Y sig, Verify Y message sig = true -> edv (pk_ToEd25519 Y) message (sig_ToEd25519 sig) = true) ->
    test_Sign edv fuel r sched rg now v order message T N = Some (Ret true).
  Proof.
    intros edv fuel r sched rg now v order message t n Ht Hn Hfuel NZ ED. unfold test_Sign.
    destruct (C62_setup fuel r sched t n Ht Hn Hfuel) as (shares & public & -> & [D1 D2] & P1 & K6 & P3 & P5). f_equal.
    set (f := dealt r (Z.to_nat t)) in *. set (ids := upto (t + 1)).
    pose proof (upto_sorted (t + 1)) as HS. pose proof (upto_valid (t + 1) ltac:(lia)) as V. pose proof (upto_length (t + 1) ltac:(lia)) as Hlen. fold ids in HS, V, Hlen.
    assert (forall i, In i ids -> 1 <= i <= n) as Hin by (intros i Hi; apply upto_In in Hi; lia).
    destruct (choice_ids (fun i sk => shares !! i = Some sk /\ sh_ID sk = i /\ sh_Secret sk = spoly f (qof i)) ids (mkSecretShare 0 f0 gid)) as [sh Hsh].
    { intros i Hi. destruct (D1 i) as (sk & A & B & C & _); [apply upto_In; auto|]. exists sk. auto. }
    destruct (choice_ids (fun i s => NewSignState (rg i) (now i) 0 ids (sh i) public message = Ret s) ids
      (NewBaseState sign_round 0 0 (mkSround 0 0 [] [] ∅ gid f0 f0 f0 f0 gid true None (rg 0)))) as [s0 Hs0].
    { intros i Hi. destruct (Hsh i Hi) as (_ & Hid & _). apply C36_accepts; auto.
      - rewrite P3. apply upto_sorted.
      - now apply valid_u16.
      - now rewrite Hid.
      - intros j Hj. rewrite P3. pose proof (Hin j Hj) as Hj'. split; [now apply upto_In|]. split; [lia|]. destruct (P5 j Hj') as (A & EA & _). eauto. }
    match goal with |- obind (ofold ?X _ _) _ = _ => set (step := X) end.
    assert (forall l (acc : gmap Z (option (State sround))), incl l ids -> exists sts, ofold step acc l = Ret sts /\
        (forall i, In i l -> sts !! i = Some (Some (s0 i))) /\ (forall i, ~ In i l -> sts !! i = acc !! i)) as X.
    { induction l as [|i l IH]; intros acc Hl; cbn [ofold].
      - exists acc. split; auto. split; [intros i []|auto].
      - pose proof (Hl i (or_introl eq_refl)) as Hi. unfold step at 1. destruct (Hsh i Hi) as (-> & _). rewrite (Hs0 i Hi). cbn [obind].
        destruct (IH (<[i := Some (s0 i)]> acc)) as (sts & Ex & A & B); [intros j Hj; apply Hl; now right|].
        exists sts. split; auto. split.
        + intros j [<-|Hj]; auto. destruct (in_dec Z.eq_dec i l) as [Hi'|Hi']; auto. rewrite B by auto. apply lookup_insert.
        + intros j Hj. rewrite B by (intros Y; apply Hj; now right). apply lookup_insert_ne. intros E9. apply Hj. now left. }
    destruct (X ids ∅ ltac:(intros x; auto)) as (sts & X1 & A & B). rewrite X1. clear X X1. cbn [obind].
    assert (over ids sts) as HO. { intros i. split; [|intros Hi; rewrite A by auto; discriminate]. intros Hi. destruct (in_dec Z.eq_dec i ids) as [|Hx]; auto. rewrite B in Hi by auto. now rewrite lookup_empty in Hi. }
    assert (forall i, In i ids -> sh_ID (sh i) = i /\ sh_Secret (sh i) = spoly f (qof i)) as SH by (intros i Hi; apply (Hsh i Hi)).
    assert (forall i j, In i ids -> In j ids -> exists A, pub_Shares public !! j = Some A /\ geq A (gbmul (spoly f (qof j)))) as PUB.
    { intros i j _ Hj. apply P5. auto. }
    assert (forall i, In i ids -> SetScalarRandom (rg i) 0 <> f0 /\ SetScalarRandom (rg i) 1 <> f0) as NZ' by (intros i Hi; apply NZ; now apply upto_In).
    assert (Z.to_nat t + 1 <= List.length ids)%nat as Hnum by lia.
    assert (degree_le (Z.to_nat t) f) as Hdeg by (unfold degree_le, f, dealt; rewrite map_length, seq_length; lia).
    destruct (sign_drive3 HH (Z.to_nat t) f ids HS Hdeg V Hnum message rg (fun _ => public) sh now (fun _ => 0) s0 SH PUB (fun _ _ => K6) Hs0 NZ' v sts HO A) as (sts' & E3 & HO' & HFin).
    rewrite E3. assert (In 1 ids) as H1 by (apply upto_In; lia).
    assert (forall i, In i ids -> exists s sig, sts' !! i = Some (Some s) /\ st_done s = true /\ st_err s = None /\ sg_output s = Some sig /\ geq (sig_R sig) (gbmul (the_nonce ids message rg)) /\ sig_S sig = the_S f ids message rg /\
       Verify (gbmul (spoly f f0)) message sig = true) as HW.
    { intros i Hi. destruct (HFin i Hi) as (s & es & out & Es & [Erun HE _ _] & D & Er).
      pose proof (honest_final HH (Z.to_nat t) f ids Hdeg V Hnum message rg (fun _ => public) sh now (fun _ => 0) s0 SH PUB (fun _ _ => K6) Hs0 NZ' i es s out Hi HE Erun D) as Y.
      rewrite Er in Y. destruct Y as (sig & Y0 & Y1 & Y2 & Y3). exists s, sig. auto 8. }
    destruct (HW 1 H1) as (s & sig & Es & D & Er & Eo & Y1 & Y2 & Y3). setoid_rewrite Es. rewrite Eo.
    assert (Verify (pub_GroupKey public) message sig = true) as YV.
    { apply (Verify_iff HH). apply (Verify_iff HH) in Y3. eapply (schnorr_valid_proper); [|reflexivity|exact Y3]. exact K6. }
    cbv zeta. rewrite (ED _ _ YV), YV. cbn [andb].
    match goal with |- require_ok (ofold ?X _ _) _ = _ => set (cmp := X) end.
    assert (forall l, incl l ids -> ofold cmp true l = Ret true) as X.
    { induction l as [|i l IH]; intros Hl; cbn [ofold]; auto. destruct (HW i (Hl i (or_introl eq_refl))) as (si & sigi & Esi & Di & Eri & Eoi & Y1i & Y2i & _).
      unfold cmp at 1. unfold wait. setoid_rewrite Esi. rewrite Di, Eri. cbn [obind]. rewrite Eoi.
      assert (sig_bytes sigi = sig_bytes sig) as ->. { unfold sig_bytes. rewrite Y2i, Y2. f_equal. apply genc_eq. now rewrite Y1i, Y1. }
      assert (bytes_eqb (sig_bytes sig) (sig_bytes sig) = true) as -> by now apply bytes_eqb_eq. cbn [andb obind]. apply IH. intros j Hj. apply Hl. now right. }
    rewrite X; [reflexivity|]. intros i Hi. apply map_keys_In in Hi as [x Ex]. apply HO'. now rewrite Ex.
  Qed.
  (** With T >= N the dealer panics. *)
  Theorem C62_Sign_bad : forall edv fuel r sched rg now v order message T N, 0 <= N < 65535 -> N <= T -> (Z.to_nat N < fuel)%nat ->
    exists w, test_Sign edv fuel r sched rg now v order message T N = Some (Panics w).
  Proof.
    intros edv fuel r sched rg now v order message t n Hn Ht Hfuel. unfold test_Sign, setupParties. rewrite C30_set by lia.
    assert (is_panic (GenerateSecrets r (upto n) t) = true) as P by (apply C30_threshold; unfold N_ids, u16; rewrite upto_length by lia; rewrite Z.mod_small; lia).
    destruct (GenerateSecrets r (upto n) t) as [| |w]; try discriminate. cbn [obind]. eauto.
  Qed.
End SignTest.

(** ** Concrete runs over the toy group (hypotheses met; both verdicts occur). *)
Example C62_example_protocols :
  @test_Keygen toy_group toy_hash 5 (fun i => toy_rng (i + 3)) (fun _ => 0) (fun _ => toy_env) [] 1 2 = Some (Ret true) /\
  @test_Keygen toy_group toy_hash 5 (fun i => toy_rng (i + 3)) (fun _ => 0) (fun _ => toy_env) [] 2 2 = Some (Ret false) /\
  @test_Sign toy_group toy_hash (fun _ _ _ => true) 5 (toy_rng 4) [] (fun i => toy_rng (i + 9)) (fun _ => 0) (fun _ => toy_env) [] [x00; x01] 1 3 = Some (Ret true) /\
  forall i, 1 <= i <= 2 -> SetScalarRandom (toy_rng (i + 9)) 0 <> f0 /\ SetScalarRandom (toy_rng (i + 9)) 1 <> f0.
Proof.
  split; [vm_compute; reflexivity|]. split; [vm_compute; reflexivity|]. split; [vm_compute; reflexivity|].
  intros i Hi. assert (i = 1 \/ i = 2) as [->| ->] by lia; split; intros E; apply (f_equal fz) in E; vm_compute in E; discriminate.
Qed.
Example C62_example_shares :
  @test_Shares_GroupKey toy_group [] (toy_rng 4) [5; 0; 7] 2 = Ret true /\ is_panic (@test_Shares_GroupKey toy_group [] (toy_rng 4) [5; 1; 0] 2) = true /\
  distinct_ids [5; 0; 7] = [5; 1; 7] /\ distinct_ids [5; 1; 0] = [5; 1].
Proof. split; [vm_compute; reflexivity|]. split; [vm_compute; reflexivity|]. split; reflexivity. Qed.
Example C62_example_messages :
  @test_KeyGen2 toy_group (fun n => n) [] 65537 3 (qof 9) = Ret true /\ @test_KeyGen2 toy_group (fun n => n) [] 65536 3 (qof 9) = Ret false /\
  @test_KeyGen1 toy_group toy_hash (fun n => n) [] 0 2 (toy_rng 4) (qof 5) (repeat x00 32) = Ret true /\
  is_panic (@test_KeyGen1 toy_group toy_hash (fun n => n) [] 0 2 (toy_rng 4) (qof 5) [x00]) = true.
Proof. split; [vm_compute; reflexivity|]. split; [vm_compute; reflexivity|]. split; vm_compute; reflexivity. Qed.

(** Both verdicts of the two helpers: a different threshold, a wrong group key, a missing and an exchanged secret. *)
Example C62_example_helpers :
  let gk := @pub_GroupKey toy_group t_public in
  let pub' := @mkPublic toy_group (pub_PartyIDs t_public) 2 (pub_Shares t_public) gk in
  let secs := list_to_map (map (fun i => (i, t_secret i)) k3) : gmap Z (@SecretShare toy_group) in
  @CompareOutput toy_group gk gk t_public t_public = Ret true /\ @CompareOutput toy_group gk gk t_public pub' = Ret false /\
  @CompareOutput toy_group (gbmul f1) gk t_public t_public = Ret false /\
  @ValidateSecrets toy_group [] secs gk t_public = Ret true /\ @ValidateSecrets toy_group [2] (delete 3 secs) gk t_public = Ret false /\
  @ValidateSecrets toy_group [] (<[2 := t_secret 3]> secs) gk t_public = Ret false /\ @ValidateSecrets toy_group [] (<[9 := t_secret 3]> secs) gk t_public = Ret false /\
  well_formed t_public /\ well_formed pub'.
Proof. cbv zeta. repeat (split; [vm_compute; reflexivity|]). 
  assert (well_formed t_public) as W; [|split; exact W]. split; [repeat constructor; lia|]. intros j. cbn [pub_PartyIDs t_public pub_Shares k3].
  assert (is_Some ((<[1:=qof 8]> (<[2:=qof 11]> (<[3:=qof 14]> ∅)) : gmap Z Fq) !! j) <-> j = 1 \/ j = 2 \/ j = 3) as E; [|etransitivity; [|symmetry; exact E]; cbn [In k3]; intuition congruence].
  rewrite !lookup_insert_is_Some, lookup_empty. split; [|lia]. intros [?|[_ [?|[_ [?|[_ [? X] ] ] ] ] ] ]; try lia. discriminate X.
Qed.

Print Assumptions C62_CompareOutput.
Print Assumptions C62_ValidateSecrets.
Print Assumptions C62_Keygen.
Print Assumptions C62_Keygen_bad.
Print Assumptions C62_Sign.
Print Assumptions C62_Shares_JSON.
Print Assumptions C62_KeyGen2_refuted.
Print Assumptions C62_Header.
