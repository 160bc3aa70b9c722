(** Facts about the binary encodings. *)
From Coq Require Import ZArith Lia List Bool String Setoid Morphisms.
From Coq.Strings Require Import Byte.
From Verif Require Import ZField Primes Bytes Scalar Go Group Party Poly Zk Eddsa Messages.
Import ListNotations.
Local Open Scope Z_scope.

Lemma firstn_exact {A} n (a b : list A) : List.length a = n -> firstn n (a ++ b) = a.
Proof. intros <-. rewrite firstn_app, Nat.sub_diag, firstn_all. simpl. apply app_nil_r. Qed.
Lemma skipn_exact {A} n (a b : list A) : List.length a = n -> skipn n (a ++ b) = b.
Proof. intros <-. rewrite skipn_app, Nat.sub_diag, skipn_all. reflexivity. Qed.
Lemma id_bytes_length id : List.length (id_bytes id) = 2%nat.
Proof. reflexivity. Qed.
Lemma bool_spec_false (b : bool) : b <> true -> b = false.
Proof. destruct b; congruence. Qed.

(** ** Headers *)
Definition header_ok (h : Header) : Prop :=
  1 <= h_From h < 65536 /\
  ((h_Type h = 1 \/ h_Type h = 3 \/ h_Type h = 4) /\ h_To h = 0 \/ h_Type h = 2 /\ 1 <= h_To h < 65536).

Lemma header_check_iff fn h : header_check fn h = Ret tt <->
  h_From h <> 0 /\ ((h_Type h = 1 \/ h_Type h = 3 \/ h_Type h = 4) /\ h_To h = 0 \/ h_Type h = 2 /\ h_To h <> 0).
Proof.
  unfold header_check, MTKeyGen1, MTKeyGen2, MTSign1, MTSign2.
  destruct (Z.eqb_spec (h_Type h) 1); [|destruct (Z.eqb_spec (h_Type h) 3); [|destruct (Z.eqb_spec (h_Type h) 4)]]; cbn [orb].
  1-3: destruct (Z.eqb_spec (h_To h) 0); cbn [negb obind]; [destruct (Z.eqb_spec (h_From h) 0)|]; split; try discriminate; try lia; intuition (try discriminate; try lia).
  destruct (Z.eqb_spec (h_Type h) 2); cbn [obind]; [|split; [discriminate|lia]].
  destruct (Z.eqb_spec (h_To h) 0); cbn [obind]; [split; [discriminate|lia]|].
  destruct (Z.eqb_spec (h_From h) 0); split; try discriminate; intuition (try discriminate; try lia).
Qed.

Lemma header_check_cases fn h : header_check fn h = Ret tt \/ exists e, header_check fn h = Fail e.
Proof.
  unfold header_check. repeat (match goal with |- context [if ?b then _ else _] => destruct b end; cbn [obind]); eauto.
Qed.

Lemma header_bytes_ok h : header_ok h ->
  header_bytes h = Ret (z2b (h_Type h) :: id_bytes (h_From h) ++ id_bytes (h_To h)).
Proof.
  intros [H1 H2]. unfold header_bytes. rewrite (proj2 (header_check_iff _ h)); [reflexivity|]. lia.
Qed.

Lemma header_unmarshal_ok h rest : header_ok h ->
  header_unmarshal ((z2b (h_Type h) :: id_bytes (h_From h) ++ id_bytes (h_To h)) ++ rest) = Ret h.
Proof.
  intros H. unfold id_bytes, be16. cbn [app header_unmarshal]. destruct H as [H1 H2].
  rewrite !be16_val_be16 by lia. rewrite b2z_z2b, Z.mod_small by lia.
  rewrite (proj2 (header_check_iff _ _)); [destruct h; reflexivity|]. cbn [h_Type h_From h_To]. lia.
Qed.

Lemma header_unmarshal_ok' t f to rest : header_ok (mkHeader t f to) ->
  header_unmarshal ((z2b t :: id_bytes f ++ id_bytes to) ++ rest) = Ret (mkHeader t f to).
Proof. apply (header_unmarshal_ok (mkHeader t f to)). Qed.
Lemma header_bytes_ok' t f to : header_ok (mkHeader t f to) ->
  header_bytes (mkHeader t f to) = Ret (z2b t :: id_bytes f ++ id_bytes to).
Proof. apply (header_bytes_ok (mkHeader t f to)). Qed.

Lemma header_unmarshal_inv data h : header_unmarshal data = Ret h ->
  header_ok h /\ data = (z2b (h_Type h) :: id_bytes (h_From h) ++ id_bytes (h_To h)) ++ skipn 5 data.
Proof.
  destruct data as [|t [|a [|b [|c [|d rest]]]]]; try discriminate. cbn [header_unmarshal].
  intros E. apply obind_ret in E as ([] & E1 & E2). apply Ret_inj in E2. subst h.
  apply header_check_iff in E1. cbn [h_Type h_From h_To] in *.
  split.
  - split; cbn [h_Type h_From h_To]; pose proof (be16_val_range a b); pose proof (be16_val_range c d); lia.
  - cbn [skipn]. rewrite z2b_b2z. unfold id_bytes. rewrite !be16_be16_val. reflexivity.
Qed.

Lemma header_unmarshal_total data : exists r, header_unmarshal data = r /\ is_panic r = false.
Proof.
  eexists; split; [reflexivity|]. destruct data as [|t [|a [|b [|c [|d rest]]]]]; try reflexivity. cbn [header_unmarshal].
  destruct (header_check_cases "Header.UnmarshalBinary" (mkHeader (b2z t) (be16_val a b) (be16_val c d))) as [E|[e E]]; rewrite E; reflexivity.
Qed.

(** ** Exponents *)
Section Exp.
  Context `{L : group_laws}.

  Lemma flat_genc_length (A : list G) : List.length (flat_map genc A) = (32 * List.length A)%nat.
  Proof. induction A; simpl; auto. rewrite app_length, genc_len, IHA. lia. Qed.

  Lemma decode_loop_ok (A : list G) : exists A', exp_decode_loop (List.length A) (flat_map genc A) = Ret A' /\ Forall2 geq A' A.
  Proof.
    induction A as [|a A (A' & H1 & H2)]; cbn [List.length exp_decode_loop flat_map]; [exists []; auto|].
    rewrite firstn_exact, skipn_exact by apply genc_len.
    destruct (gdec_genc a) as (a' & E & F). rewrite E, H1. cbn [obind]. eauto.
  Qed.
  Lemma decode_loop_inv n data A : exp_decode_loop n data = Ret A -> List.length data = (32 * n)%nat ->
    List.length A = n /\ flat_map genc A = data.
  Proof.
    revert data A. induction n as [|n IH]; intros data A; cbn [exp_decode_loop]; intros E HL.
    - apply Ret_inj in E. subst. split; auto. destruct data; [reflexivity|discriminate].
    - destruct (gdec (firstn 32 data)) as [a|] eqn:E1; [|discriminate].
      apply obind_ret in E as (B & E2 & E3). apply Ret_inj in E3; subst A. apply IH in E2 as [H1 H2].
      + cbn [List.length flat_map]. split; [congruence|]. rewrite H2. apply genc_gdec in E1. rewrite E1. apply firstn_skipn.
      + rewrite skipn_length. lia.
  Qed.
  Lemma decode_loop_total n data : is_panic (exp_decode_loop n data) = false.
  Proof.
    revert data; induction n as [|n IH]; intros data; cbn [exp_decode_loop]; auto.
    destruct (gdec (firstn 32 data)); auto. specialize (IH (skipn 32 data)). destruct (exp_decode_loop n (skipn 32 data)); auto.
  Qed.

  Lemma exp_degree_ok (A : list G) : (1 <= List.length A)%nat -> Z.of_nat (List.length A) <= 65535 ->
    exp_degree A = Z.of_nat (List.length A) - 1.
  Proof. intros H1 H2. unfold exp_degree, u16. rewrite (Z.mod_small (Z.of_nat _)) by lia. rewrite Z.mod_small; lia. Qed.

  Lemma exp_bytes_length (A : list G) : Z.of_nat (List.length (exp_bytes A)) = exp_size A.
  Proof. unfold exp_bytes, exp_size. rewrite app_length, id_bytes_length, flat_genc_length. lia. Qed.

  Lemma exp_round_trip (A : list G) : (1 <= List.length A)%nat -> Z.of_nat (List.length A) <= 65535 ->
    exists A', exp_unmarshal (exp_bytes A) = Ret A' /\ Forall2 geq A' A.
  Proof.
    intros H1 H2. destruct (decode_loop_ok A) as (A' & E & F). exists A'. split; auto.
    unfold exp_unmarshal, exp_bytes. rewrite FromBytes_id_bytes by (rewrite exp_degree_ok by auto; unfold is_u16; lia).
    cbn [obind]. rewrite skipn_exact by reflexivity. rewrite flat_genc_length, exp_degree_ok by auto.
    unfold u16. rewrite (Z.mod_small (Z.of_nat (List.length A) - 1 + 1)) by lia.
    replace (Z.of_nat (32 * List.length A)) with (Z.of_nat (List.length A) * 32) by lia.
    rewrite Z.mod_mul by lia. cbn [Z.eqb negb].
    replace (Z.of_nat (List.length A) - 1 + 1) with (Z.of_nat (List.length A)) by lia.
    rewrite Z.eqb_refl. cbn [negb]. now rewrite Nat2Z.id.
  Qed.

  Lemma exp_unmarshal_inv data A : exp_unmarshal data = Ret A ->
    exp_bytes A = data /\ Z.of_nat (List.length A) <= 65535 /\ (A = [] <-> data = [xff; xff]).
  Proof.
    unfold exp_unmarshal. intros E. apply obind_ret in E as (d & E1 & E2).
    destruct data as [|x [|y rest]]; try discriminate. cbn [FromBytes] in E1. apply Ret_inj in E1.
    change (skipn 2 (x :: y :: rest)) with rest in E2.
    destruct (Z.eqb_spec (Z.of_nat (List.length rest) mod 32) 0); [|discriminate]. cbn [negb] in E2.
    destruct (Z.eqb_spec (Z.of_nat (List.length rest)) (u16 (d + 1) * 32)) as [E|]; [|discriminate]. cbn [negb] in E2.
    assert (0 <= u16 (d + 1) < 65536) as Hu by (apply Z.mod_pos_bound; lia).
    apply decode_loop_inv in E2 as [H1 H2]; [|rewrite <- (Nat2Z.id (List.length rest)), E; rewrite Z2Nat.inj_mul by lia; change (Z.to_nat 32) with 32%nat; lia].
    assert (0 <= d < 65536) as Hd by (subst d; apply be16_val_range).
    assert (exp_degree A = d) as Hdeg.
    { unfold exp_degree. rewrite H1, Z2Nat.id by lia. rewrite (u16_small (u16 (d + 1))) by exact Hu.
      unfold u16. rewrite Zminus_mod_idemp_l. replace (d + 1 - 1) with d by lia. apply Z.mod_small. exact Hd. }
    split; [|split].
    - unfold exp_bytes. rewrite Hdeg, H2. subst d. unfold id_bytes. now rewrite be16_be16_val.
    - lia.
    - split; intros EA.
      + subst A. cbn in H2. subst rest. unfold exp_degree in Hdeg. cbn in Hdeg.
        pose proof (be16_be16_val x y) as X. rewrite E1, <- Hdeg in X. rewrite <- X. reflexivity.
      + injection EA; intros -> -> ->. rewrite <- E1 in H1. cbn in H1. destruct A; [reflexivity|discriminate].
  Qed.

  Lemma exp_unmarshal_total data : is_panic (exp_unmarshal data) = false.
  Proof.
    unfold exp_unmarshal. destruct data as [|x [|y rest]]; try reflexivity. cbn [FromBytes obind skipn].
    repeat match goal with |- context [if ?b then _ else _] => destruct b end; try reflexivity. apply decode_loop_total.
  Qed.

  Lemma exp_equal_iff (A B : list G) : exp_equal A B = true <-> Forall2 geq A B.
  Proof.
    unfold exp_equal. rewrite andb_true_iff, Nat.eqb_eq. split.
    - intros [HL H]. revert B HL H. induction A; intros [|b B]; simpl; try discriminate; auto.
      rewrite andb_true_iff. intros E [E1 E2]. constructor; auto.
    - intros F. split; [induction F; simpl; auto|]. induction F; simpl; auto. rewrite IHF. unfold geq in H. now rewrite H.
  Qed.

  (** ** Schnorr proofs *)
  Lemma schnorr_bytes_length p : List.length (schnorr_bytes p) = 64%nat.
  Proof. unfold schnorr_bytes. rewrite app_length, !scalar_bytes_length. reflexivity. Qed.
  Lemma schnorr_round_trip p : schnorr_unmarshal (schnorr_bytes p) = Ret p.
  Proof.
    unfold schnorr_unmarshal. rewrite schnorr_bytes_length. cbn [Nat.ltb Nat.leb]. unfold schnorr_bytes.
    rewrite firstn_exact, skipn_exact by apply scalar_bytes_length. rewrite !scalar_canonical_bytes. destruct p; reflexivity.
  Qed.
  Lemma schnorr_unmarshal_inv data p : schnorr_unmarshal data = Ret p -> schnorr_bytes p = data.
  Proof.
    unfold schnorr_unmarshal. destruct (Nat.ltb _ _); [discriminate|].
    destruct (scalar_set_canonical (firstn 32 data)) as [s|] eqn:E1; [|discriminate].
    destruct (scalar_set_canonical (skipn 32 data)) as [r|] eqn:E2; [|discriminate].
    intros E. apply Ret_inj in E. subst p. unfold schnorr_bytes. cbn [pr_S pr_R].
    rewrite (scalar_bytes_canonical _ _ E1), (scalar_bytes_canonical _ _ E2). apply firstn_skipn.
  Qed.
  Lemma schnorr_unmarshal_total data : is_panic (schnorr_unmarshal data) = false.
  Proof. unfold schnorr_unmarshal. destruct (Nat.ltb _ _); auto. destruct (scalar_set_canonical _); auto. destruct (scalar_set_canonical _); auto. Qed.

  (** ** Message bodies *)
  Lemma k1_round_trip k : (1 <= List.length (k1_Commitments k))%nat -> Z.of_nat (List.length (k1_Commitments k)) <= 65535 ->
    exists k', k1_unmarshal (k1_bytes k) = Ret k' /\ k1_equal k k' = true.
  Proof.
    intros H1 H2. destruct (exp_round_trip _ H1 H2) as (A & E & F). exists (mkKeyGen1 (k1_Proof k) A). split.
    - unfold k1_unmarshal, k1_bytes. rewrite app_length, schnorr_bytes_length. cbn [Nat.add Nat.ltb Nat.leb].
      rewrite firstn_exact, skipn_exact by apply schnorr_bytes_length. rewrite schnorr_round_trip, E. reflexivity.
    - unfold k1_equal. cbn [k1_Proof k1_Commitments]. rewrite (proj2 (exp_equal_iff _ _) F).
      unfold schnorr_equal. now rewrite !feqb_refl.
  Qed.
  Lemma k1_unmarshal_inv data k : k1_unmarshal data = Ret k -> k1_bytes k = data.
  Proof.
    unfold k1_unmarshal. destruct (Nat.ltb _ _); [discriminate|]. intros E.
    apply obind_ret in E as (p & E1 & E). apply obind_ret in E as (c & E2 & E). apply Ret_inj in E. subst k.
    apply schnorr_unmarshal_inv in E1. apply exp_unmarshal_inv in E2 as (E2 & _).
    unfold k1_bytes. cbn [k1_Proof k1_Commitments]. rewrite E1, E2. apply firstn_skipn.
  Qed.
  Lemma k1_unmarshal_total data : is_panic (k1_unmarshal data) = false.
  Proof.
    unfold k1_unmarshal. destruct (Nat.ltb _ _); auto. pose proof (schnorr_unmarshal_total (firstn 64 data)).
    destruct (schnorr_unmarshal (firstn 64 data)); auto. cbn [obind]. pose proof (exp_unmarshal_total (skipn 64 data)).
    destruct (exp_unmarshal (skipn 64 data)); auto.
  Qed.
  Lemma k2_round_trip k : k2_unmarshal (k2_bytes k) = Ret k.
  Proof. unfold k2_unmarshal, k2_bytes. rewrite scalar_bytes_length. cbn [Nat.eqb negb]. rewrite scalar_canonical_bytes. destruct k; reflexivity. Qed.
  Lemma k2_unmarshal_inv data k : k2_unmarshal data = Ret k -> k2_bytes k = data.
  Proof.
    unfold k2_unmarshal. destruct (negb _); [discriminate|]. destruct (scalar_set_canonical data) eqn:E; [|discriminate].
    cbn. intros X. apply Ret_inj in X. subst k. now apply scalar_bytes_canonical.
  Qed.
  Lemma k2_unmarshal_total data : is_panic (k2_unmarshal data) = false.
  Proof. unfold k2_unmarshal. destruct (negb _); auto. destruct (scalar_set_canonical data); auto. Qed.
  Lemma s2_round_trip k : s2_unmarshal (s2_bytes k) = Ret k.
  Proof. unfold s2_unmarshal, s2_bytes. rewrite scalar_bytes_length. cbn [Nat.eqb negb]. rewrite scalar_canonical_bytes. destruct k; reflexivity. Qed.
  Lemma s2_unmarshal_inv data k : s2_unmarshal data = Ret k -> s2_bytes k = data.
  Proof.
    unfold s2_unmarshal. destruct (negb _); [discriminate|]. destruct (scalar_set_canonical data) eqn:E; [|discriminate].
    cbn. intros X. apply Ret_inj in X. subst k. now apply scalar_bytes_canonical.
  Qed.
  Lemma s2_unmarshal_total data : is_panic (s2_unmarshal data) = false.
  Proof. unfold s2_unmarshal. destruct (negb _); auto. destruct (scalar_set_canonical data); auto. Qed.
  Lemma s1_bytes_length s : List.length (s1_bytes s) = 64%nat.
  Proof. unfold s1_bytes. rewrite app_length, !genc_len. reflexivity. Qed.
  Lemma s1_round_trip s : exists s', s1_unmarshal (s1_bytes s) = Ret s' /\ s1_equal s s' = true.
  Proof.
    destruct (gdec_genc (s1_Di s)) as (D & E1 & F1). destruct (gdec_genc (s1_Ei s)) as (E & E2 & F2).
    exists (mkSign1 D E). split.
    - unfold s1_unmarshal. rewrite s1_bytes_length. cbn [Nat.eqb negb]. unfold s1_bytes.
      rewrite firstn_exact, skipn_exact by apply genc_len. rewrite E1, E2. reflexivity.
    - unfold s1_equal. cbn [s1_Di s1_Ei]. unfold geq in *. now rewrite F1, F2.
  Qed.
  Lemma s1_unmarshal_inv data s : s1_unmarshal data = Ret s -> s1_bytes s = data.
  Proof.
    unfold s1_unmarshal. destruct (negb _); [discriminate|].
    destruct (gdec (firstn 32 data)) eqn:E1; [|discriminate]. destruct (gdec (skipn 32 data)) eqn:E2; [|discriminate].
    cbn. intros X. apply Ret_inj in X. subst s. unfold s1_bytes. cbn [s1_Di s1_Ei].
    rewrite (genc_gdec _ _ E1), (genc_gdec _ _ E2). apply firstn_skipn.
  Qed.
  Lemma s1_unmarshal_total data : is_panic (s1_unmarshal data) = false.
  Proof. unfold s1_unmarshal. destruct (negb _); auto. destruct (gdec _); auto. cbn. destruct (gdec _); auto. Qed.
End Exp.
