(** C20-C23, C28, C41 and the decoding half of C19: binary encodings. *)
From Coq Require Import ZArith Lia List Bool String Setoid Morphisms.
From Coq.Strings Require Import Byte.
From stdpp Require Import base gmap.
From Verif Require Import ZField Primes Bytes Scalar Go Group ToyGroup Party Poly Zk Eddsa Messages State Sign Spec_Wire CodecFacts.
Import ListNotations.
Local Open Scope Z_scope.

(** * C22 *)
(** The addressing rules. *)
Definition addressing (h : Header) : Prop :=
  h_From h <> 0 /\ ((h_Type h = 1 \/ h_Type h = 3 \/ h_Type h = 4) /\ h_To h = 0 \/ h_Type h = 2 /\ h_To h <> 0).

Theorem C22_encode : forall h, (exists b, header_bytes h = Ret b) <-> addressing h.
Proof.
  intros h. unfold header_bytes. split.
  - intros [b E]. apply obind_ret in E as ([] & E & _). now apply header_check_iff in E.
  - intros H. apply (header_check_iff "Header.BytesAppend") in H. rewrite H. simpl. eauto.
Qed.

Theorem C22_decode : forall data h, header_unmarshal data = Ret h ->
  addressing h /\ is_u16 (h_From h) /\ is_u16 (h_To h).
Proof.
  intros data h E. apply header_unmarshal_inv in E as [[H1 H2] _]. unfold addressing, is_u16. lia.
Qed.

(** Decoding succeeds exactly on 5 bytes or more that spell an admissible header. *)
Theorem C22_decode_iff : forall data, (exists h, header_unmarshal data = Ret h) <->
  exists t a b c d rest, data = t :: a :: b :: c :: d :: rest /\
    addressing (mkHeader (b2z t) (256 * b2z a + b2z b) (256 * b2z c + b2z d)).
Proof.
  intros data. assert (forall a b, be16_val a b = 256 * b2z a + b2z b) as V by (intros; unfold be16_val; apply (f_equal2 Z.add); [apply Z.mul_comm|reflexivity]).
  split.
  - intros [h E]. destruct data as [|t [|a [|b [|c [|d rest]]]]]; try discriminate. exists t, a, b, c, d, rest. split; auto.
    cbn [header_unmarshal] in E. apply obind_ret in E as ([] & E & _). apply header_check_iff in E. rewrite !V in E. exact E.
  - intros (t & a & b & c & d & rest & -> & H). cbn [header_unmarshal]. rewrite !V.
    rewrite (proj2 (header_check_iff _ _) H). simpl. eauto.
Qed.

Theorem C22_round_trip : forall h rest, addressing h -> is_u16 (h_From h) -> is_u16 (h_To h) ->
  exists b, header_bytes h = Ret b /\ List.length b = 5%nat /\ header_unmarshal (b ++ rest) = Ret h.
Proof.
  intros h rest H H1 H2. assert (header_ok h) as O by (unfold addressing, is_u16, header_ok in *; lia).
  rewrite header_bytes_ok by auto. eexists. split; [reflexivity|]. split; [reflexivity|]. now apply header_unmarshal_ok.
Qed.

Theorem C22_decode_canonical : forall data h, header_unmarshal data = Ret h ->
  exists b, header_bytes h = Ret b /\ data = b ++ skipn 5 data.
Proof.
  intros data h E. apply header_unmarshal_inv in E as [O E]. rewrite header_bytes_ok by auto. eauto.
Qed.

Example C22_example : addressing (mkHeader 2 7 300) /\ ~ addressing (mkHeader 2 7 0) /\
  header_bytes (mkHeader 2 7 300) = Ret [x02; x00; x07; x01; x2c] /\
  (exists e, header_unmarshal [x01; x00; x07; x00; x01] = Fail e).
Proof. repeat split; unfold addressing; simpl; try lia. eexists; reflexivity. Qed.

Section Codec.
  Context `{L : group_laws}.

  (** * C23 *)
  Theorem C23_round_trip : forall A : list G, (1 <= List.length A)%nat -> Z.of_nat (List.length A) <= 65535 ->
    exists A', exp_unmarshal (exp_bytes A) = Ret A' /\ exp_equal A A' = true /\ Forall2 geq A' A.
  Proof.
    intros A H1 H2. destruct (exp_round_trip A H1 H2) as (A' & E & F). exists A'. split; auto. split; auto.
    apply exp_equal_iff. clear -F L. induction F; constructor; auto. now symmetry.
  Qed.

  (** The layout: degree on two bytes, then the coefficients. *)
  Theorem C23_layout : forall A : list G, (1 <= List.length A)%nat -> Z.of_nat (List.length A) <= 65535 ->
    exp_bytes A = [hi (Z.of_nat (List.length A) - 1); lo (Z.of_nat (List.length A) - 1)] ++ concat (map genc A) /\
    Z.of_nat (List.length (exp_bytes A)) = exp_size A.
  Proof.
    intros A H1 H2. split; [|apply exp_bytes_length]. unfold exp_bytes, id_bytes, be16. rewrite exp_degree_ok by auto.
    unfold hi, lo. now rewrite z2b_mod, flat_map_concat_map.
  Qed.

  Theorem C23_canonical : forall data (A : list G), exp_unmarshal data = Ret A ->
    exp_bytes A = data /\ Z.of_nat (List.length A) <= 65535.
  Proof. intros data A E. apply exp_unmarshal_inv in E as (H1 & H2 & _). auto. Qed.

  (** Never empty, with exactly one exception: the two bytes ff ff. *)
  Theorem C23_nonempty_partial : forall data (A : list G), exp_unmarshal data = Ret A ->
    (A = [] <-> data = [xff; xff]).
  Proof. intros data A E. now apply exp_unmarshal_inv in E as (_ & _ & H). Qed.

  (** The exception: "ff ff" is accepted as a polynomial without any coefficient, whose Constant() panics. *)
  Theorem C23_nonempty_refuted : exists data (A : list G), exp_unmarshal data = Ret A /\ A = [] /\ is_panic (exp_constant A) = true.
  Proof. exists [xff; xff], []. repeat split. Qed.

  Theorem C23_no_panic : forall data, is_panic (exp_unmarshal data) = false.
  Proof. intros. apply exp_unmarshal_total. Qed.

  (** * C28 *)
  Theorem C28_signature_round_trip : forall s : Signature,
    List.length (sig_bytes s) = 64%nat /\
    exists s', sig_unmarshal (sig_bytes s) = Ret s' /\ sig_equal s s' = true /\ geq (sig_R s') (sig_R s) /\ sig_S s' = sig_S s.
  Proof.
    intros s. assert (List.length (sig_bytes s) = 64%nat) as HL by (unfold sig_bytes; rewrite app_length, genc_len, scalar_bytes_length; reflexivity).
    split; auto. destruct (gdec_genc (sig_R s)) as (R & E & F). exists (mkSig R (sig_S s)). split; [|split; [|auto]].
    - unfold sig_unmarshal. rewrite HL. cbn [Nat.ltb Nat.leb]. unfold sig_bytes.
      rewrite firstn_exact, skipn_exact by apply genc_len. rewrite E, scalar_canonical_bytes. reflexivity.
    - unfold sig_equal. cbn [sig_R sig_S]. unfold geq in F. now rewrite F, feqb_refl.
  Qed.

  (** Accepted exactly when the string is a canonical element followed by a canonical scalar. *)
  Theorem C28_signature_decode : forall data, 
    ((exists s, sig_unmarshal data = Ret s) <->
     List.length data = 64%nat /\ (exists R, gdec (firstn 32 data) = Some R) /\ le_val (skipn 32 data) < q25519) /\
    (forall s, sig_unmarshal data = Ret s -> sig_bytes s = data) /\
    is_panic (sig_unmarshal data) = false.
  Proof.
    intros data. split; [|split].
    - unfold sig_unmarshal. destruct (Nat.ltb_spec (List.length data) 64) as [Hl|Hl].
      { split; [intros [? E]; discriminate|lia]. }
      destruct (gdec (firstn 32 data)) as [R|] eqn:E1.
      + split.
        * intros [s E]. destruct (scalar_set_canonical (skipn 32 data)) as [x|] eqn:E2; [|discriminate].
          assert (exists s, scalar_set_canonical (skipn 32 data) = Some s) as X by eauto.
          apply scalar_set_canonical_iff in X as [X1 X2]. rewrite skipn_length in X1. repeat split; eauto. lia.
        * intros (H1 & _ & H2). assert (exists s, scalar_set_canonical (skipn 32 data) = Some s) as [s ->].
          { apply scalar_set_canonical_iff. rewrite skipn_length. split; auto. lia. }
          eauto.
      + split; [intros [? E]; discriminate|intros (_ & [? E] & _); discriminate].
    - intros s. unfold sig_unmarshal. destruct (Nat.ltb _ _); [discriminate|].
      destruct (gdec (firstn 32 data)) eqn:E1; [|discriminate].
      destruct (scalar_set_canonical (skipn 32 data)) eqn:E2; [|discriminate]. intros E. apply Ret_inj in E. subst s.
      unfold sig_bytes. cbn [sig_R sig_S]. rewrite (genc_gdec _ _ E1), (scalar_bytes_canonical _ _ E2). apply firstn_skipn.
    - unfold sig_unmarshal. destruct (Nat.ltb _ _); auto. destruct (gdec _); auto. destruct (scalar_set_canonical _); auto.
  Qed.

  Theorem C28_share_round_trip : forall id s, is_u16 id ->
    List.length (share_bytes (NewSecretShare id s)) = 34%nat /\
    share_unmarshal (share_bytes (NewSecretShare id s)) = Ret (NewSecretShare id s).
  Proof.
    intros id s H. assert (List.length (share_bytes (NewSecretShare id s)) = 34%nat) as HL.
    { unfold share_bytes. rewrite app_length, scalar_bytes_length. reflexivity. }
    split; auto. unfold share_unmarshal. rewrite HL. cbn [Nat.eqb negb]. unfold share_bytes, NewSecretShare. cbn [sh_ID sh_Secret].
    rewrite FromBytes_id_bytes by auto. cbn [obind]. rewrite skipn_exact by reflexivity. now rewrite scalar_canonical_bytes.
  Qed.

  Theorem C28_share_decode : forall data,
    ((exists k, share_unmarshal data = Ret k) <-> List.length data = 34%nat /\ le_val (skipn 2 data) < q25519) /\
    (forall k, share_unmarshal data = Ret k -> share_bytes k = data /\ sh_Public k = gbmul (sh_Secret k) /\ is_u16 (sh_ID k)) /\
    is_panic (share_unmarshal data) = false.
  Proof.
    intros data. unfold share_unmarshal. destruct (Nat.eqb_spec (List.length data) 34) as [HL|HL]; cbn [negb].
    - destruct data as [|x [|y rest]]; try discriminate. cbn [FromBytes obind].
      change (skipn 2 (x :: y :: rest)) with rest. assert (List.length rest = 32%nat) as HR by (injection HL; auto).
      destruct (scalar_set_canonical rest) as [s|] eqn:E.
      + assert (exists s, scalar_set_canonical rest = Some s) as X by eauto. apply scalar_set_canonical_iff in X as [_ X].
        split; [|split; [|reflexivity]]; [split; eauto|].
        intros k Ek. apply Ret_inj in Ek. subst k. unfold share_bytes. cbn [sh_ID sh_Secret sh_Public].
        rewrite (scalar_bytes_canonical _ _ E). unfold id_bytes. rewrite be16_be16_val. repeat split; apply be16_val_range.
      + split; [|split; [intros; discriminate|reflexivity]]. split; [intros [? ?]; discriminate|].
        intros [_ X]. assert (exists s, scalar_set_canonical rest = Some s) as [? X2] by (apply scalar_set_canonical_iff; auto). congruence.
    - split; [|split; [intros; discriminate|reflexivity]]. split; [intros [? ?]; discriminate|tauto].
  Qed.

  (** zk.Schnorr, same shape. *)
  (** Equal compares exactly what the binary form contains: two shares are equal iff they are encoded alike. *)
  Theorem C28_share_equal : forall a b : SecretShare, is_u16 (sh_ID a) -> is_u16 (sh_ID b) ->
    (share_equal a b = true <-> share_bytes a = share_bytes b).
  Proof.
    intros a b Ha Hb. unfold share_equal, share_bytes. rewrite andb_true_iff, Z.eqb_eq, feqb_eq. split; [intros [-> ->]; reflexivity|].
    intros E. apply (f_equal (firstn 2)) in E as E1. rewrite !firstn_exact in E1 by reflexivity.
    apply (f_equal (skipn 2)) in E as E2. rewrite !skipn_exact in E2 by reflexivity. apply scalar_bytes_inj in E2. split; auto.
    apply (f_equal FromBytes) in E1. pose proof (FromBytes_id_bytes (sh_ID a) [] Ha) as X. pose proof (FromBytes_id_bytes (sh_ID b) [] Hb) as Y.
    rewrite app_nil_r in X, Y. congruence.
  Qed.
  Theorem C28_signature_equal : forall a b : Signature, sig_equal a b = true <-> sig_bytes a = sig_bytes b.
  Proof.
    intros a b. unfold sig_equal, sig_bytes. rewrite andb_true_iff, feqb_eq. split.
    - intros [E1 E2]. rewrite E2. f_equal. symmetry. apply genc_eq. exact E1.
    - intros E. apply (f_equal (firstn 32)) in E as E1. rewrite !firstn_exact in E1 by apply genc_len.
      apply (f_equal (skipn 32)) in E as E2. rewrite !skipn_exact in E2 by apply genc_len. apply scalar_bytes_inj in E2. split; [|congruence]. apply genc_eq. now symmetry.
  Qed.

  Theorem C28_schnorr : forall p data,
    schnorr_unmarshal (schnorr_bytes p) = Ret p /\
    (forall p', schnorr_unmarshal data = Ret p' -> schnorr_bytes p' = data /\ List.length data = 64%nat) /\
    is_panic (schnorr_unmarshal data) = false.
  Proof.
    intros p data. split; [apply schnorr_round_trip|]. split; [|apply schnorr_unmarshal_total].
    intros p' E. apply schnorr_unmarshal_inv in E. split; auto. rewrite <- E. apply schnorr_bytes_length.
  Qed.

  (** * C20 *)
  (** The messages that the constructors build from valid arguments. *)
  Inductive built : Message -> Prop :=
  | built_k1 from pr A : 1 <= from < 65536 -> (1 <= List.length A)%nat -> Z.of_nat (List.length A) <= 65535 -> built (NewKeyGen1 from pr A)
  | built_k2 from to s : 1 <= from < 65536 -> 1 <= to < 65536 -> built (NewKeyGen2 from to s)
  | built_s1 from D E : 1 <= from < 65536 -> built (NewSign1 from D E)
  | built_s2 from z : 1 <= from < 65536 -> built (NewSign2 from z).

  Lemma built_header m : built m -> header_ok (m_Header m).
  Proof. destruct 1; unfold header_ok; cbn; unfold MTKeyGen1, MTKeyGen2, MTSign1, MTSign2; lia. Qed.

  Lemma header_equal_refl h : header_equal h h = true.
  Proof. unfold header_equal. now rewrite !Z.eqb_refl. Qed.

  Ltac skip5 := match goal with |- context [skipn headerSize (?h ++ ?b)] => change (skipn headerSize (h ++ b)) with b end.

  Theorem C20_round_trip : forall m recv, built m ->
    exists b m', msg_MarshalBinary m = Ret b /\ Z.of_nat (List.length b) = msg_Size m /\
      msg_UnmarshalBinary recv b = Ret m' /\ msg_Equal m m' = true /\ m_Header m' = m_Header m.
  Proof.
    intros m [h0 k1 k2 s1 s2] B. pose proof (built_header m B) as HO. destruct B.
    - unfold msg_MarshalBinary. unfold m_Type; cbn [m_Header NewKeyGen1 NewKeyGen2 NewSign1 NewSign2]; rewrite header_bytes_ok' by exact HO. cbn [obind m_Header NewKeyGen1 h_Type m_KeyGen1].
      change (MTKeyGen1 =? MTKeyGen1) with true. cbv iota. cbn [option_map].
      destruct (k1_round_trip (mkKeyGen1 pr A)) as (k' & E & F); auto.
      eexists _, _. split; [reflexivity|]. split.
      { rewrite app_length. unfold msg_Size, m_Type. cbn [m_Header NewKeyGen1 h_Type m_KeyGen1].
        change (MTKeyGen1 =? MTKeyGen1) with true. cbv iota. cbn [osize k1_Commitments]. unfold k1_bytes.
        rewrite app_length, schnorr_bytes_length, !Nat2Z.inj_add. cbn [k1_Commitments]. rewrite exp_bytes_length.
        change (Z.of_nat (List.length _)) with (Z.of_nat headerSize). reflexivity. }
      split.
      { unfold msg_UnmarshalBinary. rewrite header_unmarshal_ok' by exact HO. cbn [obind]. cbv zeta. skip5.
        cbn [m_Header NewKeyGen1 h_Type]. change (MTKeyGen1 =? MTKeyGen1) with true. cbv iota. rewrite E. cbn [assign obind]. reflexivity. }
      split; [|reflexivity]. unfold msg_Equal. cbn [m_Header NewKeyGen1 NewSign1]. rewrite header_equal_refl. exact F.
    - unfold msg_MarshalBinary. unfold m_Type; cbn [m_Header NewKeyGen1 NewKeyGen2 NewSign1 NewSign2]; rewrite header_bytes_ok' by exact HO. cbn [obind m_Header NewKeyGen2 h_Type m_KeyGen2].
      change (MTKeyGen2 =? MTKeyGen1) with false. change (MTKeyGen2 =? MTKeyGen2) with true. cbv iota. cbn [option_map].
      eexists _, _. split; [reflexivity|]. split.
      { rewrite app_length. unfold k2_bytes. rewrite scalar_bytes_length. reflexivity. }
      split.
      { unfold msg_UnmarshalBinary. rewrite header_unmarshal_ok' by exact HO. cbn [obind]. cbv zeta. skip5.
        cbn [m_Header NewKeyGen2 h_Type]. change (MTKeyGen2 =? MTKeyGen1) with false. change (MTKeyGen2 =? MTKeyGen2) with true. cbv iota.
        rewrite k2_round_trip. cbn [assign obind]. reflexivity. }
      split; [|reflexivity]. unfold msg_Equal. cbn [m_Header NewKeyGen2]. rewrite header_equal_refl. exact (feqb_refl s).
    - unfold msg_MarshalBinary. unfold m_Type; cbn [m_Header NewKeyGen1 NewKeyGen2 NewSign1 NewSign2]; rewrite header_bytes_ok' by exact HO. cbn [obind m_Header NewSign1 h_Type m_Sign1].
      change (MTSign1 =? MTKeyGen1) with false. change (MTSign1 =? MTKeyGen2) with false. change (MTSign1 =? MTSign1) with true. cbv iota. cbn [option_map].
      destruct (s1_round_trip (mkSign1 D E)) as (k' & Ek & F).
      eexists _, _. split; [reflexivity|]. split.
      { rewrite app_length, s1_bytes_length. reflexivity. }
      split.
      { unfold msg_UnmarshalBinary. rewrite header_unmarshal_ok' by exact HO. cbn [obind]. cbv zeta. skip5.
        cbn [m_Header NewSign1 h_Type]. change (MTSign1 =? MTKeyGen1) with false. change (MTSign1 =? MTKeyGen2) with false. change (MTSign1 =? MTSign1) with true. cbv iota.
        rewrite Ek. cbn [assign obind]. reflexivity. }
      split; [|reflexivity]. unfold msg_Equal. cbn [m_Header NewKeyGen1 NewSign1]. rewrite header_equal_refl. exact F.
    - unfold msg_MarshalBinary. unfold m_Type; cbn [m_Header NewKeyGen1 NewKeyGen2 NewSign1 NewSign2]; rewrite header_bytes_ok' by exact HO. cbn [obind m_Header NewSign2 h_Type m_Sign2].
      change (MTSign2 =? MTKeyGen1) with false. change (MTSign2 =? MTKeyGen2) with false. change (MTSign2 =? MTSign1) with false. change (MTSign2 =? MTSign2) with true. cbv iota. cbn [option_map].
      eexists _, _. split; [reflexivity|]. split.
      { rewrite app_length. unfold s2_bytes. rewrite scalar_bytes_length. reflexivity. }
      split.
      { unfold msg_UnmarshalBinary. rewrite header_unmarshal_ok' by exact HO. cbn [obind]. cbv zeta. skip5.
        cbn [m_Header NewSign2 h_Type]. change (MTSign2 =? MTKeyGen1) with false. change (MTSign2 =? MTKeyGen2) with false. change (MTSign2 =? MTSign1) with false. change (MTSign2 =? MTSign2) with true. cbv iota.
        rewrite s2_round_trip. cbn [assign obind]. reflexivity. }
      split; [|reflexivity]. unfold msg_Equal. cbn [m_Header NewSign2]. rewrite header_equal_refl. exact (feqb_refl z).
  Qed.

  (** The exact bytes. *)
  Lemma le_bytes_digits n z : le_bytes n z = map (fun i => z2b (z / 256 ^ Z.of_nat i)) (seq 0 n).
  Proof.
    revert z. induction n as [|n IH]; intros z; [reflexivity|]. cbn [le_bytes seq map].
    apply f_equal2; [now rewrite Z.div_1_r|]. rewrite IH, <- seq_shift, map_map. apply map_ext. intros i.
    rewrite Nat2Z.inj_succ, Z.pow_succ_r by lia. rewrite Z.div_div by lia. reflexivity.
  Qed.
  Lemma scalar_bytes_le32 s : scalar_bytes s = le32 (fz s).
  Proof. apply le_bytes_digits. Qed.

  Theorem C20_layout : forall from to pr A s D E z, 1 <= from < 65536 -> 1 <= to < 65536 ->
    (1 <= List.length A)%nat -> Z.of_nat (List.length A) <= 65535 ->
    msg_MarshalBinary (NewKeyGen1 from pr A) = Ret (wire_KeyGen1 from (pr_S pr) (pr_R pr) A) /\
    msg_MarshalBinary (NewKeyGen2 from to s) = Ret (wire_KeyGen2 from to s) /\
    msg_MarshalBinary (NewSign1 from D E) = Ret (wire_Sign1 from D E) /\
    msg_MarshalBinary (NewSign2 from z) = Ret (wire_Sign2 from z).
  Proof.
    intros from to pr A s D E z H1 H2 H3 H4.
    assert (B1 : header_ok (mkHeader MTKeyGen1 from 0)) by (unfold header_ok; cbn; unfold MTKeyGen1; lia).
    assert (B2 : header_ok (mkHeader MTKeyGen2 from to)) by (unfold header_ok; cbn; unfold MTKeyGen2; lia).
    assert (B3 : header_ok (mkHeader MTSign1 from 0)) by (unfold header_ok; cbn; unfold MTSign1; lia).
    assert (B4 : header_ok (mkHeader MTSign2 from 0)) by (unfold header_ok; cbn; unfold MTSign2; lia).
    assert (forall n, z2b (n mod 256) = z2b n) as ZM by (intros; apply z2b_mod).
    repeat split; unfold msg_MarshalBinary; cbn [m_Header NewKeyGen1 NewKeyGen2 NewSign1 NewSign2];
      rewrite header_bytes_ok' by assumption; cbn [obind]; unfold m_Type; cbn [h_Type m_Header].
    - change (MTKeyGen1 =? MTKeyGen1) with true. cbv iota. cbn [m_KeyGen1 option_map]. apply f_equal.
      unfold wire_KeyGen1, k1_bytes, schnorr_bytes. cbn [k1_Proof k1_Commitments].
      rewrite (proj1 (C23_layout A H3 H4)), !scalar_bytes_le32. unfold hi, lo. rewrite !ZM. unfold id_bytes, be16. rewrite <- !app_assoc. reflexivity.
    - change (MTKeyGen2 =? MTKeyGen1) with false. change (MTKeyGen2 =? MTKeyGen2) with true. cbv iota. cbn [m_KeyGen2 option_map]. apply f_equal.
      unfold wire_KeyGen2, k2_bytes. cbn [k2_Share]. rewrite scalar_bytes_le32. unfold hi, lo. rewrite !ZM. reflexivity.
    - change (MTSign1 =? MTKeyGen1) with false. change (MTSign1 =? MTKeyGen2) with false. change (MTSign1 =? MTSign1) with true. cbv iota. cbn [m_Sign1 option_map].
      unfold wire_Sign1, hi, lo. rewrite !ZM. reflexivity.
    - change (MTSign2 =? MTKeyGen1) with false. change (MTSign2 =? MTKeyGen2) with false. change (MTSign2 =? MTSign1) with false. change (MTSign2 =? MTSign2) with true. cbv iota. cbn [m_Sign2 option_map].
      apply f_equal. unfold wire_Sign2, s2_bytes. cbn [s2_Zi]. rewrite scalar_bytes_le32. unfold hi, lo. rewrite !ZM. reflexivity.
  Qed.

  (** Equal is symmetric and transitive where it matters: two messages Equal to a third one. *)
  Lemma exp_equal_tri (A B C : list G) : exp_equal C A = true -> exp_equal C B = true -> exp_equal B A = true.
  Proof.
    rewrite !exp_equal_iff. intros F. revert B. induction F; intros B H2; inversion H2; subst; constructor.
    - rewrite <- H. now symmetry.
    - auto.
  Qed.
  Lemma msg_Equal_tri a b c : msg_Equal a c = true -> msg_Equal b c = true -> msg_Equal a b = true.
  Proof.
    unfold msg_Equal, header_equal, m_Type. rewrite !andb_true_iff, !Z.eqb_eq. intros [[[-> ->] ->] Ha] [[[-> ->] ->] Hb].
    split; [auto|].
    repeat match goal with |- context [if ?x then _ else _] => destruct x end; try discriminate.
    - destruct (m_KeyGen1 a) as [[pa ca]|], (m_KeyGen1 c) as [[pc cc]|], (m_KeyGen1 b) as [[pb cb]|]; try discriminate. cbn in *.
      unfold k1_equal, schnorr_equal in *. cbn in *. rewrite !andb_true_iff, !feqb_eq in *.
      destruct Ha as [[Ha1 Ha2] Ha3], Hb as [[Hb1 Hb2] Hb3]. repeat split; try congruence. eapply exp_equal_tri; eauto.
    - destruct (m_KeyGen2 a) as [[ca]|], (m_KeyGen2 c) as [[cc]|], (m_KeyGen2 b) as [[cb]|]; try discriminate. cbn in *.
      unfold k2_equal in *. cbn in *. rewrite feqb_eq in *. congruence.
    - destruct (m_Sign1 a) as [[da ea]|], (m_Sign1 c) as [[dc ec]|], (m_Sign1 b) as [[db eb]|]; try discriminate. cbn in *.
      unfold s1_equal in *. cbn in *. rewrite !andb_true_iff in *. destruct Ha as [Ha1 Ha2], Hb as [Hb1 Hb2].
      split; change (geq db da) || change (geq eb ea); change (geq dc da) in Ha1; change (geq dc db) in Hb1; change (geq ec ea) in Ha2; change (geq ec eb) in Hb2;
      [now rewrite <- Ha1, Hb1|now rewrite <- Ha2, Hb2].
    - destruct (m_Sign2 a) as [[ca]|], (m_Sign2 c) as [[cc]|], (m_Sign2 b) as [[cb]|]; try discriminate. cbn in *.
      unfold s2_equal in *. cbn in *. rewrite feqb_eq in *. congruence.
  Qed.

  Theorem C20_injective : forall m1 m2 b, built m1 -> built m2 ->
    msg_MarshalBinary m1 = Ret b -> msg_MarshalBinary m2 = Ret b -> msg_Equal m1 m2 = true.
  Proof.
    intros m1 m2 b B1 B2 E1 E2.
    destruct (C20_round_trip m1 zero_message B1) as (b1 & m1' & F1 & _ & G1 & H1 & _).
    destruct (C20_round_trip m2 zero_message B2) as (b2 & m2' & F2 & _ & G2 & H2 & _).
    rewrite E1 in F1. rewrite E2 in F2. apply Ret_inj in F1, F2. subst b1 b2.
    rewrite G1 in G2. apply Ret_inj in G2. subst m2'. eapply msg_Equal_tri; eauto.
  Qed.

  (** * C19, first half: decoding never panics, on any input and receiver. *)
  Theorem C19_decode_never_panics : forall recv data, is_panic (msg_UnmarshalBinary recv data) = false.
  Proof.
    intros [h0 a b c d] data. unfold msg_UnmarshalBinary.
    destruct (header_unmarshal_total data) as (r & <- & E). destruct (header_unmarshal data); try discriminate; auto. cbn [obind]. cbv zeta.
    repeat match goal with |- context [if ?x then _ else _] => destruct x end; auto.
    - pose proof (k1_unmarshal_total (skipn headerSize data)). destruct (k1_unmarshal _); auto.
    - pose proof (k2_unmarshal_total (skipn headerSize data)). destruct (k2_unmarshal _); auto.
    - pose proof (s1_unmarshal_total (skipn headerSize data)). destruct (s1_unmarshal _); auto.
    - pose proof (s2_unmarshal_total (skipn headerSize data)). destruct (s2_unmarshal _); auto.
  Qed.

  (** * C21 *)
  (** The body of the message's own type. *)
  Definition has_body (m : Message) : Prop :=
    (h_Type (m_Header m) = 1 /\ m_KeyGen1 m <> None) \/ (h_Type (m_Header m) = 2 /\ m_KeyGen2 m <> None) \/
    (h_Type (m_Header m) = 3 /\ m_Sign1 m <> None) \/ (h_Type (m_Header m) = 4 /\ m_Sign2 m <> None).

  (** Into a fresh receiver: either the body was decoded and the input is exactly the encoding of the result,
      or the body's decoding error was dropped and the message has no body at all. *)
  Theorem C21_fresh_receiver_partial : forall data m, msg_UnmarshalBinary zero_message data = Ret m ->
    (has_body m /\ msg_MarshalBinary m = Ret data) \/
    (m = mkMessage (m_Header m) None None None None /\ (exists e, msg_MarshalBinary m = Fail e)).
  Proof.
    intros data m. unfold msg_UnmarshalBinary, zero_message. intros E. apply obind_ret in E as (h & E1 & E2). cbv zeta in E2.
    apply header_unmarshal_inv in E1 as [HO HD].
    change (skipn headerSize data) with (skipn 5 data) in E2.
    set (body := skipn 5 data) in *. clearbody body.
    pose proof HO as HT. destruct HT as [_ HT].
    destruct (h_Type h =? MTKeyGen1) eqn:T1; [|destruct (h_Type h =? MTKeyGen2) eqn:T2; [|destruct (h_Type h =? MTSign1) eqn:T3; [|destruct (h_Type h =? MTSign2) eqn:T4; [|discriminate]]]].
    - pose proof (k1_unmarshal_total body) as P. destruct (k1_unmarshal body) as [k|e|] eqn:EB; try discriminate; cbn [assign obind] in E2; apply Ret_inj in E2; subst m.
      + left. split; [left; cbn; split; [now apply Z.eqb_eq in T1|discriminate]|].
        unfold msg_MarshalBinary, m_Type. cbn [m_Header m_KeyGen1]. rewrite header_bytes_ok, T1 by auto. cbn [obind option_map].
        apply k1_unmarshal_inv in EB. rewrite EB. now rewrite <- HD.
      + right. split; [reflexivity|]. unfold msg_MarshalBinary, m_Type. cbn [m_Header m_KeyGen1]. rewrite header_bytes_ok, T1 by auto. cbn. eauto.
    - pose proof (k2_unmarshal_total body) as P. destruct (k2_unmarshal body) as [k|e|] eqn:EB; try discriminate; cbn [assign obind] in E2; apply Ret_inj in E2; subst m.
      + left. split; [right; left; cbn; split; [now apply Z.eqb_eq in T2|discriminate]|].
        unfold msg_MarshalBinary, m_Type. cbn [m_Header m_KeyGen2]. rewrite header_bytes_ok, T1, T2 by auto. cbn [obind option_map].
        apply k2_unmarshal_inv in EB. rewrite EB. now rewrite <- HD.
      + right. split; [reflexivity|]. unfold msg_MarshalBinary, m_Type. cbn [m_Header m_KeyGen2]. rewrite header_bytes_ok, T1, T2 by auto. cbn. eauto.
    - pose proof (s1_unmarshal_total body) as P. destruct (s1_unmarshal body) as [k|e|] eqn:EB; try discriminate; cbn [assign obind] in E2; apply Ret_inj in E2; subst m.
      + left. split; [right; right; left; cbn; split; [now apply Z.eqb_eq in T3|discriminate]|].
        unfold msg_MarshalBinary, m_Type. cbn [m_Header m_Sign1]. rewrite header_bytes_ok, T1, T2, T3 by auto. cbn [obind option_map].
        apply s1_unmarshal_inv in EB. rewrite EB. now rewrite <- HD.
      + right. split; [reflexivity|]. unfold msg_MarshalBinary, m_Type. cbn [m_Header m_Sign1]. rewrite header_bytes_ok, T1, T2, T3 by auto. cbn. eauto.
    - pose proof (s2_unmarshal_total body) as P. destruct (s2_unmarshal body) as [k|e|] eqn:EB; try discriminate; cbn [assign obind] in E2; apply Ret_inj in E2; subst m.
      + left. split; [right; right; right; cbn; split; [now apply Z.eqb_eq in T4|discriminate]|].
        unfold msg_MarshalBinary, m_Type. cbn [m_Header m_Sign2]. rewrite header_bytes_ok, T1, T2, T3, T4 by auto. cbn [obind option_map].
        apply s2_unmarshal_inv in EB. rewrite EB. now rewrite <- HD.
      + right. split; [reflexivity|]. unfold msg_MarshalBinary, m_Type. cbn [m_Header m_Sign2]. rewrite header_bytes_ok, T1, T2, T3, T4 by auto. cbn. eauto.
  Qed.

  (** Into any receiver: as into a fresh one, except that every body the input does not determine stays what it was. *)
  Definition over (recv m : Message) : Message :=
    let keep {A} (x y : option A) := match y with Some _ => y | None => x end in
    mkMessage (m_Header m) (keep (m_KeyGen1 recv) (m_KeyGen1 m)) (keep (m_KeyGen2 recv) (m_KeyGen2 m)) (keep (m_Sign1 recv) (m_Sign1 m)) (keep (m_Sign2 recv) (m_Sign2 m)).
  Theorem C21_any_receiver_partial : forall recv data,
    match msg_UnmarshalBinary zero_message data with
    | Ret m => msg_UnmarshalBinary recv data = Ret (over recv m)
    | _ => exists e, msg_UnmarshalBinary recv data = Fail e
    end.
  Proof.
    intros [h0 a1 a2 a3 a4] data. unfold msg_UnmarshalBinary, zero_message.
    destruct (header_unmarshal_total data) as (r & <- & EH). destruct (header_unmarshal data) as [h|e|]; try discriminate; cbn [obind]; [|eauto]. cbv zeta.
    set (body := skipn headerSize data). clearbody body.
    destruct (h_Type h =? MTKeyGen1); [|destruct (h_Type h =? MTKeyGen2); [|destruct (h_Type h =? MTSign1); [|destruct (h_Type h =? MTSign2); [|eauto]]]].
    - pose proof (k1_unmarshal_total body). now destruct (k1_unmarshal body).
    - pose proof (k2_unmarshal_total body). now destruct (k2_unmarshal body).
    - pose proof (s1_unmarshal_total body). now destruct (s1_unmarshal body).
    - pose proof (s2_unmarshal_total body). now destruct (s2_unmarshal body).
  Qed.
  (** Success depends on the first five bytes alone: they must be the encoding of a valid header. *)
  Theorem C21_accepts_partial : forall recv data,
    (exists m, msg_UnmarshalBinary recv data = Ret m) <-> exists t a b c d rest, data = t :: a :: b :: c :: d :: rest /\
      addressing (mkHeader (b2z t) (256 * b2z a + b2z b) (256 * b2z c + b2z d)).
  Proof.
    intros recv data. rewrite <- C22_decode_iff. split.
    - intros [m E]. apply obind_ret in E as (h & E & _). eauto.
    - intros [h E]. pose proof (C21_any_receiver_partial recv data) as H. destruct (msg_UnmarshalBinary zero_message data) as [m|e|] eqn:E0; [eauto| |].
      + exfalso. unfold msg_UnmarshalBinary, zero_message in E0. rewrite E in E0. cbn [obind] in E0. cbv zeta in E0. apply header_unmarshal_inv in E as [HO _].
        destruct HO as [_ HO]. unfold MTKeyGen1, MTKeyGen2, MTSign1, MTSign2 in E0. set (body := skipn headerSize data) in *. clearbody body.
        destruct HO as [ [ [HT|[HT|HT] ] _]|[HT _] ]; rewrite HT in E0; cbn [Z.eqb Pos.eqb] in E0.
        * pose proof (k1_unmarshal_total body). now destruct (k1_unmarshal body).
        * pose proof (s1_unmarshal_total body). now destruct (s1_unmarshal body).
        * pose proof (s2_unmarshal_total body). now destruct (s2_unmarshal body).
        * pose proof (k2_unmarshal_total body). now destruct (k2_unmarshal body).
      + pose proof (C19_decode_never_panics zero_message data) as P. rewrite E0 in P. discriminate P.
  Qed.

  (** The property itself fails: a bare 5-byte header is accepted although its body is missing ... *)
  Theorem C21_refuted : exists data m, msg_UnmarshalBinary zero_message data = Ret m /\
    (forall b, msg_MarshalBinary m <> Ret b) /\ List.length data = 5%nat.
  Proof.
    exists [x04; x00; x01; x00; x00], (mkMessage (mkHeader 4 1 0) None None None None).
    repeat split. intros b. cbn. discriminate.
  Qed.

  (** ... and a reused receiver keeps the previous message's body, which then passes for the new one. *)
  Theorem C21_stale_body_refuted : forall z : Fq, exists recv data m b,
    msg_UnmarshalBinary recv data = Ret m /\ m_Sign2 m = Some (mkSign2 z) /\
    msg_MarshalBinary m = Ret b /\ b <> data.
  Proof.
    intros z. exists (NewSign2 2 z), [x04; x00; x01; x00; x00; xff], (mkMessage (mkHeader 4 1 0) None None None (Some (mkSign2 z))).
    eexists. repeat split. intros E. apply (f_equal (@List.length byte)) in E.
    cbn [List.length app] in E. unfold s2_bytes in E. cbn [s2_Zi] in E. rewrite !app_length in E. rewrite scalar_bytes_length in E. cbn in E. discriminate.
  Qed.

  (** * C41 *)
  Context `{Hf : hash_fn} (HO : hash_ok Hf).

  Theorem C41_challenge_input : forall R1 R2 A1 A2 m1 m2,
    challenge_input R1 A1 m1 = challenge_input R2 A2 m2 -> geq R1 R2 /\ geq A1 A2 /\ m1 = m2.
  Proof.
    intros R1 R2 A1 A2 m1 m2 E. unfold challenge_input, pk_ToEd25519 in E.
    apply app_inj_len in E as [E1 E]; [|now rewrite !gencEd_len]. apply app_inj_len in E as [E2 E3]; [|now rewrite !gencEd_len].
    apply gencEd_eq in E1, E2. auto.
  Qed.

  Theorem C41_schnorr_input : forall id1 id2 c1 c2 P1 P2 M1 M2, is_u16 id1 -> is_u16 id2 ->
    (32 <= List.length c1)%nat -> (32 <= List.length c2)%nat ->
    zk_input id1 c1 P1 M1 = zk_input id2 c2 P2 M2 ->
    id1 = id2 /\ firstn 32 c1 = firstn 32 c2 /\ geq P1 P2 /\ geq M1 M2.
  Proof.
    intros id1 id2 c1 c2 P1 P2 M1 M2 I1 I2 H1 H2 E. unfold zk_input in E.
    apply app_inj_len in E as [E1 E]; [|reflexivity]. apply app_inj_len in E as [E2 E]; [|rewrite !firstn_length; lia].
    apply app_inj_len in E as [E3 E4]; [|now rewrite !genc_len].
    apply genc_eq in E3, E4. repeat split; auto. now apply be16_inj.
  Qed.

  (** The list B as a plain concatenation. *)
  Definition entries (l : list (Z * (G * G))) : list byte :=
    concat (map (fun e => [hi (fst e); lo (fst e)] ++ genc (fst (snd e)) ++ genc (snd (snd e))) l).

  Lemma rho_B_entries parties ids B : rho_B parties ids = Ret B ->
    exists l, map fst l = ids /\ B = entries l /\
      Forall (fun e => exists p, parties !! (fst e) = Some p /\ snd e = (sg_Di p, sg_Ei p)) l.
  Proof.
    unfold rho_B.
    assert (forall ids acc B, ofold (fun buf id => match parties !! id with
      | None => Panics "nil signer"
      | Some p => Ret (buf ++ id_bytes id ++ genc (sg_Di p) ++ genc (sg_Ei p))
      end) acc ids = Ret B -> exists l, map fst l = ids /\ B = acc ++ entries l /\
      Forall (fun e => exists p, parties !! (fst e) = Some p /\ snd e = (sg_Di p, sg_Ei p)) l) as H.
    { clear. induction ids as [|i ids IH]; intros acc B E; cbn [ofold] in E.
      - apply Ret_inj in E. subst. exists []. rewrite app_nil_r. auto.
      - destruct (parties !! i) as [p|] eqn:Ep; [|discriminate]. cbn [obind] in E.
        apply IH in E as (l & H1 & H2 & H3). exists ((i, (sg_Di p, sg_Ei p)) :: l). cbn [map fst]. split; [congruence|]. split.
        + rewrite H2, <- app_assoc. apply f_equal. unfold entries. cbn [map concat fst snd]. unfold hi, lo. rewrite z2b_mod.
          unfold id_bytes, be16. now rewrite <- !app_assoc.
        + constructor; auto. exists p. auto. }
    intros E. apply H in E as (l & H1 & H2 & H3). exists l. auto.
  Qed.

  Lemma entries_inj l1 l2 : Forall (fun e => is_u16 (fst e)) l1 -> Forall (fun e => is_u16 (fst e)) l2 ->
    entries l1 = entries l2 ->
    Forall2 (fun e1 e2 => fst e1 = fst e2 /\ geq (fst (snd e1)) (fst (snd e2)) /\ geq (snd (snd e1)) (snd (snd e2))) l1 l2.
  Proof.
    intros F1. revert l2. induction F1 as [|[i [D E]] l1 H1 F1 IH]; intros [|[i2 [D2 E2]] l2] F2 X; unfold entries in X; cbn [map concat fst snd] in X.
    - constructor.
    - apply (f_equal (@List.length byte)) in X. rewrite !app_length in X. cbn in X. lia.
    - apply (f_equal (@List.length byte)) in X. rewrite !app_length in X. cbn in X. lia.
    - inversion F2; subst. apply app_inj_len in X as [X1 X2].
      + apply app_inj_len in X1 as [Xi X1]; [|reflexivity]. apply app_inj_len in X1 as [XD XE]; [|now rewrite !genc_len].
        constructor; [|now apply IH]. cbn [fst snd]. apply genc_eq in XD, XE. repeat split; auto.
        cbn [fst] in *. apply be16_inj; auto. unfold hi, lo in Xi. rewrite !z2b_mod in Xi. exact Xi.
      + rewrite !app_length, !genc_len. reflexivity.
  Qed.

  Theorem C41_binding_input : forall ps1 ps2 ids1 ids2 B1 B2 m1 m2 id1 id2,
    Forall is_u16 ids1 -> Forall is_u16 ids2 -> is_u16 id1 -> is_u16 id2 ->
    rho_B ps1 ids1 = Ret B1 -> rho_B ps2 ids2 = Ret B2 ->
    rho_buffer m1 B1 id1 = rho_buffer m2 B2 id2 ->
    id1 = id2 /\ sha512 m1 = sha512 m2 /\ ids1 = ids2 /\
    forall i, In i ids1 -> exists p1 p2, ps1 !! i = Some p1 /\ ps2 !! i = Some p2 /\
      geq (sg_Di p1) (sg_Di p2) /\ geq (sg_Ei p1) (sg_Ei p2).
  Proof.
    intros ps1 ps2 ids1 ids2 B1 B2 m1 m2 id1 id2 F1 F2 I1 I2 E1 E2 X. unfold rho_buffer in X.
    apply app_inj_len in X as [_ X]; [|reflexivity]. apply app_inj_len in X as [Xi X]; [|reflexivity].
    apply app_inj_len in X as [Xm X]; [|now rewrite !HO]. apply be16_inj in Xi; auto.
    apply rho_B_entries in E1 as (l1 & <- & -> & G1). apply rho_B_entries in E2 as (l2 & <- & -> & G2).
    apply entries_inj in X.
    - split; auto. split; auto. split.
      + clear -X. induction X as [|? ? ? ? [H _]]; simpl; congruence.
      + clear -X G1 G2 L. induction X as [|e1 e2 l1 l2 (Ha & Hb & Hc) X IH]; cbn [map]; intros i Hi; [destruct Hi|].
        inversion G1; subst. inversion G2; subst. destruct Hi as [<-|Hi]; [|now apply IH].
        destruct H1 as (p1 & Hp1 & Hq1). destruct H3 as (p2 & Hp2 & Hq2). exists p1, p2.
        rewrite Hq1, Hq2 in Hb, Hc. cbn [fst snd] in *. rewrite Ha at 2. auto.
    - apply (proj1 (Coq.Lists.List.Forall_map fst is_u16 l1)). exact F1.
    - apply (proj1 (Coq.Lists.List.Forall_map fst is_u16 l2)). exact F2.
  Qed.
End Codec.

(** Concrete cases over the small group. *)
Definition ex_k1 : @Message toy_group := @NewKeyGen1 toy_group 300 (mkSchnorr f0 (qof 9)) [qof 5; qof 6].
Example C20_example : @built toy_group ex_k1 /\
  match @msg_MarshalBinary toy_group ex_k1 with
  | Ret b => (firstn 6 b, match @msg_UnmarshalBinary toy_group (@zero_message toy_group) b with Ret m => @msg_Equal toy_group ex_k1 m | _ => false end)
  | _ => ([], false)
  end = ([x01; x01; x2c; x00; x00; x00], true).
Proof. split; [constructor; simpl; lia|vm_compute; reflexivity]. Qed.

Example C23_example : match @exp_unmarshal toy_group (@exp_bytes toy_group [qof 5; qof 6; qof 7]) with
  | Ret A => map fz A | _ => [] end = [5; 6; 7].
Proof. vm_compute. reflexivity. Qed.

Example C28_example : match @share_unmarshal toy_group (@share_bytes toy_group (@NewSecretShare toy_group 513 (qof 77))) with
  | Ret k => (sh_ID k, fz (sh_Secret k)) | _ => (0, 0) end = (513, 77) /\
  match @share_unmarshal toy_group (repeat xff 34) with Fail _ => true | _ => false end = true /\
  map (@share_equal toy_group (@NewSecretShare toy_group 513 (qof 77))) [@NewSecretShare toy_group 513 (qof 77); @NewSecretShare toy_group 514 (qof 77); @NewSecretShare toy_group 513 (qof 78)] =
    [true; false; false].
Proof. repeat split; vm_compute; reflexivity. Qed.

Example C41_example :
  match @rho_B toy_group (<[3 := @mkSigner toy_group f0 (qof 4) (qof 5) f0 f0 f0]> ∅) [3] with
  | Ret B => List.length B | _ => 0%nat end = 66%nat.
Proof. vm_compute. reflexivity. Qed.

Print Assumptions C20_round_trip.
Print Assumptions C20_injective.
Print Assumptions C21_fresh_receiver_partial.
Print Assumptions C41_binding_input.
