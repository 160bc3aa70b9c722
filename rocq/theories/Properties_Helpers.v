(** C30: the dealer of pkg/helpers. *)
From Coq Require Import ZArith Lia List Bool String Permutation Sorted Ring Setoid Morphisms.
From Coq.Strings Require Import Byte.
From stdpp Require Import base gmap list fin_maps.
From Verif Require Import ZField Primes Bytes Scalar Go Group ToyGroup Party Poly PolyFacts Zk Eddsa Messages State StateFacts Spec_State
  Keygen Sign RoundFacts Lift Net Progress NetProgress Spec_Poly PolyAlg Spec_Group Spec_Wire Spec_Sign Spec_SignRun Spec_Keygen Spec_Public SignFacts SignRun
  Properties_Algebra Properties_Codec Properties_Sign Properties_HonestSign Properties_Public Helpers ToyRuns.
Import ListNotations.
Local Open Scope Z_scope.

Local Opaque SetScalarRandom.

(** * NewPartySlice *)
Definition upto (n : Z) : list Z := map Z.of_nat (seq 1 (Z.to_nat n)).

Lemma party_loop_ok n : 0 <= n < 65535 -> forall k i fuel acc, (k < fuel)%nat -> i = n + 1 - Z.of_nat k -> 1 <= i ->
  party_loop fuel i n acc = Some (acc ++ map Z.of_nat (seq (Z.to_nat i) k)).
Proof.
  intros Hn. induction k as [|k IH]; intros i fuel acc Hf Hi H1; destruct fuel as [|fuel]; try lia; cbn [party_loop].
  - rewrite (proj2 (Z.leb_gt _ _)) by lia. cbn. now rewrite app_nil_r.
  - rewrite (proj2 (Z.leb_le _ _)) by lia. unfold u16. rewrite Z.mod_small by lia. rewrite (IH (i + 1)) by lia.
    rewrite <- app_assoc. cbn [seq map app]. rewrite Z2Nat.id by lia. repeat f_equal. lia.
Qed.
Theorem C30_slice : forall n fuel, 0 <= n < 65535 -> (Z.to_nat n < fuel)%nat -> NewPartySlice fuel n = Some (upto n).
Proof. intros n fuel Hn Hf. unfold NewPartySlice. rewrite (party_loop_ok n Hn (Z.to_nat n)) by lia. reflexivity. Qed.
Theorem C30_set : forall n fuel, 0 <= n < 65535 -> (Z.to_nat n < fuel)%nat -> GenerateSet fuel n = Some (upto n).
Proof.
  intros n fuel Hn Hf. unfold GenerateSet. rewrite C30_slice by auto. cbn. f_equal. symmetry. apply sorted_perm_unique; [|apply NewIDSlice_sorted|apply NewIDSlice_perm].
  clear Hf. unfold upto. generalize 1%nat. induction (Z.to_nat n) as [|k IH]; intros s; cbn; constructor; auto; [apply IH|].
  apply List.Forall_forall. intros x Hx. apply in_map_iff in Hx as (y & <- & Hy). apply in_seq in Hy. lia.
Qed.
(** The largest Size: the 16-bit counter wraps before it exceeds n, so the loop (which appends to a slice) never ends. *)
Theorem C30_slice_max_refuted : forall fuel, NewPartySlice fuel 65535 = None.
Proof.
  assert (forall fuel i acc, 0 <= i < 65536 -> party_loop fuel i 65535 acc = None) as X.
  { induction fuel as [|fuel IH]; intros i acc Hi; cbn [party_loop]; auto. rewrite (proj2 (Z.leb_le _ _)) by lia. apply IH.
    unfold u16. apply Z.mod_pos_bound. lia. }
  intros fuel. apply X. lia.
Qed.

(** * GenerateSecrets and GeneratePublic *)
Section Dealer.
  Context `{L : group_laws}.
  Context (r : rng) (set : list Z) (t : Z).
  Context (Hset : Forall (fun i => 1 <= i < 65536) set) (Hlen : Z.of_nat (List.length set) < 65536) (Ht : 0 <= t < Z.of_nat (List.length set)).
  Notation f := (dealt r (Z.to_nat t)).
  (** The shares of f. *)
  Definition deal_ok (shares : gmap Z SecretShare) : Prop :=
    (forall i, In i set -> exists sk, shares !! i = Some sk /\ sh_ID sk = i /\ sh_Secret sk = spoly f (qof i) /\ geq (sh_Public sk) (gbmul (spoly f (qof i)))) /\
    (forall i, ~ In i set -> shares !! i = None).

  Lemma deal_loop p : forall l acc, Forall (fun i => 1 <= i < 65536) l -> exists m : gmap Z SecretShare,
    ofold (fun (acc : gmap Z SecretShare) id => let* x := id_scalar id in let* y := poly_eval p x in Ret (<[id := NewSecretShare id y]> acc)) acc l = Ret m /\
    (forall i, In i l -> m !! i = Some (NewSecretShare i (spoly p (qof i)))) /\ (forall i, ~ In i l -> m !! i = acc !! i).
  Proof.
    induction l as [|j l IH]; intros acc HF; cbn [ofold].
    - exists acc. split; auto. split; [intros i []|auto].
    - inversion HF as [|? ? Hj HF']; subst. rewrite id_scalar_ok by (unfold is_u16; lia). cbn [obind].
      rewrite poly_eval_ok. 2:{ intros E. apply idF_0 in E; unfold is_u16; lia. } cbn [obind].
      destruct (IH (<[j := NewSecretShare j (peval p (idF j))]> acc) HF') as (m & E & H1 & H2). exists m. split; [exact E|]. split.
      + intros i [<-|Hi]; auto. destruct (in_dec Z.eq_dec j l) as [Hin|Hin]; auto. rewrite H2 by auto. setoid_rewrite lookup_insert. rewrite peval_spoly. reflexivity.
      + intros i Hi. rewrite H2 by (intros X; apply Hi; now right). apply lookup_insert_ne. intros ->. apply Hi. now left.
  Qed.

  Lemma dealt_cons : SetScalarRandom r 0 :: map (fun i => SetScalarRandom r (1 + i)) (seq 0 (Z.to_nat t)) = f.
  Proof. unfold dealt. cbn [seq map]. f_equal. rewrite <- seq_shift, map_map. reflexivity. Qed.

  Theorem C30_secrets : exists shares, GenerateSecrets r set t = Ret (spoly f f0, shares) /\ deal_ok shares.
  Proof.
    unfold GenerateSecrets, N_ids, u16 at 1. rewrite Z.mod_small by lia. rewrite (proj2 (Z.leb_gt _ _)) by lia. cbv zeta.
    unfold NewPolynomial, u16. rewrite Z.mod_small by lia. rewrite (proj2 (Z.eqb_neq _ _)) by lia. cbn [obind]. rewrite dealt_cons.
    destruct (deal_loop f set ∅ Hset) as (m & E & H1 & H2). exists m. rewrite E. cbn [obind]. split.
    - f_equal. f_equal. rewrite <- peval_spoly, peval_0. reflexivity.
    - split.
      + intros i Hi. eexists. split; [now apply H1|]. cbn. split; auto. split; reflexivity.
      + intros i Hi. rewrite H2 by auto. apply lookup_empty.
  Qed.

  Lemma deal_size shares : deal_ok shares -> List.NoDup set -> size shares = List.length set.
  Proof.
    intros [H1 H2] ND. rewrite <- (size_dom (D := gset Z)). replace (dom shares) with (list_to_set set : gset Z).
    - apply size_list_to_set. apply NoDup_ListNoDup. exact ND.
    - apply set_eq. intros i. rewrite elem_of_list_to_set, elem_of_dom, elem_of_list_In. split.
      + intros Hi. destruct (H1 i Hi) as (sk & -> & _). eauto.
      + intros [sk E]. destruct (in_dec Z.eq_dec i set) as [Hi|Hi]; auto. rewrite H2 in E by auto. discriminate.
  Qed.

  (** The Public of dealt shares, in any iteration order: the group key is [secret]B, the shares are [f(i)]B. *)
  Theorem C30_public : forall sched shares, List.NoDup set -> deal_ok shares -> exists pub, GeneratePublic sched t shares = Ret pub /\
    pub_Threshold pub = t /\ geq (pub_GroupKey pub) (gbmul (spoly f f0)) /\ (forall i, In i (pub_PartyIDs pub) <-> In i set) /\ StronglySorted Z.lt (pub_PartyIDs pub) /\
    (forall i, In i set -> exists A, pub_Shares pub !! i = Some A /\ geq A (gbmul (spoly f (qof i)))) /\ (forall i, ~ In i set -> pub_Shares pub !! i = None).
  Proof.
    intros sched shares ND HD. pose proof (deal_size shares HD ND) as Hsz. destruct HD as [H1 H2].
    set (m := (fun sk => gbmul (sh_Secret sk)) <$> shares : gmap Z G).
    assert (forall i, In i set -> exists A, m !! i = Some A /\ geq A (gbmul (spoly f (qof i)))) as M1.
    { intros i Hi. destruct (H1 i Hi) as (sk & E & _ & Es & _). exists (gbmul (sh_Secret sk)). unfold m. rewrite lookup_fmap. setoid_rewrite E. split; [reflexivity|]. rewrite Es. reflexivity. }
    assert (forall i, ~ In i set -> m !! i = None) as M2. { intros i Hi. unfold m. rewrite lookup_fmap. setoid_rewrite (H2 i Hi). reflexivity. }
    assert (forall i A, m !! i = Some A -> In i set) as M3.
    { intros i A E. destruct (in_dec Z.eq_dec i set) as [Hi|Hi]; auto. rewrite M2 in E by auto. discriminate. }
    assert (usable m) as U. { intros i A E. rewrite List.Forall_forall in Hset. apply Hset. eauto. }
    assert (size m = List.length set) as Hm. { unfold m. rewrite map_size_fmap. exact Hsz. }
    assert (0 <= t < 65535) as Ht' by lia.
    destruct (C29_NewPublic sched m t U Ht') as [X _]. destruct X as (pub & E & P1 & P2 & [P3 P4] & P5); [lia|].
    exists pub. unfold GeneratePublic. fold m. rewrite E. split; auto. split; auto. split.
    { eapply (C29_group_key sched m t); eauto.
      - unfold degree_le, dealt. rewrite map_length, seq_length. lia.
      - intros j P Ej. destruct (M1 j (M3 _ _ Ej)) as (A & EA & HA). rewrite Ej in EA. inversion EA; subst. exact HA. }
    split. { intros i. rewrite P4. split; [intros [A EA]; eauto|]. intros Hi. destruct (M1 i Hi) as (A & EA & _). eauto. }
    split; auto. rewrite P2. auto.
  Qed.
End Dealer.

Section DealerBad.
  Context `{L : group_laws}.
  (** Outside: thresholds that are too large and ID 0 stop the program. *)
  Theorem C30_threshold : forall r set t, N_ids set <= t -> is_panic (GenerateSecrets r set t) = true.
  Proof. intros r set t H. unfold GenerateSecrets. now rewrite (proj2 (Z.leb_le _ _)) by lia. Qed.
  Theorem C30_zero_id : forall r set t, Forall is_u16 set -> In 0 set -> is_panic (GenerateSecrets r set t) = true.
  Proof.
    intros r set t HU H0. unfold GenerateSecrets. destruct (_ <=? _); [reflexivity|]. cbv zeta. destruct (NewPolynomial _ _ _ _) as [p| |] eqn:E; [|unfold NewPolynomial in E; destruct (_ =? 0); discriminate|reflexivity].
    cbn [obind].
    assert (forall l acc, Forall is_u16 l -> In 0 l -> is_panic (ofold (fun (acc : gmap Z SecretShare) id => let* x := id_scalar id in let* y := poly_eval p x in Ret (<[id := NewSecretShare id y]> acc)) acc l) = true) as X.
    { induction l as [|j l IH]; intros acc HF Hin; [contradiction|]. inversion HF as [|? ? Hj HF']; subst. cbn [ofold]. rewrite id_scalar_ok by auto. cbn [obind].
      destruct (Z.eq_dec j 0) as [->|Hne].
      - change (idF 0) with (f0 : Fq). rewrite poly_eval_0. reflexivity.
      - destruct Hin as [->|Hin]; [congruence|]. rewrite poly_eval_ok by (intros E'; apply idF_0 in E'; auto). cbn [obind]. now apply IH. }
    specialize (X set ∅ HU H0). now destruct (ofold _ _ set).
  Qed.
  (** A list with repeated IDs passes the check of GenerateSecrets although there are not enough shares; GeneratePublic then stops the program. *)
  Theorem C30_duplicates_refuted : forall r sched i, 1 <= i < 65536 -> exists secret shares,
    GenerateSecrets r [i; i] 1 = Ret (secret, shares) /\ size shares = 1%nat /\ is_panic (GeneratePublic sched 1 shares) = true.
  Proof.
    intros r sched i Hi. assert (Forall (fun i => 1 <= i < 65536) [i; i]) as HF by (repeat constructor; lia).
    destruct (C30_secrets r [i; i] 1 HF ltac:(cbn; lia) ltac:(cbn; lia)) as (shares & E & [H1 H2]). do 2 eexists. split; [exact E|].
    destruct (H1 i (or_introl eq_refl)) as (sk & Esk & _).
    assert (shares = {[ i := sk ]}) as ->.
    { apply map_eq. intros j. destruct (Z.eq_dec j i) as [->|Hne].
      - rewrite lookup_singleton. exact Esk.
      - rewrite lookup_singleton_ne by congruence. apply H2. intros [X|[X|[]]]; congruence. }
    split; [apply map_size_singleton|]. unfold GeneratePublic.
    destruct (C29_NewPublic sched ((fun sk => gbmul (sh_Secret sk)) <$> {[ i := sk ]}) 1) as [_ X].
    - intros j P Ej. rewrite map_fmap_singleton in Ej. apply lookup_singleton_Some in Ej as [<- _]. exact Hi.
    - lia.
    - destruct X as [e Ee]. { rewrite map_fmap_singleton, map_size_singleton. lia. } now rewrite Ee.
  Qed.
End DealerBad.

(** * Signing with dealt keys *)
Section DealSign.
  Context `{L : group_laws} `{Hf : hash_fn} (HH : hash_ok Hf).
  Context (r : rng) (set : list Z) (t : Z) (V : valid_ids set) (Ht : 0 <= t < Z.of_nat (List.length set)).
  Context (sched : list Z) (secret : Fq) (shares : gmap Z SecretShare) (pub : Public).
  Context (DEAL : GenerateSecrets r set t = Ret (secret, shares)) (PUBL : GeneratePublic sched t shares = Ret pub).
  (** At least t+1 of the parties sign, each with its own share. *)
  Context (signers : list Z) (Vs : valid_ids signers) (Hincl : incl signers set) (Hnum : t + 1 <= Z.of_nat (List.length signers)).
  Context (sk : Z -> SecretShare) (SK : forall i, In i signers -> shares !! i = Some (sk i)).
  Context (message : list byte) (rs : Z -> rng) (now timeout : Z -> Z) (s0 : Z -> State sround).
  Context (NEW : forall i, In i signers -> NewSignState (rs i) (now i) (timeout i) signers (sk i) pub message = Ret (s0 i)).
  Context (NZ : forall i, In i signers -> SetScalarRandom (rs i) 0 <> f0 /\ SetScalarRandom (rs i) 1 <> f0).

  (** Nobody aborts but for a timeout, and the signature is valid for the key [secret]B. *)
  Theorem C30_then_sign : forall c i, net_reach sign_round signers (mkConfig s0 []) c -> In i signers -> st_done (cf_state c i) = true ->
    match st_err (cf_state c i) with
    | Some err => pe_PartyID err = 0 /\ pe_text err = "message timeout"%string
    | None => exists sig, sg_output (cf_state c i) = Some sig /\ Verify (gbmul secret) message sig = true /\ Verify (pub_GroupKey pub) message sig = true
    end.
  Proof.
    intros c i HR Hi D. pose proof (valid_len _ V) as Hl. destruct (C30_secrets r set t (proj2 V) ltac:(lia) Ht) as (sh & E & HD).
    rewrite DEAL in E. apply Ret_inj in E. inversion E; subst sh. rename secret into sc. subst sc. clear E.
    destruct (C30_public r set t (proj2 V) ltac:(lia) Ht sched shares (proj1 V) HD) as (p & E & P1 & P2 & P3 & P4 & P5 & P6).
    rewrite PUBL in E. apply Ret_inj in E. subst p. destruct HD as [H1 H2].
    pose proof (C02_honest HH (Z.to_nat t) (dealt r (Z.to_nat t)) signers) as X.
    specialize (X ltac:(unfold degree_le, dealt; rewrite map_length, seq_length; lia) Vs ltac:(lia) message rs (fun _ => pub) sk now timeout s0).
    specialize (X ltac:(intros j Hj; destruct (H1 j (Hincl j Hj)) as (k & Ek & A & B & _); rewrite (SK j Hj) in Ek; inversion Ek; subst k; auto)).
    specialize (X ltac:(intros j k Hj Hk; apply P5; auto) ltac:(intros j Hj; exact P2) NEW NZ c i HR Hi D).
    destruct (st_err (cf_state c i)); auto. destruct X as (sig & S1 & _ & _ & S2). exists sig. split; auto. split; auto.
    apply Verify_iff; auto. apply Verify_iff in S2; auto. eapply schnorr_valid_proper; [|reflexivity|exact S2]. exact P2.
  Qed.
End DealSign.

(** A case: five parties, threshold 2, the secret is the first read of the toy randomness. *)
Example C30_example :
  NewPartySlice 10 5 = Some [1; 2; 3; 4; 5] /\ upto 5 = [1; 2; 3; 4; 5] /\ valid_ids (upto 5) /\
  match @GenerateSecrets toy_group (toy_rng 4) [5; 1; 3; 2; 4] 2 with
  | Ret (secret, shares) => feqb secret (SetScalarRandom (toy_rng 4) 0) && negb (feqb secret f0) && Nat.eqb (size shares) 5 &&
      match @GeneratePublic toy_group [3] 2 shares with
      | Ret pub => geqb (group_ops := toy_group) (pub_GroupKey pub) (@gbmul toy_group secret) && ids_equal (pub_PartyIDs pub) [1; 2; 3; 4; 5]
      | _ => false end
  | _ => false end = true.
Proof.
  split; [reflexivity|]. split; [reflexivity|]. split. { split; repeat constructor; cbn; lia. } vm_compute. reflexivity.
Qed.

Print Assumptions C30_slice.
Print Assumptions C30_slice_max_refuted.
Print Assumptions C30_secrets.
Print Assumptions C30_public.
Print Assumptions C30_then_sign.
