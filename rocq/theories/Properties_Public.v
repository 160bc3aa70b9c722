(** C29: Public and SecretShare, their consistency and their JSON form. *)
From Coq Require Import ZArith Lia List Bool String Permutation Sorted Ring Setoid Morphisms.
From Coq.Strings Require Import Byte.
From stdpp Require Import base gmap list fin_maps.
From Verif Require Import ZField Primes Bytes Scalar Go Group ToyGroup Party Poly PolyFacts Eddsa Messages State StateFacts Keygen Spec_Poly PolyAlg Spec_Group Spec_Public
  Properties_Algebra Properties_Keygen.
Import ListNotations.
Local Open Scope Z_scope.

Lemma valid_len ids : valid_ids ids -> Z.of_nat (List.length ids) < 65536.
Proof.
  intros [ND V]. assert (List.length ids <= List.length (map Z.of_nat (seq 1 (Z.to_nat 65535))))%nat as Hl.
  { apply List.NoDup_incl_length; [exact ND|]. intros i Hi. apply in_map_iff. exists (Z.to_nat i).
    rewrite List.Forall_forall in V. specialize (V i Hi). cbv beta in V. split; [lia|]. apply in_seq. lia. }
  rewrite map_length, seq_length in Hl. lia.
Qed.

Lemma sorted_lt_le l : StronglySorted Z.lt l -> StronglySorted Z.le l.
Proof. induction 1; constructor; auto. eapply List.Forall_impl; [|eassumption]. cbn. lia. Qed.
Lemma sorted_lt_NoDup l : StronglySorted Z.lt l -> List.NoDup l.
Proof.
  induction 1 as [|x l Hs IH Hf]; constructor; auto. intros Hx. rewrite List.Forall_forall in Hf. specialize (Hf x Hx). lia.
Qed.
Lemma sorted_le_lt l : List.NoDup l -> StronglySorted Z.le l -> StronglySorted Z.lt l.
Proof.
  intros ND. induction 1 as [|x l Hs IH Hf]; [constructor|]. inversion ND; subst. constructor; [auto|].
  rewrite List.Forall_forall in *. intros y Hy. specialize (Hf y Hy). assert (x <> y) by congruence. lia.
Qed.

Section Public.
  Context `{L : group_laws}.

  Lemma key_list_of sched (m : gmap Z G) : key_list (NewIDSlice (map_keys sched m)) m.
  Proof.
    split.
    - apply sorted_le_lt; [|apply NewIDSlice_sorted]. eapply Permutation_NoDup; [apply NewIDSlice_perm|apply map_keys_NoDup].
    - intros j. rewrite <- (map_keys_In sched). split; intros H.
      + eapply Permutation_in; [symmetry; apply NewIDSlice_perm|exact H].
      + eapply Permutation_in; [apply NewIDSlice_perm|exact H].
  Qed.
  Lemma key_list_unique ids (m : gmap Z G) sched : key_list ids m -> NewIDSlice (map_keys sched m) = ids.
  Proof.
    intros [Hs Hi]. symmetry. apply C26_NewIDSlice_unique; [|now apply sorted_lt_le].
    apply Permutation.NoDup_Permutation; [apply map_keys_NoDup|now apply sorted_lt_NoDup|].
    intros j. rewrite map_keys_In, Hi. reflexivity.
  Qed.
  Lemma key_list_valid ids (m : gmap Z G) : key_list ids m -> usable m -> valid_ids ids.
  Proof.
    intros [Hs Hi] U. split; [now apply sorted_lt_NoDup|]. apply List.Forall_forall. intros j Hj. apply Hi in Hj as [P E]. eauto.
  Qed.
  Lemma key_list_size ids (m : gmap Z G) : key_list ids m -> List.length ids = size m.
  Proof.
    intros K. rewrite <- (map_keys_length [] m), <- (key_list_unique ids m [] K). symmetry. apply Permutation_length, NewIDSlice_perm.
  Qed.

  Lemma computeGroupKey_fold ids (m : gmap Z G) : valid_ids ids -> forall l acc, (forall j, In j l -> In j ids) -> (forall j, In j l -> exists P, m !! j = Some P) ->
    exists K, ofold (fun groupKey id =>
      match Lagrange id ids with
      | Ret lagrange => match m !! id with Some P => Ret (gadd groupKey (gsmul lagrange P)) | None => Panics "nil element" end
      | _ => Panics "nil scalar" end) acc l = Ret K /\
      geq K (gadd acc (Gsum (map (fun j => gsmul (lagrange_spec j ids) (default gid (m !! j))) l))).
  Proof.
    intros V. induction l as [|j l IH]; intros acc H1 H2; cbn [ofold map Gsum fold_right].
    - exists acc. split; auto. now rewrite gadd_id_r.
    - rewrite C25_lagrange_value; [|now apply valid_u16| |auto with datatypes].
      2:{ pose proof (valid_in ids j V ltac:(auto with datatypes)). lia. }
      destruct (H2 j ltac:(auto with datatypes)) as [P E]. setoid_rewrite E. cbn [obind default].
      destruct (IH (gadd acc (gsmul (lagrange_spec j ids) P))) as (K & E1 & E2); [auto with datatypes..|].
      exists K. split; [exact E1|]. rewrite E2. fold (Gsum (map (fun j => gsmul (lagrange_spec j ids) (default gid (m !! j))) l)).
      now rewrite gadd_assoc.
  Qed.
  Lemma computeGroupKey_ok ids (m : gmap Z G) : valid_ids ids -> (forall j, In j ids -> exists P, m !! j = Some P) ->
    exists K, computeGroupKey ids m = Ret K /\ geq K (interpolated ids m).
  Proof.
    intros V H. destruct (computeGroupKey_fold ids m V ids gid) as (K & E1 & E2); auto. exists K. split; [exact E1|].
    rewrite E2. apply gadd_id_l.
  Qed.

  (** * NewPublic *)
  (** It succeeds exactly for thresholds below the number of shares (except for 65535, see below), whatever the order in which the map is iterated. *)
  Theorem C29_NewPublic : forall sched (shares : gmap Z G) t, usable shares -> 0 <= t < 65535 ->
    (t < Z.of_nat (size shares) ->
       exists p, NewPublic sched shares t = Ret p /\ pub_Threshold p = t /\ pub_Shares p = shares /\
         key_list (pub_PartyIDs p) shares /\ geq (pub_GroupKey p) (interpolated (pub_PartyIDs p) shares)) /\
    (Z.of_nat (size shares) <= t -> exists e, NewPublic sched shares t = Fail e).
  Proof.
    intros sched m t U Ht. pose proof (key_list_of sched m) as K. pose proof (key_list_valid _ _ K U) as V.
    destruct (computeGroupKey_ok _ m V) as (gk & E1 & E2); [apply K|]. pose proof (valid_len _ V) as Hn. pose proof (key_list_size _ _ K) as Hsz.
    unfold NewPublic. cbv zeta. rewrite E1. cbn [obind pub_PartyIDs pub_Threshold]. unfold N_ids, u16.
    rewrite (Z.mod_small (Z.of_nat _)) by lia. rewrite (Z.mod_small (t + 1)) by lia. rewrite Hsz. split; intros H.
    - rewrite (proj2 (Z.ltb_ge _ _)) by lia. eexists. split; [reflexivity|]. cbn. repeat split; auto; apply K.
    - rewrite (proj2 (Z.ltb_lt _ _)) by lia. eauto.
  Qed.

  (** The key of shares of a polynomial of degree below the number of shares is the commitment to its value at 0. *)
  Lemma interpolated_poly ids (m : gmap Z G) f : valid_ids ids -> (List.length f <= List.length ids)%nat ->
    (forall j, In j ids -> exists P, m !! j = Some P /\ geq P (gbmul (spoly f (qof j)))) -> geq (interpolated ids m) (gbmul (spoly f f0)).
  Proof.
    intros V Hl H. unfold interpolated. transitivity (Gsum (map (fun j => gbmul (fmul (lam ids j) (peval f (idF j)))) ids)).
    2:{ rewrite Gsum_gbmul, (lam_interp ids f V Hl), peval_spoly. reflexivity. }
    apply Gsum_map_ext. intros j Hj.
    destruct (H j Hj) as (P & E & HP). setoid_rewrite E. cbn [default]. rewrite HP, <- peval_spoly.
    assert (lagrange_spec j ids = lam ids j) as ->.
    { apply Ret_inj. rewrite <- C25_lagrange_value, <- Lagrange_ok; auto; [now apply valid_u16|..]; pose proof (valid_in ids j V Hj); try lia. now apply valid_u16. }
    unfold gbmul. symmetry. apply gsmul_mul.
  Qed.
  Theorem C29_group_key : forall sched (shares : gmap Z G) t f p, usable shares -> 0 <= t < 65535 -> NewPublic sched shares t = Ret p ->
    degree_le (Z.to_nat t) f ->
    (forall j P, shares !! j = Some P -> geq P (gbmul (spoly f (qof j)))) ->
    geq (pub_GroupKey p) (gbmul (spoly f f0)).
  Proof.
    intros sched m t f p U Ht E D H. destruct (C29_NewPublic sched m t U Ht) as [H1 H2].
    destruct (Z.lt_ge_cases t (Z.of_nat (size m))) as [Hlt|Hge].
    - destruct (H1 Hlt) as (p' & E' & _ & _ & K & HK). rewrite E in E'. apply Ret_inj in E' as <-. rewrite HK. apply interpolated_poly.
      + eapply key_list_valid; eauto.
      + unfold degree_le in D. rewrite (key_list_size _ _ K). lia.
      + intros j Hj. apply K in Hj as [P EP]. eauto.
    - destruct (H2 Hge) as [e E']. congruence.
  Qed.

  (** Threshold 65535: [Threshold+1] wraps to 0, so the check accepts it for every share map, also the empty one. *)
  Theorem C29_threshold_65535_refuted : forall sched (shares : gmap Z G), usable shares ->
    exists p, NewPublic sched shares 65535 = Ret p /\ Z.of_nat (size (pub_Shares p)) <= pub_Threshold p.
  Proof.
    intros sched m U. pose proof (key_list_of sched m) as K. pose proof (key_list_valid _ _ K U) as V.
    destruct (computeGroupKey_ok _ m V) as (gk & E1 & E2); [apply K|]. pose proof (valid_len _ V) as Hn. pose proof (key_list_size _ _ K) as Hsz.
    unfold NewPublic. cbv zeta. rewrite E1. cbn [obind pub_PartyIDs pub_Threshold]. change (u16 (65535 + 1)) with 0.
    rewrite (proj2 (Z.ltb_ge _ _)). 2:{ unfold N_ids, u16. apply Z.mod_pos_bound. lia. }
    eexists. split; [reflexivity|]. cbn. lia.
  Qed.

  (** ID 0 in the share map: Lagrange's error is dropped and its nil scalar is dereferenced. *)
  Lemma ofold_panic {A S} (f : S -> A -> outcome S) x l : In x l -> (forall s, is_panic (f s x) = true) -> (forall s y e, f s y <> Fail e) ->
    forall s, is_panic (ofold f s l) = true.
  Proof.
    intros Hx Hp Hf. induction l as [|y l IH]; [contradiction|]. intros s. cbn [ofold]. destruct Hx as [->|Hx].
    - specialize (Hp s). destruct (f s x); try discriminate. reflexivity.
    - specialize (Hf s y). destruct (f s y); cbn [obind]; auto. now destruct (Hf e).
  Qed.
  Lemma computeGroupKey_zero ids (m : gmap Z G) : In 0 ids -> is_panic (computeGroupKey ids m) = true.
  Proof.
    intros H. apply (ofold_panic _ 0); auto.
    intros s y e. cbv beta. destruct (Lagrange y ids); try discriminate. destruct (m !! y); discriminate.
  Qed.
  Theorem C29_zero_id_refuted : forall sched (shares : gmap Z G) t P, shares !! 0 = Some P -> is_panic (NewPublic sched shares t) = true.
  Proof.
    intros sched m t P E. unfold NewPublic. cbv zeta. pose proof (key_list_of sched m) as K.
    assert (In 0 (NewIDSlice (map_keys sched m))) as H0 by (apply K; eauto).
    pose proof (computeGroupKey_zero _ m H0) as HP. now destruct (computeGroupKey _ m).
  Qed.

  (** * Equal *)
  Lemma pub_Equal_loop (s s2 : Public) : forall ids, (forall j, In j ids -> exists P P2, pub_Shares s !! j = Some P /\ pub_Shares s2 !! j = Some P2) ->
    exists b, (fix loop ids := match ids with
       | [] => Ret true
       | id :: ids' =>
         match pub_Shares s !! id, pub_Shares s2 !! id with
         | Some p1, Some p2 => if geqb p1 p2 then loop ids' else Ret false
         | _, _ => Panics "nil element"
         end
       end) ids = Ret b /\ (b = true <-> forall j P P2, In j ids -> pub_Shares s !! j = Some P -> pub_Shares s2 !! j = Some P2 -> geq P P2).
  Proof.
    induction ids as [|j ids IH]; intros H.
    - exists true. split; auto. split; auto. intros _ j P P2 [].
    - destruct (H j ltac:(auto with datatypes)) as (P & P2 & E1 & E2). setoid_rewrite E1. setoid_rewrite E2. destruct (geqb P P2) eqn:Eg.
      + destruct IH as (b & -> & Hb); [auto with datatypes|]. exists b. split; auto. rewrite Hb. split; intros X.
        * intros k Q Q2 [<-|Hk] F1 F2; [congruence|eauto].
        * intros k Q Q2 Hk F1 F2. apply (X k); auto with datatypes.
      + exists false. split; auto. split; [discriminate|]. intros X. specialize (X j P P2 ltac:(auto with datatypes) E1 E2). unfold geq in X. congruence.
  Qed.
  (** On well-formed values (PartyIDs are the keys of Shares) Equal decides equality of all four fields, and does not panic. *)
  Definition well_formed (p : Public) : Prop := key_list (pub_PartyIDs p) (pub_Shares p).
  Theorem C29_Equal : forall p p2, well_formed p -> well_formed p2 ->
    exists b, pub_Equal p p2 = Ret b /\
    (b = true <-> pub_PartyIDs p = pub_PartyIDs p2 /\ pub_Threshold p = pub_Threshold p2 /\ geq (pub_GroupKey p) (pub_GroupKey p2) /\
       forall j P P2, pub_Shares p !! j = Some P -> pub_Shares p2 !! j = Some P2 -> geq P P2).
  Proof.
    intros p p2 W W2. unfold pub_Equal.
    destruct (Nat.eqb_spec (size (pub_Shares p)) (size (pub_Shares p2))) as [Es|Es]; cbn [negb].
    2:{ exists false. split; auto. split; [discriminate|]. intros (E & _). destruct Es. rewrite <- (key_list_size _ _ W), <- (key_list_size _ _ W2). congruence. }
    destruct (ids_equal _ _) eqn:Ei; cbn [negb].
    2:{ exists false. split; auto. split; [discriminate|]. intros (E & _). apply C26_Equal in E. congruence. }
    apply C26_Equal in Ei.
    destruct (Z.eqb_spec (pub_Threshold p) (pub_Threshold p2)) as [Et|Et]; cbn [negb].
    2:{ exists false. split; auto. split; [discriminate|]. tauto. }
    destruct (geqb _ _) eqn:Eg; cbn [negb].
    2:{ exists false. split; auto. split; [discriminate|]. intros (_ & _ & E & _). unfold geq in E. congruence. }
    destruct (pub_Equal_loop p p2 (pub_PartyIDs p)) as (b & -> & Hb).
    { intros j Hj. destruct (proj1 (proj2 W j) Hj) as [P E]. rewrite Ei in Hj. destruct (proj1 (proj2 W2 j) Hj) as [P2 E2]. eauto. }
    exists b. split; auto. rewrite Hb. split.
    - intros X. repeat split; auto. intros j P P2 E1 E2. apply (X j); auto. apply W. eauto.
    - intros (_ & _ & _ & X) j P P2 _ E1 E2. eauto.
  Qed.

  (** * JSON *)
  Lemma all_shares (m : gmap Z G) : bool_decide (map_Forall (fun _ x => x <> None) (Some <$> m : gmap Z (option G))) = true.
  Proof. apply bool_decide_eq_true. intros j x E. rewrite lookup_fmap in E. destruct (m !! j); cbn in E; congruence. Qed.
  Lemma omap_shares (m : gmap Z G) : omap id (Some <$> m : gmap Z (option G)) = m.
  Proof. apply map_eq. intros j. rewrite lookup_omap, lookup_fmap. now destruct (m !! j). Qed.

  (** Decoding, for JSON with usable IDs, no null share and a group key: it succeeds exactly when the threshold
      (after truncation to 16 bits and a wrapping +1) fits and the key is the interpolated one; the value has the sorted keys. *)
  Theorem C29_json_decode : forall sched t gk (shares : gmap Z G), usable shares ->
    let out := mkSharesJSON t (Some gk) (Some <$> shares) in
    (forall p, pub_UnmarshalJSON sched out = Ret p ->
       pub_Threshold p = t mod 65536 /\ pub_Shares p = shares /\ key_list (pub_PartyIDs p) shares /\ geq (pub_GroupKey p) gk /\
       geq gk (interpolated (pub_PartyIDs p) shares)) /\
    ((exists p, pub_UnmarshalJSON sched out = Ret p) <->
       (t mod 65536 + 1) mod 65536 <= Z.of_nat (size shares) /\ forall ids, key_list ids shares -> geq gk (interpolated ids shares)) /\
    is_panic (pub_UnmarshalJSON sched out) = false.
  Proof.
    intros sched t gk m U out. unfold pub_UnmarshalJSON. cbn [js_shares js_t js_groupkey out]. rewrite all_shares. cbv zeta. rewrite omap_shares.
    pose proof (key_list_of sched m) as K. pose proof (key_list_valid _ _ K U) as V.
    destruct (computeGroupKey_ok _ m V) as (gk' & E1 & E2); [apply K|]. pose proof (valid_len _ V) as Hn. pose proof (key_list_size _ _ K) as Hsz.
    unfold NewPublic. cbv zeta. rewrite E1. cbn [obind pub_PartyIDs pub_Threshold]. unfold N_ids, u16 in *. rewrite (Z.mod_small (Z.of_nat _)) by lia. rewrite Hsz.
    destruct (Z.ltb_spec (Z.of_nat (size m)) ((t mod 65536 + 1) mod 65536)) as [Hlt|Hge]; cbn [obind pub_PartyIDs].
    - split; [intros p E; discriminate|]. split; [|reflexivity]. split; [intros [p E]; discriminate|intros [H _]; lia].
    - rewrite E1. cbn [obind]. destruct (geqb gk' gk) eqn:Eg.
      + change (geq gk' gk) in Eg. split; [|split; [|reflexivity]].
        * intros p E. apply Ret_inj in E. subst p. cbn [pub_Threshold pub_Shares pub_PartyIDs pub_GroupKey].
          split; [reflexivity|]. split; [reflexivity|]. split; [exact K|]. split; [exact Eg|]. rewrite <- Eg. exact E2.
        * split; [|eauto]. intros _. split; [exact Hge|]. intros ids K'. rewrite <- (key_list_unique ids m sched K'), <- Eg. exact E2.
      + split; [intros p E; discriminate|]. split; [|reflexivity]. split; [intros [p E]; discriminate|]. intros [_ X]. exfalso. specialize (X _ K). rewrite <- E2 in X.
        apply geq_sym_iff in X. unfold geq in X. congruence.
  Qed.

  (** A Public whose key list, threshold and group key are consistent survives: what NewPublic and keygen make. *)
  Theorem C29_json_round_trip : forall sched p, well_formed p -> usable (pub_Shares p) ->
    0 <= pub_Threshold p < Z.of_nat (size (pub_Shares p)) -> geq (pub_GroupKey p) (interpolated (pub_PartyIDs p) (pub_Shares p)) ->
    exists p', pub_UnmarshalJSON sched (pub_MarshalJSON p) = Ret p' /\ pub_Equal p p' = Ret true.
  Proof.
    intros sched p W U Ht HK. destruct (C29_json_decode sched (pub_Threshold p) (pub_GroupKey p) (pub_Shares p) U) as (H1 & H2 & _).
    pose proof (key_list_size _ _ W) as Hsz. pose proof (valid_len _ (key_list_valid _ _ W U)) as Hn.
    destruct (proj2 H2) as [p' E].
    { rewrite (Z.mod_small (pub_Threshold p)) by lia. split; [rewrite Z.mod_small by lia; lia|]. intros ids K.
      rewrite <- (key_list_unique ids _ [] K), (key_list_unique _ _ [] W). exact HK. }
    exists p'. split; [exact E|]. destruct (H1 p' E) as (Ht' & Hs' & K' & Hg & _).
    destruct (C29_Equal p p' W) as (b & Eb & Hb). { red. now rewrite Hs'. }
    rewrite Eb. f_equal. apply Hb. repeat split.
    - rewrite <- (key_list_unique _ _ [] W), <- (key_list_unique _ _ [] K'). reflexivity.
    - rewrite Ht', Z.mod_small by lia. reflexivity.
    - now symmetry.
    - intros j P P2 F1 F2. rewrite Hs' in F2. assert (P = P2) as -> by congruence. reflexivity.
  Qed.
  Corollary C29_json_round_trip_new : forall sched sched' shares t p, usable shares -> 0 <= t < 65535 -> NewPublic sched shares t = Ret p ->
    exists p', pub_UnmarshalJSON sched' (pub_MarshalJSON p) = Ret p' /\ pub_Equal p p' = Ret true.
  Proof.
    intros sched sched' m t p U Ht E. destruct (C29_NewPublic sched m t U Ht) as [H1 H2].
    destruct (Z.lt_ge_cases t (Z.of_nat (size m))) as [Hlt|Hge]; [|destruct (H2 Hge); congruence].
    destruct (H1 Hlt) as (p' & E' & ET & ES & K & HK). rewrite E in E'. apply Ret_inj in E' as <-. apply C29_json_round_trip; rewrite ?ES, ?ET; auto.
    - red. now rewrite ES.
    - lia.
  Qed.

  (** The Public that a keygen run outputs survives, whatever the peers sent. *)
  Theorem C29_json_round_trip_keygen : forall `{Hf : hash_fn} rg now t self ids thr s0 es s out sched, NewKeygenState rg now t self ids thr = Ret s0 ->
    sorted ids -> valid_ids ids -> is_u16 thr -> run keygen_round s0 es = Ret (s, out) -> st_done s = true -> st_err s = None ->
    exists p p', ko_Public (kg_output s) = Some p /\ pub_UnmarshalJSON sched (pub_MarshalJSON p) = Ret p' /\ pub_Equal p p' = Ret true.
  Proof.
    intros Hf rg now t self ids thr s0 es s out sched E S V HT ER D Er.
    destruct (proj1 (C35_accepts_iff rg now t self ids thr S V HT)) as [Hin Hthr]; [eauto|].
    destruct (C06_public rg now t self ids thr s0 E V HT es s out ER D Er) as (p & sk & g & Eo & _ & _ & P1 & P2 & Hg & HK & HS & HN).
    assert (key_list ids (pub_Shares p)) as K.
    { split; [apply sorted_le_lt; [apply V|exact S]|]. intros j. split.
      - intros Hj. destruct (HS j Hj) as (A & EA & _). eauto.
      - intros [P EP]. destruct (in_dec Z.eq_dec j ids) as [|Hj]; auto. rewrite (HN j Hj) in EP. discriminate. }
    destruct (C29_json_round_trip sched p) as (p' & E1 & E2).
    - red. now rewrite P1.
    - intros j P EP. apply (valid_in ids); auto. apply K. eauto.
    - rewrite P2, <- (key_list_size _ _ K). lia.
    - rewrite P1, HK. symmetry. apply interpolated_poly; auto. lia.
    - exists p, p'. rewrite Eo. auto.
  Qed.

  (** A group key that is not the interpolated one is rejected with an error. *)
  Corollary C29_json_wrong_key : forall sched t gk (shares : gmap Z G) ids, usable shares -> key_list ids shares -> ~ geq gk (interpolated ids shares) ->
    exists e, pub_UnmarshalJSON sched (mkSharesJSON t (Some gk) (Some <$> shares)) = Fail e.
  Proof.
    intros sched t gk m ids U K H. destruct (C29_json_decode sched t gk m U) as (_ & H2 & H3). cbv zeta in *.
    destruct (pub_UnmarshalJSON _ _); [|eauto|discriminate]. exfalso. apply H. apply (proj1 H2); eauto.
  Qed.

  (** The threshold of the JSON text is a Go int: out-of-range values are truncated instead of rejected. *)
  Theorem C29_json_threshold_refuted : forall sched p k, well_formed p -> usable (pub_Shares p) ->
    0 <= pub_Threshold p < Z.of_nat (size (pub_Shares p)) -> geq (pub_GroupKey p) (interpolated (pub_PartyIDs p) (pub_Shares p)) ->
    exists p', pub_UnmarshalJSON sched (mkSharesJSON (pub_Threshold p + 65536 * k) (Some (pub_GroupKey p)) (Some <$> pub_Shares p)) = Ret p' /\ pub_Equal p p' = Ret true.
  Proof.
    intros sched p k W U Ht HK. destruct (C29_json_round_trip sched p W U Ht HK) as (p' & E & E2). exists p'. split; [|exact E2].
    rewrite <- E. unfold pub_UnmarshalJSON, pub_MarshalJSON. cbn [js_t js_shares js_groupkey]. unfold u16.
    replace ((pub_Threshold p + 65536 * k) mod 65536) with (pub_Threshold p mod 65536); [reflexivity|].
    rewrite Z.mul_comm, Z.mod_add; lia.
  Qed.
  (** A JSON text without "groupkey", or with a null share, crashes the decoder. *)
  Theorem C29_json_missing_key_refuted : forall sched (shares : gmap Z G) t, usable shares -> 0 <= t < Z.of_nat (size shares) ->
    is_panic (pub_UnmarshalJSON sched (mkSharesJSON t None (Some <$> shares))) = true.
  Proof.
    intros sched m t U Ht. pose proof (key_list_of sched m) as K. pose proof (key_list_valid _ _ K U) as V.
    pose proof (valid_len _ V) as Hn. pose proof (key_list_size _ _ K) as Hsz.
    unfold pub_UnmarshalJSON. cbn [js_shares js_t js_groupkey]. rewrite all_shares. cbv zeta. rewrite omap_shares.
    unfold u16. rewrite Z.mod_small by lia. destruct (C29_NewPublic sched m t U ltac:(lia)) as [(p & E & _ & _ & K' & _) _]; [lia|]. rewrite E. cbn [obind].
    destruct (computeGroupKey_ok _ m (key_list_valid _ _ K' U)) as (gk & -> & _); [apply K'|]. reflexivity.
  Qed.
  Theorem C29_json_null_share_refuted : forall sched out j, js_shares out !! j = Some None -> is_panic (pub_UnmarshalJSON sched out) = true.
  Proof.
    intros sched out j E. unfold pub_UnmarshalJSON. rewrite bool_decide_eq_false_2; [reflexivity|]. intros X. now apply (X j None).
  Qed.

  (** * SecretShare JSON *)
  Theorem C29_share_json_round_trip : forall id s, is_u16 id -> share_UnmarshalJSON (share_MarshalJSON (NewSecretShare id s)) = Ret (NewSecretShare id s).
  Proof.
    intros id s H. unfold share_UnmarshalJSON, share_MarshalJSON, NewSecretShare. cbn [fst snd sh_ID sh_Secret]. rewrite scalar_canonical_bytes. unfold u16.
    rewrite Z.mod_small by exact H. reflexivity.
  Qed.
  Theorem C29_share_json_decode : forall id b sk, share_UnmarshalJSON (id, b) = Ret sk ->
    sh_ID sk = id mod 65536 /\ scalar_bytes (sh_Secret sk) = b /\ sh_Public sk = gbmul (sh_Secret sk).
  Proof.
    intros id b sk. unfold share_UnmarshalJSON. cbn [fst snd]. destruct (scalar_set_canonical b) as [s|] eqn:E; [|discriminate].
    intros H. apply Ret_inj in H as <-. cbn. repeat split. now apply scalar_bytes_canonical.
  Qed.
  (** Any integer is accepted as ID, truncated to 16 bits: two different texts give the same share. *)
  Theorem C29_share_json_id_refuted : forall id k b, share_UnmarshalJSON (id + 65536 * k, b) = share_UnmarshalJSON (id, b).
  Proof.
    intros id k b. unfold share_UnmarshalJSON, u16. cbn [fst snd]. now rewrite Z.mul_comm, Z.mod_add by lia.
  Qed.
End Public.

(** A toy case: three shares of 7 + 5x over the exponent group, threshold 1. *)
Definition toy_shares : gmap Z (@G toy_group) := {[ 1 := qof 12; 2 := qof 17; 9 := qof 52 ]}.
Example C29_example : @usable toy_group toy_shares /\
  match @NewPublic toy_group [9; 1; 2] toy_shares 1 with
  | Ret p => feqb (pub_GroupKey p) (qof 7) && ids_equal (pub_PartyIDs p) [1; 2; 9] &&
      match @pub_UnmarshalJSON toy_group [2; 9; 1] (pub_MarshalJSON p) with
      | Ret p' => match @pub_Equal toy_group p p' with Ret b => b | _ => false end
      | _ => false end
  | _ => false end = true /\
  match @pub_UnmarshalJSON toy_group [] (mkSharesJSON (Gr := toy_group) 1 (Some (qof 8)) (Some <$> toy_shares)) with Fail _ => true | _ => false end = true /\
  match @NewPublic toy_group [] toy_shares 3 with Fail _ => true | _ => false end = true /\
  match @share_UnmarshalJSON toy_group (65537, scalar_bytes (qof 12)) with Ret sk => (sh_ID sk =? 1) && feqb (sh_Secret sk) (qof 12) | _ => false end = true.
Proof.
  split.
  - intros j P E. unfold toy_shares in E. repeat (apply lookup_insert_Some in E as [[<- _]|[_ E]]; [lia|]). apply lookup_singleton_Some in E as [<- _]. lia.
  - repeat split; vm_compute; reflexivity.
Qed.

Print Assumptions C29_NewPublic.
Print Assumptions C29_group_key.
Print Assumptions C29_json_round_trip_keygen.
Print Assumptions C29_json_decode.
