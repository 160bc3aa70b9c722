(** C04: honest keygen over every network behaviour. *)
From Coq Require Import ZArith Lia List Bool String Permutation Sorted Ring Setoid Morphisms.
From Coq.Strings Require Import Byte.
From stdpp Require Import base gmap list fin_maps.
From Verif Require Import ZField Primes Bytes Scalar Go Group ToyGroup Party Poly PolyFacts Zk Eddsa Messages State StateFacts Spec_State
  Keygen Sign RoundFacts Lift Net Progress NetProgress Spec_Poly PolyAlg Spec_Group Spec_Wire Spec_Sign Spec_SignRun Spec_Keygen SignFacts SignRun KeygenFacts KeygenRun
  Properties_Algebra Properties_Codec Properties_Sign Properties_Keygen Properties_HonestSign ToyRuns.
Import ListNotations.
Local Open Scope Z_scope.

Local Opaque SetScalarRandom.

Lemma kg_process_text `{Gr : group_ops} `{Hf : hash_fn} r m r' c t : r_process keygen_round r m = RErr r' c t -> t <> "message timeout"%string.
Proof.
  cbn [keygen_round r_process]. destruct (kr_no r) as [|[|n]]; [discriminate| |].
  - unfold kg1_process. destruct m as [m|]; [|discriminate]. destruct (m_KeyGen1 m); [|discriminate]. cbv zeta.
    destruct (exp_constant _); cbn [lift_r]; try discriminate. destruct (zk_Verify _ _ _ _) as [[]| |]; cbn [lift_r negb]; try discriminate.
    + destruct (kr_CommitmentsSum r); discriminate.
    + intros E. inversion E; subst. discriminate.
  - unfold kg2_process. destruct m as [m|]; [|discriminate]. destruct (m_KeyGen2 m); [|discriminate]. cbv zeta.
    destruct (kr_Commitments r !! _); [|discriminate]. destruct (id_scalar _); cbn [lift_r]; try discriminate. destruct (exp_eval _ _); cbn [lift_r]; try discriminate.
    destruct (negb _); [|discriminate]. intros E. inversion E; subst. discriminate.
Qed.
Lemma kg_generate_text `{Gr : group_ops} `{Hf : hash_fn} sched r r' c t : r_generate keygen_round sched r = RErr r' c t -> False.
Proof.
  cbn [keygen_round r_generate]. destruct (kr_no r) as [|[|n]].
  - unfold kg0_generate. cbv zeta. repeat (match goal with |- context [lift_r ?x] => destruct x; cbn [lift_r]; try discriminate end).
  - unfold kg1_generate. destruct (kr_Polynomial r); [|discriminate]. repeat (match goal with |- context [lift_r ?x] => destruct x; cbn [lift_r]; try discriminate end).
  - unfold kg2_generate. destruct (kr_CommitmentsSum r); [|discriminate]. repeat (match goal with |- context [lift_r ?x] => destruct x; cbn [lift_r]; try discriminate end).
    destruct (kr_outp r); discriminate.
Qed.

Lemma others_perm self ids : List.NoDup ids -> In self ids -> Permutation ids (self :: others_of self ids).
Proof.
  intros ND Hi. apply Permutation.NoDup_Permutation; auto.
  - constructor; [|now apply others_of_NoDup]. intros H. apply others_of_In in H as [_ H]. congruence.
  - intros j. cbn. rewrite others_of_In. split.
    + intros Hj. destruct (Z.eq_dec self j); auto.
    + intros [<-|[H _]]; auto.
Qed.

Section HonestKeygen.
  Context `{L : group_laws} `{Hf : hash_fn}.
  Context (ids : list Z) (thr : Z) (V : valid_ids ids) (HT : is_u16 thr).
  Context (rg : Z -> rng) (now timeout : Z -> Z) (s0 : Z -> State kround).
  Context (NEW : forall i, In i ids -> NewKeygenState (rg i) (now i) (timeout i) i ids thr = Ret (s0 i)).

  (** The polynomials of the parties and the shared one. *)
  Notation f j := (dealt (rg j) (Z.to_nat thr)).
  Definition shared (x : Fq) : Fq := Fsum (map (fun j => spoly (f j) x) ids).

  (** The messages the honest parties send, and what may be delivered for them. *)
  Definition KU (m : Message) : Prop := exists i, In i ids /\ (m = own_KG1 (rg i) i thr \/ In m (own_KG2s (rg i) i ids thr)).
  Definition KW (m : Message) : Prop := exists m0, KU m0 /\ same_msg m0 m.
  Lemma KUW m m' : KU m -> same_msg m m' -> KW m'. Proof. intros H1 H2. exists m. auto. Qed.
  Lemma KUW0 m : KU m -> KW m. Proof. intros H. exists m. split; auto using same_refl. Qed.

  Lemma kw_kg1 m j pr C : KW m -> m_From m = j -> m_Type m = MTKeyGen1 -> m_KeyGen1 m = Some (mkKeyGen1 pr C) ->
    In j ids /\ pr = own_proof (rg j) j thr /\ Forall2 geq C (commitment (f j)).
  Proof.
    intros (m0 & (i & Hi & [->|Hm]) & HS) Hfr Ht Hb.
    - rewrite (same_from _ _ HS) in Hfr. cbn [own_KG1 NewKeyGen1 m_From m_Header h_From] in Hfr. subst i.
      destruct (same_k1 _ _ _ HS eq_refl eq_refl) as (b & E1 & E2 & E3). rewrite Hb in E1. inversion E1; subst b. cbn [own_KG1 NewKeyGen1 k1_Proof k1_Commitments] in E2, E3. split; auto. split; auto.
      unfold C0 in E3. rewrite p0_dealt in E3. exact E3.
    - apply in_map_iff in Hm as (k & <- & _). rewrite (same_type _ _ HS) in Ht. discriminate.
  Qed.
  Lemma kw_kg2 m i j z : KW m -> In i ids -> m_From m = j -> (m_To m = 0 \/ m_To m = i) -> m_Type m = MTKeyGen2 -> m_KeyGen2 m = Some (mkKeyGen2 z) ->
    In j ids /\ z = spoly (f j) (qof i).
  Proof.
    intros (m0 & (k & Hk & [->|Hm]) & HS) Hi Hfr Hto Ht Hb; [rewrite (same_type _ _ HS) in Ht; discriminate|].
    apply in_map_iff in Hm as (l & <- & Hl). apply others_of_In in Hl as [Hl _]. rewrite (same_from _ _ HS) in Hfr. rewrite (same_to _ _ HS) in Hto.
    rewrite (same_k2 _ _ _ HS eq_refl eq_refl) in Hb. cbn [NewKeyGen2 m_From m_Header h_From] in Hfr. subst k. split; auto.
    cbn [NewKeyGen2 m_To m_Header h_To] in Hto. pose proof (valid_in ids l V Hl). destruct Hto as [Hto|Hto]; [lia|]. subst l. assert (z = peval (p0 (rg j) thr) (idF i)) as -> by congruence. rewrite p0_dealt, peval_spoly. reflexivity.
  Qed.
  Lemma own_proof_ok i : zk_Verify (own_proof (rg i) i thr) i (gbmul (SetScalarRandom (rg i) 0)) ctx0 = Ret true.
  Proof. eapply C07_complete; [reflexivity|]. apply own_proof_eq. Qed.

  Lemma own_proof_ok' i A tl : Forall2 geq (A :: tl) (commitment (f i)) -> zk_Verify (own_proof (rg i) i thr) i A ctx0 = Ret true.
  Proof.
    intros H. unfold commitment, dealt in H. cbn [seq map] in H. inversion H; subst. rewrite <- (own_proof_ok i). now apply zk_Verify_proper.
  Qed.

  Lemma khonest_run i es s out : In i ids -> Forall (event_ok KW) es -> run keygen_round (s0 i) es = Ret (s, out) ->
    exists r0, kg_NewRound (rg i) i ids thr = Ret r0 /\ s0 i = NewBaseState keygen_round (now i) (timeout i) r0 /\
      linv keygen_round KW r0 (PK KW (rg i) i ids thr) (FK KW (rg i) i ids thr) s out.
  Proof.
    intros Hi HE E. destruct (NewKeygenState_round _ _ _ _ _ _ _ (NEW i Hi)) as (r0 & E1 & E2). exists r0. split; auto. split; auto. rewrite E2 in E.
    eapply keygen_run; eauto.
  Qed.
  Lemma khonest_out i es s out : In i ids -> Forall (event_ok KW) es -> run keygen_round (s0 i) es = Ret (s, out) -> Forall KU out.
  Proof.
    intros Hi HE E. destruct (khonest_run i es s out Hi HE E) as (r0 & E1 & _ & HL).
    assert (kout_ok (rg i) i ids thr out) as HO.
    { destruct (st_done s) eqn:D.
      - apply (li_F _ _ _ _ _ _ _ HL D).
      - destruct (li_P _ _ _ _ _ _ _ HL D) as (n & _ & _ & HP). eapply PK_out; eauto. }
    assert (KU (own_KG1 (rg i) i thr)) as H1. { exists i. auto. }
    destruct HO as [->|[->| ->]]; [constructor|constructor; [exact H1|constructor]|]. constructor; [exact H1|].
    apply List.Forall_forall. intros m Hm. exists i. auto.
  Qed.

  Lemma honest_total i Cs x : In i ids -> kview KW i ids Cs -> geq (total (rg i) i ids thr Cs x) (gbmul (shared x)).
  Proof.
    intros Hi HV. unfold total, shared.
    assert (forall j, In j (others_of i ids) -> Forall2 geq (Cs j) (commitment (f j))) as HC.
    { intros j Hj. destruct (HV j Hj) as (m & pr & A & tl & M1 & M2 & M3 & M4 & _). apply (kw_kg1 m j pr (Cs j) M1 M2 M3 M4). }
    transitivity (gadd (gbmul (spoly (f i) x)) (Gsum (map (fun j => gbmul (spoly (f j) x)) (others_of i ids)))).
    - apply gadd_proper.
      + unfold C0. rewrite gpeval_commit, p0_dealt, peval_spoly. reflexivity.
      + apply Gsum_map_ext. intros j Hj. assert (List.length (Cs j) = List.length (C0 (rg i) thr)) as El.
        { rewrite (Forall2_length _ _ _ (HC j Hj)). unfold C0, NewPolynomialExponent, commitment. rewrite p0_dealt. unfold dealt. now rewrite !map_length. }
        rewrite El, Nat.eqb_refl, (HC j Hj). change (commitment (f j)) with (NewPolynomialExponent (f j)). rewrite gpeval_commit, peval_spoly. reflexivity.
    - rewrite Gsum_gbmul. rewrite gb_add. apply gb_inj.
      rewrite (Fsum_perm (map (fun j => spoly (f j) x) ids) (map (fun j => spoly (f j) x) (i :: others_of i ids))); [reflexivity|].
      apply Permutation_map. apply others_perm; auto. apply V.
  Qed.

  (** * C04 *)
  (** Whatever the network does with the honest messages: nobody aborts except by timeout, and whoever finishes has the share
      F(i) of F = sum f_j, the group key [F(0)]B and the public shares [F(j)]B. *)
  Lemma khonest_final i es s out : In i ids -> Forall (event_ok KW) es -> run keygen_round (s0 i) es = Ret (s, out) -> st_done s = true ->
    match st_err s with
    | Some err => pe_PartyID err = 0 /\ pe_text err = "message timeout"%string
    | None => exists pub sk, kg_output s = mkKOutput (Some pub) (Some sk) /\
        sh_ID sk = i /\ sh_Secret sk = shared (qof i) /\ geq (sh_Public sk) (gbmul (shared (qof i))) /\
        pub_PartyIDs pub = ids /\ pub_Threshold pub = thr /\ geq (pub_GroupKey pub) (gbmul (shared f0)) /\
        (forall j, In j ids -> exists A, pub_Shares pub !! j = Some A /\ geq A (gbmul (shared (qof j)))) /\
        (forall j, ~ In j ids -> pub_Shares pub !! j = None)
    end.
  Proof.
    intros Hi HE E D.
    destruct (khonest_run i es _ _ Hi HE E) as (r0 & E1 & _ & HL). pose proof (li_F _ _ _ _ _ _ _ HL D) as [_ HF].
    destruct (st_err s) as [err|].
    - destruct HF as [_ [H|[H|H]]]; auto; exfalso.
      + destruct H as (_ & Hin & m & pr & A & tl & M1 & M2 & M3 & M4 & M5). destruct (kw_kg1 m _ pr (A :: tl) M1 M2 M3 M4) as (_ & -> & HC).
        rewrite (own_proof_ok' _ A tl HC) in M5. discriminate.
      + destruct H as (_ & Hin & Cs & m & z & HV & M1 & M2 & M3 & M4 & M5 & M6). apply M6.
        destruct (kw_kg2 m i _ z M1 Hi M2 M3 M4 M5) as (_ & ->).
        destruct (HV _ Hin) as (m' & pr & A & tl & N1 & N2 & N3 & N4 & _). destruct (kw_kg1 m' _ pr _ N1 N2 N3 N4) as (_ & _ & HCj).
        unfold share_fits. rewrite HCj, gpeval_gpoly. apply C08_honest_share.
    - destruct HF as (Cs & sh & cc & pub & HV & HG & [HC1 HC2] & HO & Eo & P1 & P2 & P3 & P4 & P5).
      do 2 eexists. split; [exact Eo|]. split; [reflexivity|].
      assert (fadd (peval (p0 (rg i) thr) (idF i)) (Fsum (map sh (others_of i ids))) = shared (qof i)) as ES.
      { unfold shared. rewrite (Fsum_perm (map (fun j => spoly (f j) (qof i)) ids) (map (fun j => spoly (f j) (qof i)) (i :: others_of i ids))).
        - cbn [map]. change (Fsum (spoly (f i) (qof i) :: ?l)) with (fadd (spoly (f i) (qof i)) (Fsum l)). rewrite p0_dealt, peval_spoly. f_equal. f_equal.
          apply map_ext_in. intros j Hj. destruct (HG j Hj) as (_ & m & M1 & M2 & M3 & M4 & M5). apply (kw_kg2 m i j _ M1 Hi M2 M3 M4 M5).
        - apply Permutation_map. apply others_perm; auto. apply V. }
      cbn [NewSecretShare sh_Secret sh_Public]. rewrite ES. split; [reflexivity|]. split; [reflexivity|]. split; auto. split; auto. split.
      { rewrite P5, HC2. now apply honest_total. }
      split; auto. intros j Hj. destruct (P3 j Hj) as (A & A1 & A2). exists A. split; auto. rewrite A2, HC2. now apply honest_total.
  Qed.

  Theorem C04_honest : forall c i, net_reach keygen_round ids (mkConfig s0 []) c -> In i ids -> st_done (cf_state c i) = true ->
    match st_err (cf_state c i) with
    | Some err => pe_PartyID err = 0 /\ pe_text err = "message timeout"%string
    | None => exists pub sk, kg_output (cf_state c i) = mkKOutput (Some pub) (Some sk) /\
        sh_ID sk = i /\ sh_Secret sk = shared (qof i) /\ geq (sh_Public sk) (gbmul (shared (qof i))) /\
        pub_PartyIDs pub = ids /\ pub_Threshold pub = thr /\ geq (pub_GroupKey pub) (gbmul (shared f0)) /\
        (forall j, In j ids -> exists A, pub_Shares pub !! j = Some A /\ geq A (gbmul (shared (qof j)))) /\
        (forall j, ~ In j ids -> pub_Shares pub !! j = None)
    end.
  Proof.
    intros c i HR Hi D. destruct (net_local_W keygen_round KU KW ids s0 c KUW khonest_out HR i) as (es & out & HE & E).
    exact (khonest_final i es _ _ Hi HE E D).
  Qed.

  (** F is a polynomial of degree at most the threshold. *)
  Theorem C04_degree : exists g, degree_le (Z.to_nat thr) g /\ forall x, shared x = spoly g x.
  Proof.
    assert (forall l : list Z, exists g, List.length g = S (Z.to_nat thr) /\ forall x, Fsum (map (fun j => spoly (f j) x) l) = spoly g x) as X.
    { induction l as [|j l (g & G1 & G2)].
      - exists (repeat f0 (S (Z.to_nat thr))). rewrite repeat_length. split; auto. intros x. rewrite <- peval_spoly. cbn [map].
        assert (forall n, peval (repeat f0 n) x = f0) as Hz. { induction n as [|n IH]; cbn [repeat peval]; [reflexivity|]. rewrite IH. ring. }
        rewrite Hz. reflexivity.
      - exists (padd (f j) g). split.
        + rewrite padd_length, G1. unfold dealt. rewrite map_length, seq_length. lia.
        + intros x. cbn [map]. change (Fsum (?a :: ?l)) with (fadd a (Fsum l)). rewrite G2, <- !peval_spoly, padd_eval. reflexivity. }
    destruct (X ids) as (g & G1 & G2). exists g. split; auto. unfold degree_le. lia.
  Qed.

  (** Any two that finish agree on the public part; any t+1 of the shares determine the secret key of the group key. *)
  Theorem C04_agree : forall c i j pi si pj sj, net_reach keygen_round ids (mkConfig s0 []) c -> In i ids -> In j ids ->
    kg_output (cf_state c i) = mkKOutput (Some pi) (Some si) -> kg_output (cf_state c j) = mkKOutput (Some pj) (Some sj) ->
    geq (pub_GroupKey pi) (pub_GroupKey pj) /\ pub_PartyIDs pi = pub_PartyIDs pj /\ pub_Threshold pi = pub_Threshold pj /\
    (forall k, match pub_Shares pi !! k, pub_Shares pj !! k with Some A, Some B => geq A B | None, None => True | _, _ => False end) /\
    (exists A, pub_Shares pj !! i = Some A /\ geq A (sh_Public si)).
  Proof.
    intros c i j pi si pj sj HR Hi Hj Ei Ej.
    assert (forall k p s, In k ids -> kg_output (cf_state c k) = mkKOutput (Some p) (Some s) -> st_done (cf_state c k) = true /\ st_err (cf_state c k) = None) as HD.
    { intros k p s Hk Ek. destruct (net_local_W keygen_round KU KW ids s0 c KUW khonest_out HR k) as (es & out & _ & E).
      destruct (st_done (cf_state c k)) eqn:D.
      - split; auto. destruct (st_err (cf_state c k)) eqn:Er; auto.
        rewrite (C06_no_output_otherwise (rg k) (now k) (timeout k) k ids thr (s0 k) (NEW k Hk) V HT es _ out E) in Ek by (right; congruence). discriminate.
      - rewrite (C06_no_output_otherwise (rg k) (now k) (timeout k) k ids thr (s0 k) (NEW k Hk) V HT es _ out E) in Ek by auto. discriminate. }
    destruct (HD i _ _ Hi Ei) as [Di Eri]. destruct (HD j _ _ Hj Ej) as [Dj Erj].
    pose proof (C04_honest c i HR Hi Di) as Xi. rewrite Eri in Xi. destruct Xi as (p1 & k1 & O1 & A1 & A2 & A3 & A4 & A5 & A6 & A7 & A8).
    pose proof (C04_honest c j HR Hj Dj) as Xj. rewrite Erj in Xj. destruct Xj as (p2 & k2 & O2 & B1 & B2 & B3 & B4 & B5 & B6 & B7 & B8).
    rewrite Ei in O1. inversion O1; subst p1 k1. rewrite Ej in O2. inversion O2; subst p2 k2.
    split; [rewrite A6, B6; reflexivity|]. split; [congruence|]. split; [congruence|]. split.
    - intros k. destruct (in_dec Z.eq_dec k ids) as [Hk|Hk].
      + destruct (A7 k Hk) as (A & -> & HA). destruct (B7 k Hk) as (B & -> & HB). rewrite HA, HB. reflexivity.
      + rewrite A8, B8 by auto. exact Logic.I.
    - destruct (B7 i Hi) as (A & EA & HA). exists A. split; auto. rewrite HA, A3. reflexivity.
  Qed.

  Lemma kw_ok m : KW m -> (m_Type m = MTKeyGen1 -> exists b, m_KeyGen1 m = Some b /\ k1_Commitments b <> []) /\
    (m_Type m = MTKeyGen2 -> exists b, m_KeyGen2 m = Some b).
  Proof.
    intros (m0 & (i & Hi & [->|Hm]) & HS).
    - rewrite (same_type _ _ HS). split; [|discriminate]. intros _. destruct (same_k1 _ _ _ HS eq_refl eq_refl) as (b & E1 & _ & E3). exists b. split; auto.
      intros E. rewrite E in E3. cbn in E3. inversion E3.
    - apply in_map_iff in Hm as (k & <- & _). rewrite (same_type _ _ HS). split; [discriminate|]. intros _. eexists. apply (same_k2 _ _ _ HS eq_refl eq_refl).
  Qed.
  (** No call of an honest party that has called ProcessAll once ever crashes. *)
  Theorem C04_no_crash : forall i es sched sched', In i ids -> Forall (event_ok KW) es ->
    exists s out, run keygen_round (s0 i) (EProcess sched sched' :: es) = Ret (s, out).
  Proof.
    intros i es sched sched' Hi HE. destruct (NewKeygenState_round _ _ _ _ _ _ _ (NEW i Hi)) as (r0 & E1 & E2). rewrite E2.
    destruct (keygen_nopanic_started KW (rg i) i ids thr r0 E1 V HT (fun m H => proj1 (kw_ok m H)) (fun m H => proj2 (kw_ok m H)) (now i) (timeout i) es sched sched' HE) as (s & out & E & _).
    eauto.
  Qed.
  (** Without a timeout callback a party that has not failed does not fail. *)
  Lemma khonest_noerr_from i es es' s1 o1 s out : In i ids -> Forall (event_ok KW) (es ++ es') -> Forall (fun e => e <> ECallback) es' ->
    run keygen_round (s0 i) es = Ret (s1, o1) -> st_err s1 = None -> run keygen_round s1 es' = Ret (s, out) -> st_err s = None.
  Proof.
    intros Hi HE HC Ea Er1 Eb. destruct (st_err s) as [err|] eqn:Er; auto. exfalso. pose proof HE as HE'. apply Forall_app in HE' as [HE1 HE2].
    assert (run keygen_round (s0 i) (es ++ es') = Ret (s, o1 ++ out)) as E. { rewrite run_app, Ea. cbn [obind fst snd]. rewrite Eb. reflexivity. }
    destruct (khonest_run i _ s _ Hi HE E) as (r0 & E1 & E2 & HL). destruct (khonest_run i _ s1 _ Hi HE1 Ea) as (r1 & _ & _ & HL1).
    assert (st_done s = true) as D. { destruct (st_done s) eqn:D; auto. rewrite (inv_err _ s (li_inv _ _ _ _ _ _ _ HL) D) in Er. discriminate. }
    pose proof (li_F _ _ _ _ _ _ _ HL D) as [_ HF]. rewrite Er in HF. destruct HF as [_ [H|[H|H]]].
    - destruct (run_err_source keygen_round keygen_round_ok es' s1 s out err Eb) as [(r & m & r' & c & X)|(sc & r & r' & c & X)]; auto.
      + apply HL1.
      + apply kg_process_text in X. destruct H; auto.
      + now apply kg_generate_text in X.
    - destruct H as (_ & Hin & m & pr & A & tl & M1 & M2 & M3 & M4 & M5). destruct (kw_kg1 m _ pr (A :: tl) M1 M2 M3 M4) as (_ & -> & HC').
      rewrite (own_proof_ok' _ A tl HC') in M5. discriminate.
    - destruct H as (_ & Hin & Cs & m & z & HV & M1 & M2 & M3 & M4 & M5 & M6). apply M6.
      destruct (kw_kg2 m i _ z M1 Hi M2 M3 M4 M5) as (_ & ->).
      destruct (HV _ Hin) as (m' & pr & A & tl & N1 & N2 & N3 & N4 & _). destruct (kw_kg1 m' _ pr _ N1 N2 N3 N4) as (_ & _ & HCj).
      unfold share_fits. rewrite HCj, gpeval_gpoly. apply C08_honest_share.
  Qed.
  Lemma khonest_noerr i es s out : In i ids -> Forall (event_ok KW) es -> Forall (fun e => e <> ECallback) es -> run keygen_round (s0 i) es = Ret (s, out) -> st_err s = None.
  Proof.
    intros Hi HE HC E. destruct (NewKeygenState_round _ _ _ _ _ _ _ (NEW i Hi)) as (r0 & _ & E2).
    apply (khonest_noerr_from i [] es (s0 i) [] s out); auto. rewrite E2. reflexivity.
  Qed.

  (** An honest execution in which everybody finishes exists for every set of parties and all randomness. *)
  Theorem C04_completes : sorted ids -> exists c, net_reach keygen_round ids (mkConfig s0 []) c /\
    forall i, In i ids -> st_done (cf_state c i) = true /\ st_err (cf_state c i) = None.
  Proof.
    intros HS.
    destruct (choice_ids (fun i r => kg_NewRound (rg i) i ids thr = Ret r /\ s0 i = NewBaseState keygen_round (now i) (timeout i) r) ids
       (mkKround 0 0 [] 0 f0 None None ∅ true (mkKOutput None None) (rg 0))) as [r0 Hr0].
    { intros i Hi. destruct (NewKeygenState_round _ _ _ _ _ _ _ (NEW i Hi)) as (r & A & B). eauto. }
    assert (forall i n r out, PK KW (rg i) i ids thr n r out -> (n < 3)%nat) as HP3.
    { intros i n r out (_ & _ & H). destruct n as [|[|[|n]]]; [lia|lia|lia|contradiction]. }
    apply (net_completes keygen_round ids HS V KW now timeout r0 (fun i => PK KW (rg i) i ids thr) (fun i => FK KW (rg i) i ids thr) s0) with
      (t0 := MTNone) (t1 := MTKeyGen1) (t2 := MTKeyGen2) (M1 := fun i => own_KG1 (rg i) i thr) (M2 := fun i j => NewKeyGen2 i j (peval (p0 (rg i) thr) (idF j))).
    - intros i Hi. apply (Hr0 i Hi).
    - intros i Hi. destruct (Hr0 i Hi) as [Ea Eb]. split; [eapply (kr0_self KW)|eapply (kr0_ids KW)]; eauto.
    - intros i es s out Hi HE E. destruct (Hr0 i Hi) as [Ea Eb]. rewrite Eb in E. eapply keygen_run; eauto.
    - intros i sched sched' es Hi HE. now apply C04_no_crash.
    - exact HP3.
    - reflexivity.
    - intros i Hi. split; [apply KUW0; exists i; auto|]. repeat split; reflexivity.
    - intros i j Hi Hj Hne. split; [|cbn; auto]. apply KUW0. exists i. split; auto. right. apply in_map_iff. exists j. split; auto. apply others_of_In. auto.
    - intros i n r out Hi (_ & _ & H) Hn. destruct n as [|[|[|n]]]; [lia| | |contradiction].
      + destruct H as (_ & _ & _ & _ & ->). now left.
      + destruct H as (_ & _ & -> & _). now left.
    - intros i n r out Hi (_ & _ & H) Hn j Hj. destruct n as [|[|[|n]]]; [lia|lia| |contradiction].
      destruct H as (_ & _ & -> & _). right. apply in_map_iff. eauto.
    - intros i r out Hi [_ H]. destruct H as (_ & _ & _ & _ & _ & _ & _ & -> & _). split; [now left|]. intros j Hj. right. apply in_map_iff. eauto.
    - intros i es s out Hi HE HC E. eapply khonest_noerr; eauto.
  Qed.
End HonestKeygen.

(** * Key generation followed by signing *)
Section EndToEnd.
  Context `{L : group_laws} `{Hf : hash_fn} (HH : hash_ok Hf).
  Context (ids : list Z) (thr : Z) (V : valid_ids ids) (HT : is_u16 thr).
  Context (rg : Z -> rng) (now timeout : Z -> Z) (s0 : Z -> State kround).
  Context (NEW : forall i, In i ids -> NewKeygenState (rg i) (now i) (timeout i) i ids thr = Ret (s0 i)).
  (** A keygen in which the signers finished, with these outputs. *)
  Context (signers : list Z) (Vs : valid_ids signers) (Hincl : incl signers ids) (Hnum : thr + 1 <= Z.of_nat (List.length signers)).
  Context (c : config) (HR : net_reach keygen_round ids (mkConfig s0 []) c).
  Context (pub : Z -> Public) (sk : Z -> SecretShare).
  Context (OUT : forall i, In i signers -> kg_output (cf_state c i) = mkKOutput (Some (pub i)) (Some (sk i))).
  (** The signing run. *)
  Context (message : list byte) (rs : Z -> rng) (nows timeouts : Z -> Z) (ss : Z -> State sround).
  Context (NEWS : forall i, In i signers -> NewSignState (rs i) (nows i) (timeouts i) signers (sk i) (pub i) message = Ret (ss i)).
  Context (NZ : forall i, In i signers -> SetScalarRandom (rs i) 0 <> f0 /\ SetScalarRandom (rs i) 1 <> f0).

  (** Every signer that finishes without a timeout has a signature valid for the group key of every participant. *)
  Theorem C04_then_sign : forall cs i j, net_reach sign_round signers (mkConfig ss []) cs -> In i signers -> In j signers -> st_done (cf_state cs i) = true ->
    match st_err (cf_state cs i) with
    | Some err => pe_PartyID err = 0 /\ pe_text err = "message timeout"%string
    | None => exists sig, sg_output (cf_state cs i) = Some sig /\ Verify (pub_GroupKey (pub j)) message sig = true
    end.
  Proof.
    intros cs i j HRs Hi Hj D.
    assert (forall k, In k signers -> sh_ID (sk k) = k /\ sh_Secret (sk k) = shared ids thr rg (qof k) /\ geq (pub_GroupKey (pub k)) (gbmul (shared ids thr rg f0)) /\
      (forall l, In l ids -> exists A, pub_Shares (pub k) !! l = Some A /\ geq A (gbmul (shared ids thr rg (qof l))))) as HK.
    { intros k Hk. pose proof (Hincl k Hk) as Hk'. pose proof (OUT k Hk) as Eo.
      assert (st_done (cf_state c k) = true /\ st_err (cf_state c k) = None) as [Dk Erk].
      { destruct (net_local_W keygen_round (KU ids thr rg) (KW ids thr rg) ids s0 c (KUW ids thr rg) (khonest_out ids thr V HT rg now timeout s0 NEW) HR k) as (es & out & _ & E).
        destruct (st_done (cf_state c k)) eqn:Dk.
        - split; auto. destruct (st_err (cf_state c k)) eqn:Er; auto.
          rewrite (C06_no_output_otherwise (rg k) (now k) (timeout k) k ids thr (s0 k) (NEW k Hk') V HT es _ out E) in Eo by (right; congruence). discriminate.
        - rewrite (C06_no_output_otherwise (rg k) (now k) (timeout k) k ids thr (s0 k) (NEW k Hk') V HT es _ out E) in Eo by auto. discriminate. }
      pose proof (C04_honest ids thr V HT rg now timeout s0 NEW c k HR Hk' Dk) as X. rewrite Erk in X. destruct X as (p1 & k1 & O1 & A1 & A2 & A3 & A4 & A5 & A6 & A7 & A8).
      rewrite Eo in O1. inversion O1; subst p1 k1. auto. }
    destruct (C04_degree ids thr rg) as (g & G1 & G2).
    pose proof (C02_honest HH (Z.to_nat thr) g signers G1 Vs ltac:(unfold is_u16 in HT; lia) message rs pub sk nows timeouts ss) as X.
    assert (forall l, In l signers -> In l ids) as Hincl' by (intros l; apply Hincl).
    specialize (X ltac:(intros k Hk; rewrite <- G2; now destruct (HK k Hk) as (? & ? & _)) ltac:(intros k l Hk Hl; rewrite <- G2; apply (HK k Hk); auto)
      ltac:(intros k Hk; rewrite <- G2; apply (HK k Hk)) NEWS NZ cs i HRs Hi D).
    destruct (st_err (cf_state cs i)); auto. destruct X as (sig & S1 & _ & _ & S2). exists sig. split; auto.
    apply Verify_iff; auto. apply Verify_iff in S2; auto. eapply schnorr_valid_proper; [|reflexivity|exact S2]. rewrite <- G2. apply (HK j Hj).
  Qed.
End EndToEnd.

(** ** A concrete case: three parties, threshold 1; one message is delivered twice, one looped back *)
Definition tk0 (i : Z) : tkstate := match tk_new k3 1 i 0 with Ret s => s | _ => @NewBaseState toy_group tkround tkg 0 0
  (@mkKround toy_group 0 0 [] 0 f0 None None ∅ true (mkKOutput None None) (toy_rng 0)) end.
Definition tk_schedule : list act :=
  [AProcess 1; AProcess 2; AProcess 3; ADeliver 1 0; ADeliver 1 1; ADeliver 1 1; ADeliver 1 2; ADeliver 2 0; ADeliver 2 2; ADeliver 3 0; ADeliver 3 1;
   AProcess 1; AProcess 2; AProcess 3] ++
  flat_map (fun i => map (ADeliver i) (seq 3 6)) k3 ++ [AProcess 3; AProcess 1; AProcess 2].
Example C04_example :
  valid_ids k3 /\ is_u16 1 /\ sorted k3 /\
  (forall i, In i k3 -> @NewKeygenState toy_group toy_hash (toy_rng i) 0 0 i k3 1 = Ret (tk0 i)) /\
  match @net_exec toy_group tkround tkg k3 (@mkConfig toy_group tkround tk0 []) tk_schedule with
  | Some c => map (fun i => (st_done (cf_state c i), match st_err (cf_state c i) with None => true | _ => false end)) k3
  | None => [] end = [(true, true); (true, true); (true, true)].
Proof.
  split. { split; repeat constructor; cbn; lia. } split; [unfold is_u16; lia|]. split. { repeat constructor; lia. }
  split. { intros i [<-|[<-|[<-|[]]]]; apply ret_default; vm_compute; reflexivity. }
  vm_compute. reflexivity.
Qed.

Print Assumptions C04_honest.
Print Assumptions C04_degree.
Print Assumptions C04_agree.
Print Assumptions C04_no_crash.
Print Assumptions C04_completes.
Print Assumptions C04_then_sign.
