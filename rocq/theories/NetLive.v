(** Progress of a network of honest parties under every interleaving: once everything sent has been delivered again to everybody
    and everybody has called ProcessAll afterwards, the slowest party is one round further. *)
From Coq Require Import ZArith Lia List Bool String Permutation.
From stdpp Require Import base gmap list fin_maps.
From Verif Require Import ZField Primes Bytes Scalar Go Group Party Poly PolyFacts Zk Eddsa Messages State StateFacts Spec_State Lift Net Spec_Live Progress NetProgress.
Import ListNotations.
Local Open Scope Z_scope.

Section NetLive.
  Context `{Gr : group_ops} {R : Type} (I : RoundI R) (ROK : round_ok I).

  Lemma trace_reach ids : forall c l c', net_trace I ids c l c' -> net_reach I ids c c'.
  Proof.
    induction 1 as [|c i e s' o l c' Hi He E HT IH]; [constructor|].
    eapply net_reach_trans; [|exact IH]. eapply net_trans; [constructor|]. econstructor; eauto.
  Qed.
  Lemma trace_app ids l1 : forall c l2 c', net_trace I ids c (l1 ++ l2) c' -> exists c1, net_trace I ids c l1 c1 /\ net_trace I ids c1 l2 c'.
  Proof.
    induction l1 as [|[i e] l1 IH]; intros c l2 c' H; cbn [app] in H.
    - exists c. split; [constructor|exact H].
    - inversion H; subst. destruct (IH _ _ _ H8) as (c1 & A & B). exists c1. split; auto. econstructor; eauto.
  Qed.
  Lemma trace_join ids : forall c l1 c1, net_trace I ids c l1 c1 -> forall l2 c2, net_trace I ids c1 l2 c2 -> net_trace I ids c (l1 ++ l2) c2.
  Proof. induction 1; intros lx cx Hx; cbn [app]; auto. econstructor; eauto. Qed.

  (** The part of one party. *)
  Definition events_of (i : Z) (l : list (Z * event)) : list event := map snd (List.filter (fun x => fst x =? i) l).
  Lemma events_of_app i l1 l2 : events_of i (l1 ++ l2) = events_of i l1 ++ events_of i l2.
  Proof. unfold events_of. now rewrite List.filter_app, map_app. Qed.
  Lemma events_of_In i e l : In e (events_of i l) <-> In (i, e) l.
  Proof.
    unfold events_of. rewrite in_map_iff. split.
    - intros ([j e'] & <- & H). apply filter_In in H as [H X]. cbn in X. apply Z.eqb_eq in X. cbn. now subst.
    - intros H. exists (i, e). split; auto. apply filter_In. cbn. now rewrite Z.eqb_refl.
  Qed.
  Lemma trace_local ids i : forall c l c', net_trace I ids c l c' ->
    exists o, run I (cf_state c i) (events_of i l) = Ret (cf_state c' i, o) /\ incl o (cf_sent c').
  Proof.
    assert (forall c l c', net_trace I ids c l c' -> incl (cf_sent c) (cf_sent c')) as HM.
    { induction 1 as [|c j e s' o l c' Hi He E HT IH]; [apply incl_refl|]. intros m Hm. apply IH. cbn. apply in_app_iff. auto. }
    induction 1 as [|c j e s' o l c' Hi He E HT IH].
    - exists []. split; [reflexivity|]. intros m [].
    - destruct IH as (o' & E' & HI). unfold events_of. cbn [List.filter fst]. destruct (Z.eqb_spec j i) as [->|Hne].
      + cbn [map snd run]. rewrite E. cbn [obind fst snd]. cbn [cf_set cf_state] in E'. rewrite Z.eqb_refl in E'. unfold events_of in E'. rewrite E'. cbn [obind fst snd].
        exists (o ++ o'). split; auto. intros m Hm. apply in_app_iff in Hm as [Hm|Hm]; auto. apply (HM _ _ _ HT). cbn. apply in_app_iff. auto.
      + exists o'. split; auto. cbn [cf_set cf_state] in E'. destruct (Z.eqb_spec i j); [congruence|]. exact E'.
  Qed.
  Lemma trace_sent ids : forall c l c', net_trace I ids c l c' -> incl (cf_sent c) (cf_sent c').
  Proof. induction 1 as [|c j e s' o l c' Hi He E HT IH]; [apply incl_refl|]. intros m Hm. apply IH. cbn. apply in_app_iff. auto. Qed.

  (** ** One State *)
  Lemma step_round_mono s e s' o : step I s e = Ret (s', o) -> st_roundNumber s <= st_roundNumber s'.
  Proof.
    destruct e as [nw m|a b|nw|]; cbn [step]; intros E.
    - apply Ret_inj in E. inversion E; subst. destruct (handle_cases I nw s m) as [->|(_ & _ & _ & _ & _ & _ & ct & tl & _ & [[_ ->]|(_ & _ & ->)])]; cbn; lia.
    - apply process_cases in E. destruct E as [-> _ _|r c t D _ _ ER _|r r' c t D _ _ _ ER _|r r' ct tl rcv q D _ _ _ _ _ EN]; [lia| | |].
      + unfold reportError in ER. cbn [set_round st_done] in ER. rewrite D in ER. apply finish_ret in ER as (r2 & _ & _ & ->); [cbn; lia|auto].
      + unfold reportError in ER. cbn [st_done] in ER. rewrite D in ER. apply finish_ret in ER as (r2 & _ & _ & ->); [cbn; lia|auto].
      + destruct (r_next I r'); [subst s'; cbn; lia|]. apply finish_ret in EN as (r2 & _ & _ & ->); [cbn; lia|auto].
    - apply Ret_inj in E. inversion E; subst. unfold timerExpire. destruct (tm_deadline _); [destruct (_ <=? _)|]; cbn; lia.
    - apply obind_ret in E as (s4 & E1' & E5). apply Ret_inj in E5. inversion E5; subst. unfold timerCallback in E1'.
      destruct (tm_pending _); [apply Ret_inj in E1'; subst; lia|]. unfold reportError in E1'. cbn [st_done] in E1'.
      destruct (st_done s) eqn:D; [apply Ret_inj in E1'; subst; cbn; lia|]. apply finish_ret in E1' as (r2 & _ & _ & ->); cbn; auto; lia.
  Qed.
  Lemma run_round_mono es : forall s s' o, run I s es = Ret (s', o) -> st_roundNumber s <= st_roundNumber s'.
  Proof.
    induction es as [|e es IH]; intros s s' o E; cbn [run] in E.
    - apply Ret_inj in E. inversion E; subst. lia.
    - apply obind_ret in E as ([s1 o1] & E1 & E2). cbn [fst snd] in E2. apply obind_ret in E2 as ([s2 o2] & E2 & E3). apply Ret_inj in E3. inversion E3; subst.
      apply step_round_mono in E1. apply IH in E2. cbn in *. lia.
  Qed.
  Lemma done_stays es s s' o : run I s es = Ret (s', o) -> st_done s = true -> st_done s' = true.
  Proof. intros E D. destruct (st_done s') eqn:D'; auto. rewrite (run_not_done I s es s' o E D') in D. discriminate. Qed.

  (** A step that does not leave the round keeps everything stored and adds what it is given. *)
  Lemma step_same s e s' o : step I s e = Ret (s', o) -> st_done s' = false -> st_roundNumber s' = st_roundNumber s ->
    st_done s = false /\ st_round s' = st_round s /\ st_accepted s' = st_accepted s /\ (forall j, st_received s !! j <> None -> st_received s' !! j <> None).
  Proof.
    intros E D' EN. destruct e as [nw m|a b|nw|]; cbn [step] in E.
    - apply Ret_inj in E. inversion E; subst. destruct (handle_cases I nw s m) as [X|(_ & D & _ & _ & _ & _ & ct & tl & _ & [[_ X]|(_ & _ & X)])]; rewrite X in *; cbn; auto.
      split; auto. split; auto. split; auto. intros j Hj. destruct (Z.eq_dec (m_From m) j) as [->|Hne]; [now rewrite lookup_insert|now rewrite lookup_insert_ne].
    - apply process_cases in E. destruct E as [-> _ _|r c t D _ _ ER _|r r' c t D _ _ _ ER _|r r' ct tl rcv q D _ _ _ _ _ E]; [auto| | |].
      + unfold reportError in ER. cbn [set_round st_done] in ER. rewrite D in ER. apply finish_ret in ER as (r2 & _ & _ & ->); [discriminate|auto].
      + unfold reportError in ER. cbn [st_done] in ER. rewrite D in ER. apply finish_ret in ER as (r2 & _ & _ & ->); [discriminate|auto].
      + destruct (r_next I r'); [subst s'; cbn in EN; lia|]. apply finish_ret in E as (r2 & _ & _ & ->); [discriminate|auto].
    - apply Ret_inj in E. inversion E; subst. unfold timerExpire in *. destruct (tm_deadline _); [destruct (_ <=? _)|]; cbn in *; auto.
    - apply obind_ret in E as (s4 & E1' & E5). apply Ret_inj in E5. inversion E5; subst. unfold timerCallback in E1'.
      destruct (tm_pending _); [apply Ret_inj in E1'; subst; auto|]. unfold reportError in E1'. cbn [st_done] in E1'.
      destruct (st_done s) eqn:D; [apply Ret_inj in E1'; subst; cbn in D'; congruence|]. apply finish_ret in E1' as (r2 & _ & _ & ->); [discriminate|reflexivity].
  Qed.
  Lemma run_same es : forall s s' o, run I s es = Ret (s', o) -> st_done s' = false -> st_roundNumber s' = st_roundNumber s ->
    st_done s = false /\ st_round s' = st_round s /\ st_accepted s' = st_accepted s /\ (forall j, st_received s !! j <> None -> st_received s' !! j <> None) /\
    (sorted (r_ids I (st_round s)) -> forall nw m ct tl, In (EHandle nw m) es -> st_accepted s = ct :: tl -> m_Type m = ct -> for_us I s m -> st_received s' !! m_From m <> None).
  Proof.
    induction es as [|e es IH]; intros s s' o E D' EN; cbn [run] in E.
    - apply Ret_inj in E. inversion E; subst. split; [auto|]. split; [auto|]. split; [auto|]. split; [auto|]. intros _ nw m ct tl [].
    - apply obind_ret in E as ([s1 o1] & E1 & E2). cbn [fst snd] in E2. apply obind_ret in E2 as ([s2 o2] & E2 & E3). apply Ret_inj in E3. cbn [fst snd] in E3. inversion E3; subst s2 o. clear E3.
      pose proof (step_round_mono _ _ _ _ E1) as M1. pose proof (run_round_mono _ _ _ _ E2) as M2.
      destruct (IH _ _ _ E2 D' ltac:(lia)) as (D1 & Er & Ea & Hk & Hn). destruct (step_same _ _ _ _ E1 D1 ltac:(lia)) as (D & Er1 & Ea1 & Hk1).
      split; auto. split; [congruence|]. split; [congruence|]. split; [auto|].
      intros HS nw m ct tl [->|Hin] EA Ht HF.
      + apply Hk. cbn [step] in E1. apply Ret_inj in E1. inversion E1; subst s1 o1. destruct HF as [F1 F2 F3].
        unfold HandleMessage. rewrite D, EA. apply Z.eqb_neq in F2. rewrite F2.
        assert (negb (IsBroadcast (m_Header m)) && negb (m_To m =? r_self I (st_round s)) = false) as ->.
        { unfold IsBroadcast. fold (m_To m). destruct F3 as [->| ->]; [reflexivity|]. rewrite Z.eqb_refl. now rewrite andb_false_r. }
        rewrite (proj2 (Contains_In _ _ HS) F1). cbn [negb]. destruct (st_received s !! m_From m) eqn:Hrc; [cbn; congruence|].
        unfold isAcceptedType. rewrite EA. cbn [existsb]. rewrite Ht, Z.eqb_refl. cbn. now rewrite lookup_insert.
      + apply (Hn ltac:(now rewrite Er1) nw m ct tl Hin); auto; [congruence|]. destruct HF as [F1 F2 F3]. split; rewrite Er1; auto.
  Qed.

  Lemma full_moves s a b s' o : inv I s -> st_done s = false -> valid_ids (r_ids I (st_round s)) -> In (r_self I (st_round s)) (r_ids I (st_round s)) ->
    (forall j, In j (others_s I s) -> st_received s !! j <> None) -> ProcessAll I a b s = Ret (s', o) -> st_done s' = true \/ st_roundNumber s' = st_roundNumber s + 1.
  Proof.
    intros HI D HV Hself Hall E.
    apply process_cases in E. destruct E as [-> _ X|r c t _ HS1 EP ER _|r r' c t _ HS1 EP EG ER _|r r' ct' tl' rcv q _ HS1 EP EG EA1 EQ EN].
    - exfalso. destruct X as [X|X]; [congruence|]. apply X.
      assert (Permutation (map_keys [] (st_received s)) (others_s I s)) as HP.
      { apply Permutation.NoDup_Permutation; [apply map_keys_NoDup|apply others_of_NoDup, HV|]. intros i. rewrite map_keys_In. split.
        - intros [v Hv]. destruct (inv_received I s HI i v Hv) as (A & B & _). now apply others_of_In.
        - intros Hi. specialize (Hall i Hi). destruct (st_received s !! i); eauto; congruence. }
      apply Permutation_length in HP. rewrite map_keys_length in HP. rewrite HP. unfold others_s.
      pose proof (others_of_length _ _ (proj1 HV) Hself) as Ho.
      assert (Z.of_nat (List.length (r_ids I (st_round s))) < 65536) as Hlt.
      { destruct HV as [ND' F]. assert (List.length (r_ids I (st_round s)) <= List.length (map Z.of_nat (seq 1 (Z.to_nat 65535))))%nat as Hl.
        { apply List.NoDup_incl_length; [exact ND'|]. intros i Hi. apply in_map_iff. exists (Z.to_nat i).
          rewrite List.Forall_forall in F. specialize (F i Hi). cbv beta in F. split; [lia|]. apply in_seq. lia. }
        rewrite map_length, seq_length in Hl. lia. }
      unfold N_ids, u16. rewrite (Z.mod_small (Z.of_nat _)) by lia. rewrite Z.mod_small by lia. lia.
    - left. unfold reportError in ER. cbn [set_round st_done] in ER. rewrite D in ER. apply finish_ret in ER as (r2 & _ & _ & ->); auto.
    - left. unfold reportError in ER. cbn [st_done] in ER. rewrite D in ER. apply finish_ret in ER as (r2 & _ & _ & ->); auto.
    - destruct (r_next I r') as [nr|].
      + right. subst s'. reflexivity.
      + left. apply finish_ret in EN as (r2 & _ & _ & ->); auto.
  Qed.

  Lemma err_stays es : forall s s' o, run I s es = Ret (s', o) -> inv I s -> st_err s' = None -> st_err s = None.
  Proof.
    intros s s' o E HI He. destruct (st_err s) as [e|] eqn:Es; auto. exfalso.
    assert (st_done s = true) as D. { destruct (st_done s) eqn:D; auto. rewrite (inv_err I s HI D) in Es. discriminate. }
    assert (forall es s s' o, run I s es = Ret (s', o) -> st_done s = true -> st_err s' = st_err s /\ st_done s' = true) as HK.
    { clear. induction es as [|ev es IH]; intros s s' o E D; cbn [run] in E.
      - apply Ret_inj in E. inversion E; subst. auto.
      - apply obind_ret in E as ([s1 o1] & E1 & E2). cbn [fst snd] in E2. apply obind_ret in E2 as ([s2 o2] & E2 & E3). apply Ret_inj in E3. cbn [fst snd] in E3. inversion E3; subst s2 o.
        assert (st_err s1 = st_err s /\ st_done s1 = true) as [X Y].
        { destruct ev as [nw m|a b|nw|]; cbn [step] in E1.
          - apply Ret_inj in E1. inversion E1; subst. unfold HandleMessage. rewrite D. auto.
          - unfold ProcessAll in E1. rewrite D in E1. apply Ret_inj in E1. inversion E1; subst. auto.
          - apply Ret_inj in E1. inversion E1; subst. unfold timerExpire. destruct (tm_deadline _); [destruct (_ <=? _)|]; auto.
          - apply obind_ret in E1 as (s4 & E1' & E5). apply Ret_inj in E5. inversion E5; subst. unfold timerCallback in E1'.
            destruct (tm_pending _); [apply Ret_inj in E1'; subst; auto|]. unfold reportError in E1'. cbn [st_done] in E1'. rewrite D in E1'. apply Ret_inj in E1'. subst. auto. }
        destruct (IH _ _ _ E2 Y) as [X' Y']. split; congruence. }
    destruct (HK _ _ _ _ E D) as [X _]. congruence.
  Qed.

  (** ** The network *)
  Section All.
    Context (ids : list Z) (HS : sorted ids) (HV : valid_ids ids).
    Context (U W : Message -> Prop) (UW : forall m m', U m -> same_msg m m' -> W m').
    Context (now timeout : Z -> Z) (r0 : Z -> R) (P : Z -> nat -> R -> list Message -> Prop) (F : Z -> R -> option PError -> list Message -> Prop).
    Context (s0 : Z -> State R) (E0 : forall i, In i ids -> s0 i = NewBaseState I (now i) (timeout i) (r0 i)).
    Context (R0 : forall i, In i ids -> r_self I (r0 i) = i /\ r_ids I (r0 i) = ids).
    Context (HL : forall i es s out, In i ids -> Forall (event_ok W) es -> run I (s0 i) es = Ret (s, out) -> linv I W (r0 i) (P i) (F i) s out).
    Context (HO : forall i es s out, In i ids -> Forall (event_ok W) es -> run I (s0 i) es = Ret (s, out) -> Forall U out).
    Context (P3 : forall i n r out, P i n r out -> (n < 3)%nat).
    Context (t0 t1 t2 : Z) (TY : forall i, In i ids -> r_accepted I (r0 i) = [t0; t1; t2]).
    Context (M1 : Z -> Message) (M2 : Z -> Z -> Message).
    Context (HM1 : forall i, In i ids -> m_From (M1 i) = i /\ m_Type (M1 i) = t1 /\ m_To (M1 i) = 0).
    Context (HM2 : forall i j, In i ids -> In j ids -> i <> j -> m_From (M2 i j) = i /\ m_Type (M2 i j) = t2 /\ (m_To (M2 i j) = 0 \/ m_To (M2 i j) = j)).
    Context (O1 : forall i n r out, In i ids -> P i n r out -> (1 <= n)%nat -> In (M1 i) out).
    Context (O2 : forall i n r out, In i ids -> P i n r out -> (2 <= n)%nat -> forall j, In j (others_of i ids) -> In (M2 i j) out).
    Context (OF : forall i r out, In i ids -> F i r None out -> In (M1 i) out /\ forall j, In j (others_of i ids) -> In (M2 i j) out).

    Definition at_least (k : Z) (c : config (R := R)) : Prop := forall i, In i ids -> st_done (cf_state c i) = true \/ k <= st_roundNumber (cf_state c i).

    (** The messages of round k are sent once everybody is in it and nobody has given up. *)
    Lemma sent_by c i : net_reach I ids (mkConfig s0 []) c -> In i ids -> st_err (cf_state c i) = None ->
      (st_done (cf_state c i) = true \/ 1 <= st_roundNumber (cf_state c i) -> In (M1 i) (cf_sent c)) /\
      (st_done (cf_state c i) = true \/ 2 <= st_roundNumber (cf_state c i) -> forall j, In j (others_of i ids) -> In (M2 i j) (cf_sent c)).
    Proof.
      intros HR Hi He. pose proof (net_closed I U W ids s0 c UW HO HR) as HF. destruct (net_local I _ _ _ HR) as [_ H2].
      destruct (H2 i) as (es & out & E & Hh & Hs).
      assert (Forall (event_ok W) es) as HE.
      { apply List.Forall_forall. intros [nw m| | |] Hin; cbn; auto. rewrite List.Forall_forall in HF. destruct (Hh nw m Hin) as (m0 & A & B). eauto. }
      pose proof (HL i es _ _ Hi HE E) as L. destruct (st_done (cf_state c i)) eqn:D.
      - pose proof (li_F _ _ _ _ _ _ _ L D) as X. rewrite He in X. destruct (OF i _ _ Hi X) as [Y1 Y2]. split; intros _; auto.
      - destruct (li_P _ _ _ _ _ _ _ L D) as (n & En & _ & HP). split; intros [X|X]; try discriminate.
        + apply Hs. apply (O1 i n _ _ Hi HP). lia.
        + intros j Hj. apply Hs. apply (O2 i n _ _ Hi HP); auto. lia.
    Qed.

    Lemma sweep_moves k c l c' : net_reach I ids (mkConfig s0 []) c -> net_trace I ids c l c' -> sweep ids c l ->
      (forall i, In i ids -> st_err (cf_state c' i) = None) -> 0 <= k <= 2 -> at_least k c -> at_least (k + 1) c'.
    Proof.
      intros HR HT HSw Her Hk HA i Hi.
      assert (forall j, In j ids -> exists es out, Forall (event_ok W) es /\ run I (s0 j) es = Ret (cf_state c j, out)) as HLoc
        by (intros j _; apply (net_local_W I U W ids s0 c UW HO HR)).
      assert (forall j, In j ids -> st_err (cf_state c j) = None) as Hec.
      { intros j Hj. destruct (trace_local ids j _ _ _ HT) as (o & E & _). destruct (HLoc j Hj) as (es & out & HE & E').
        eapply err_stays; [exact E|apply (HL j es _ _ Hj HE E')|auto]. }
      destruct (HSw i Hi) as (l1 & a & b & l2 & -> & HD).
      destruct (trace_local ids i _ _ _ HT) as (o & E & _). rewrite events_of_app in E.
      change ((i, EProcess a b) :: l2) with ([(i, EProcess a b)] ++ l2) in E. rewrite events_of_app in E.
      assert (events_of i [(i, EProcess a b)] = [EProcess a b]) as Ee. { unfold events_of. cbn. now rewrite Z.eqb_refl. }
      rewrite Ee in E. rewrite run_app in E. apply obind_ret in E as ([s1 o1] & E1 & E). apply obind_ret in E as ([s3 o3] & E & E4). apply Ret_inj in E4. cbn [fst snd] in E4.
      inversion E4; subst s3 o. clear E4. cbn [fst] in E. rewrite run_app in E. apply obind_ret in E as ([s2 o2] & E2 & E). apply obind_ret in E as ([s4 o4] & E3 & E4).
      apply Ret_inj in E4. cbn [fst snd] in E4. inversion E4; subst s4 o3. clear E4. cbn [fst] in E3.
      cbn [run] in E2. apply obind_ret in E2 as ([s5 o5] & E2 & E4). cbn in E4. apply Ret_inj in E4. inversion E4; subst s5 o2. clear E4. cbn [step] in E2.
      enough (st_done s2 = true \/ k + 1 <= st_roundNumber s2) as [X|X].
      { left. eapply done_stays; eauto. } { right. apply run_round_mono in E3. lia. }
      destruct (HA i Hi) as [D|Hn].
      { left. assert (st_done s1 = true) as D1 by (eapply done_stays; eauto). unfold ProcessAll in E2. rewrite D1 in E2. apply Ret_inj in E2. inversion E2; subst. exact D1. }
      pose proof (run_round_mono _ _ _ _ E1) as M1'. pose proof (step_round_mono s1 (EProcess a b) s2 o5 E2) as M2'.
      destruct (st_done s1) eqn:D1.
      { left. unfold ProcessAll in E2. rewrite D1 in E2. apply Ret_inj in E2. inversion E2; subst. exact D1. }
      destruct (Z.eq_dec (st_roundNumber s1) k) as [Ek|Hgt]; [|right; lia].
      destruct (run_same _ _ _ _ E1 D1 ltac:(lia)) as (D & Er & Ea & Hkeep & Hadd).
      destruct (HLoc i Hi) as (es & out & HE & E'). pose proof (HL i es _ _ Hi HE E') as L. destruct (R0 i Hi) as [Rs Ri].
      pose proof (li_self _ _ _ _ _ _ _ L) as Ls. pose proof (li_ids _ _ _ _ _ _ _ L) as Li. rewrite Rs in Ls. rewrite Ri in Li.
      assert (inv I s1) as HI1. { eapply inv_run; [exact ROK|apply L|exact E1]. }
      destruct (full_moves s1 a b s2 o5 HI1 D1) as [X|X]; auto; [rewrite Er, Li; auto|rewrite Er, Ls, Li; auto| |right; lia].
      unfold others_s. rewrite Er, Ls, Li. intros j Hj.
      destruct (li_P _ _ _ _ _ _ _ L D) as (n & En & EA & _). rewrite TY in EA by auto. apply others_of_In in Hj as Hj'. destruct Hj' as [Hj1 Hj2].
      assert (forall m, In m (cf_sent c) -> m_From m = j -> m_Type m = nth n [t0; t1; t2] 0 -> (m_To m = 0 \/ m_To m = i) -> st_received s1 !! j <> None) as HX.
      { intros m Hm Hf Ht Hto. destruct (HD m Hm) as (nw & m' & Hin & Hsm); [congruence|auto|].
        pose proof (same_from _ _ Hsm) as Sf. pose proof (same_to _ _ Hsm) as St. pose proof (same_type _ _ Hsm) as Sy.
        rewrite <- Hf, <- Sf. assert (n < 3)%nat as Hn3 by lia.
        apply (Hadd ltac:(now rewrite Li) nw m' (nth n [t0; t1; t2] 0) (skipn (S n) [t0; t1; t2])).
        - apply events_of_In. exact Hin.
        - rewrite EA. destruct n as [|[|[|n]]]; try reflexivity. lia.
        - congruence.
        - split; rewrite ?Ls, ?Li, ?Sf, ?St, ?Hf; auto. }
      destruct (sent_by c j HR Hj1 (Hec j Hj1)) as [SB1 SB2].
      assert (n = 0 \/ n = 1 \/ n = 2)%nat as [->|[->| ->]] by lia.
      - (* round 0: nobody else's message is needed *)
        apply Hkeep. rewrite (E0 i Hi) in E'. destruct (run_same _ _ _ _ E' D ltac:(cbn; lia)) as (_ & _ & _ & HK & _). apply HK.
        intros X. assert (st_received (NewBaseState I (now i) (timeout i) (r0 i)) !! j = Some None) as Y; [|congruence].
        apply init_received. split; auto. now rewrite Rs, Ri.
      - destruct (HM1 j Hj1) as (A1 & A2 & A3). apply (HX (M1 j)); auto. apply SB1. destruct (HA j Hj1); [auto|right; lia].
      - destruct (HM2 j i Hj1 Hi Hj2) as (A1 & A2 & A3). apply (HX (M2 j i)); auto. apply SB2; [destruct (HA j Hj1); [auto|right; lia]|]. apply others_of_In. auto.
    Qed.

    (** Three sweeps are enough, wherever the network is. *)
    Lemma three_sweeps c l1 c1 l2 c2 l3 c3 : net_reach I ids (mkConfig s0 []) c ->
      net_trace I ids c l1 c1 -> sweep ids c l1 -> net_trace I ids c1 l2 c2 -> sweep ids c1 l2 -> net_trace I ids c2 l3 c3 -> sweep ids c2 l3 ->
      (forall i, In i ids -> st_err (cf_state c3 i) = None) -> forall i, In i ids -> st_done (cf_state c3 i) = true.
    Proof.
      intros HR T1 S1 T2 S2 T3 S3 He i Hi.
      pose proof (net_reach_trans I _ _ _ _ HR (trace_reach _ _ _ _ T1)) as R1. pose proof (net_reach_trans I _ _ _ _ R1 (trace_reach _ _ _ _ T2)) as R2.
      pose proof (net_reach_trans I _ _ _ _ R2 (trace_reach _ _ _ _ T3)) as R3.
      assert (forall c l c', net_reach I ids (mkConfig s0 []) c -> net_trace I ids c l c' -> (forall i, In i ids -> st_err (cf_state c' i) = None) ->
                forall i, In i ids -> st_err (cf_state c i) = None) as HB.
      { intros d l d' Hd T H j Hj. destruct (trace_local ids j _ _ _ T) as (o & E & _). destruct (net_local_W I U W ids s0 d UW HO Hd j) as (es & out & HE & E').
        eapply err_stays; [exact E|apply (HL j es _ _ Hj HE E')|auto]. }
      pose proof (HB _ _ _ R2 T3 He) as He2. pose proof (HB _ _ _ R1 T2 He2) as He1.
      assert (at_least 0 c) as A0.
      { intros j Hj. destruct (net_local_W I U W ids s0 c UW HO HR j) as (es & out & HE & E). pose proof (HL j es _ _ Hj HE E) as L.
        destruct (st_done (cf_state c j)) eqn:D; auto. right. destruct (li_P _ _ _ _ _ _ _ L D) as (n & En & _). lia. }
      pose proof (sweep_moves 0 _ _ _ HR T1 S1 He1 ltac:(lia) A0) as A1. pose proof (sweep_moves 1 _ _ _ R1 T2 S2 He2 ltac:(lia) A1) as A2.
      pose proof (sweep_moves 2 _ _ _ R2 T3 S3 He ltac:(lia) A2) as A3. destruct (A3 i Hi) as [D|Hn]; auto.
      destruct (net_local_W I U W ids s0 c3 UW HO R3 i) as (es & out & HE & E). pose proof (HL i es _ _ Hi HE E) as L.
      destruct (st_done (cf_state c3 i)) eqn:D; auto. destruct (li_P _ _ _ _ _ _ _ L D) as (n & En & _ & HP). apply P3 in HP. lia.
    Qed.

    (** A sweep can always be made, without any timeout. *)
    Context (NC : forall c i ev, net_reach I ids (mkConfig s0 []) c -> In i ids -> ev <> ECallback ->
      (forall nw m, ev = EHandle nw m -> exists m0, In m0 (cf_sent c) /\ same_msg m0 m) -> exists s' o, step I (cf_state c i) ev = Ret (s', o)).
    Lemma trace_any c l : net_reach I ids (mkConfig s0 []) c -> (forall i e, In (i, e) l -> In i ids /\ e <> ECallback) ->
      (forall i nw m, In (i, EHandle nw m) l -> In m (cf_sent c)) -> exists c', net_trace I ids c l c'.
    Proof.
      revert c. induction l as [|[i e] l IH]; intros c HR Hl HM; [exists c; constructor|].
      destruct (Hl i e (or_introl eq_refl)) as [Hi He].
      assert (forall nw m, e = EHandle nw m -> exists m0, In m0 (cf_sent c) /\ same_msg m0 m) as HX.
      { intros nw m ->. exists m. split; [apply (HM i nw); now left|now left]. }
      destruct (NC c i e HR Hi He HX) as (s' & o & E).
      destruct (IH (cf_set c i s' o)) as [c' Hc'].
      - eapply net_trans; [exact HR|]. econstructor; eauto.
      - intros j e' Hj. apply Hl. now right.
      - intros j nw m Hj. cbn. apply in_app_iff. left. apply (HM j nw). now right.
      - exists c'. econstructor; eauto.
    Qed.
    Definition one_sweep (ms : list Message) : list (Z * event) :=
      flat_map (fun i => map (fun m => (i, EHandle 0 m)) ms ++ [(i, EProcess [] [])]) ids.
    Lemma one_sweep_events ms i e : In (i, e) (one_sweep ms) -> In i ids /\ (e = EProcess [] [] \/ exists m, e = EHandle 0 m /\ In m ms).
    Proof.
      unfold one_sweep. rewrite in_flat_map. intros (j & Hj & H). apply in_app_iff in H as [H|[H|[]]].
      - apply in_map_iff in H as (m & E & Hm). inversion E; subst. split; auto. right. eauto.
      - inversion H; subst. auto.
    Qed.
    Lemma one_sweep_sweep (c : config (R := R)) : sweep ids c (one_sweep (cf_sent c)).
    Proof.
      intros i Hi. apply in_split in Hi as (x & y & Hx). unfold one_sweep. rewrite Hx, flat_map_app. cbn [flat_map].
      exists (flat_map (fun i => map (fun m => (i, EHandle 0 m)) (cf_sent c) ++ [(i, EProcess [] [])]) x ++ map (fun m => (i, EHandle 0 m)) (cf_sent c)), [], [],
        (flat_map (fun i => map (fun m => (i, EHandle 0 m)) (cf_sent c) ++ [(i, EProcess [] [])]) y). split.
      - now rewrite <- !app_assoc.
      - intros m Hm _ _. exists 0, m. split; [|now left]. apply in_app_iff. right. apply in_map_iff. eauto.
    Qed.
    Lemma sweep_exists c : net_reach I ids (mkConfig s0 []) c -> exists l c', net_trace I ids c l c' /\ sweep ids c l /\ no_callback l.
    Proof.
      intros HR. destruct (trace_any c (one_sweep (cf_sent c)) HR) as [c' Hc'].
      - intros i e H. apply one_sweep_events in H as [Hi [->|(m & -> & _)]]; split; auto; discriminate.
      - intros i nw m H. apply one_sweep_events in H as [_ [X|(m' & X & Hm)]]; [discriminate|]. now inversion X; subst.
      - exists (one_sweep (cf_sent c)), c'. split; auto. split; [apply one_sweep_sweep|].
        intros i e H. apply one_sweep_events in H as [Hi [->|(m & -> & _)]]; discriminate.
    Qed.
    (** Steps other than the timer's callback do not abort. *)
    Context (NE : forall i es es' s1 o1 s out, In i ids -> Forall (event_ok W) (es ++ es') -> Forall (fun e => e <> ECallback) es' ->
      run I (s0 i) es = Ret (s1, o1) -> st_err s1 = None -> run I s1 es' = Ret (s, out) -> st_err s = None).
    Lemma trace_no_error c l c' : net_reach I ids (mkConfig s0 []) c -> net_trace I ids c l c' -> no_callback l ->
      (forall i, In i ids -> st_err (cf_state c i) = None) -> forall i, In i ids -> st_err (cf_state c' i) = None.
    Proof.
      intros HR HT HC He i Hi. pose proof (net_reach_trans I _ _ _ _ HR (trace_reach _ _ _ _ HT)) as HR'.
      pose proof (net_closed I U W ids s0 c UW HO HR) as HF. pose proof (net_closed I U W ids s0 c' UW HO HR') as HF'.
      destruct (net_local_W I U W ids s0 c UW HO HR i) as (es & out & HE & E).
      destruct (trace_local ids i _ _ _ HT) as (o & E' & _).
      apply (NE i es (events_of i l) (cf_state c i) out (cf_state c' i) o Hi); [| |exact E|auto|exact E'].
      - apply Forall_app. split; auto. clear E' HC He. apply List.Forall_forall. intros [nw m| | |] Hin; cbn; auto. apply events_of_In in Hin.
        assert (forall c l c', net_trace I ids c l c' -> forall i nw m, In (i, EHandle nw m) l -> exists m0, In m0 (cf_sent c') /\ same_msg m0 m) as HX.
        { clear. intros c l c' HT. induction HT as [|c j e s' o l c' Hi He E HT IH]; intros i nw m Hin; [contradiction|]. destruct Hin as [X|Hin]; [|eauto].
          inversion X; subst. destruct (He nw m eq_refl) as (m0 & A & B). exists m0. split; auto. apply (trace_sent _ _ _ _ HT). cbn. apply in_app_iff. auto. }
        destruct (HX _ _ _ HT i nw m Hin) as (m0 & A & B). rewrite List.Forall_forall in HF'. eauto.
      - apply List.Forall_forall. intros e Hin. apply events_of_In in Hin. eapply HC; eauto.
    Qed.
    (** From every reachable configuration in which nobody has given up, the protocol can be completed by everybody. *)
    Lemma can_finish c : net_reach I ids (mkConfig s0 []) c -> (forall i, In i ids -> st_err (cf_state c i) = None) ->
      exists l c', net_trace I ids c l c' /\ no_callback l /\ forall i, In i ids -> st_done (cf_state c' i) = true /\ st_err (cf_state c' i) = None.
    Proof.
      intros HR He. destruct (sweep_exists c HR) as (l1 & c1 & T1 & S1 & N1).
      pose proof (net_reach_trans I _ _ _ _ HR (trace_reach _ _ _ _ T1)) as R1. destruct (sweep_exists c1 R1) as (l2 & c2 & T2 & S2 & N2).
      pose proof (net_reach_trans I _ _ _ _ R1 (trace_reach _ _ _ _ T2)) as R2. destruct (sweep_exists c2 R2) as (l3 & c3 & T3 & S3 & N3).
      pose proof (trace_no_error _ _ _ HR T1 N1 He) as He1. pose proof (trace_no_error _ _ _ R1 T2 N2 He1) as He2. pose proof (trace_no_error _ _ _ R2 T3 N3 He2) as He3.
      exists (l1 ++ l2 ++ l3), c3. split; [|split].
      - eapply trace_join; [exact T1|]. eapply trace_join; eauto.
      - intros i e H. apply in_app_iff in H as [H|H]; [eapply N1; eauto|]. apply in_app_iff in H as [H|H]; [eapply N2; eauto|eapply N3; eauto].
      - intros i Hi. split; auto. eapply (three_sweeps c l1 c1 l2 c2 l3 c3); eauto.
    Qed.
  End All.
End NetLive.
