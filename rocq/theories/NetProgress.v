(** Honest parties of a protocol of three rounds can always reach the end together. *)
From Coq Require Import ZArith Lia List Bool String Permutation.
From stdpp Require Import base gmap list fin_maps.
From Verif Require Import ZField Primes Bytes Scalar Go Group Party Poly PolyFacts Zk Eddsa Messages State StateFacts Lift Net Progress.
Import ListNotations.
Local Open Scope Z_scope.

Section NetProgress.
  Context `{Gr : group_ops} {R : Type} (I : RoundI R).

  Lemma net_reach_trans ids (c0 c1 c2 : config) : net_reach I ids c0 c1 -> net_reach I ids c1 c2 -> net_reach I ids c0 c2.
  Proof. intros H1 H2. induction H2; auto. eapply net_trans; eauto. Qed.

  (** A run of one party, given messages already sent, is a network execution. *)
  Lemma net_run ids i es : In i ids -> forall (c : config) s' o, (forall nw m, In (EHandle nw m) es -> In m (cf_sent c)) ->
    run I (cf_state c i) es = Ret (s', o) -> exists c', net_reach I ids c c' /\ cf_state c' i = s' /\ (forall j, j <> i -> cf_state c' j = cf_state c j) /\
      cf_sent c' = cf_sent c ++ o.
  Proof.
    intros Hi. induction es as [|e es IH]; intros c s' o HM E; cbn [run] in E.
    - apply Ret_inj in E. inversion E; subst. exists c. split; [constructor|]. rewrite app_nil_r. auto.
    - apply obind_ret in E as ([s1 o1] & E1 & E2). cbn [fst snd] in E2. apply obind_ret in E2 as ([s2 o2] & E2 & E3). apply Ret_inj in E3. inversion E3; subst. clear E3.
      destruct (IH (cf_set c i s1 o1) s' o2) as (c' & A & B & C & D).
      + intros nw m Hin. cbn. apply in_app_iff. left. apply (HM nw). now right.
      + cbn. rewrite Z.eqb_refl. exact E2.
      + exists c'. split.
        * eapply net_reach_trans; [|exact A]. eapply net_trans; [constructor|]. eapply net_one; eauto. intros nw m ->. exists m. split; [|now left]. apply (HM nw). now left.
        * split; auto. split; [intros j Hj; rewrite C by auto; cbn; now rewrite (proj2 (Z.eqb_neq j i) Hj)|]. rewrite D. cbn. now rewrite app_assoc.
  Qed.
  (** All parties make such a run, one after the other. *)
  Lemma net_phase ids (E : Z -> list event) (Sx : Z -> State R) (O : Z -> list Message) : forall l, incl l ids -> List.NoDup l ->
    forall c, (forall i, In i l -> run I (cf_state c i) (E i) = Ret (Sx i, O i)) -> (forall i nw m, In i l -> In (EHandle nw m) (E i) -> In m (cf_sent c)) ->
    exists c', net_reach I ids c c' /\ (forall i, In i l -> cf_state c' i = Sx i) /\ (forall i, ~ In i l -> cf_state c' i = cf_state c i) /\
      incl (cf_sent c) (cf_sent c') /\ (forall i, In i l -> incl (O i) (cf_sent c')).
  Proof.
    induction l as [|i l IH]; intros Hl ND c HE HM.
    - exists c. split; [constructor|]. repeat split; auto; try contradiction. intros ?; auto.
    - inversion ND as [|? ? Hni ND']; subst.
      destruct (net_run ids i (E i) (Hl i (or_introl eq_refl)) c (Sx i) (O i)) as (c1 & A & B & C & D).
      { intros nw m. apply HM. now left. } { apply HE. now left. }
      destruct (IH ltac:(intros x Hx; apply Hl; now right) ND' c1) as (c2 & A' & B' & C' & D' & F').
      { intros j Hj. rewrite C by (intros ->; auto). apply HE. now right. }
      { intros j nw m Hj Hin. rewrite D. apply in_app_iff. left. apply (HM j nw m); auto. now right. }
      exists c2. split; [eapply net_reach_trans; eauto|]. split; [|split; [|split]].
      + intros j [<-|Hj]; [rewrite C' by auto; exact B|auto].
      + intros j Hj. rewrite C' by (intros X; apply Hj; now right). apply C. intros ->. apply Hj. now left.
      + intros m Hm. apply D'. rewrite D. apply in_app_iff. auto.
      + intros j [<-|Hj]; [|auto]. intros m Hm. apply D'. rewrite D. apply in_app_iff. auto.
  Qed.

  Section All.
    Context (ROK : round_ok I) (ids : list Z) (HS : sorted ids) (HV : valid_ids ids).
    Context (W : Message -> Prop) (now timeout : Z -> Z) (r0 : Z -> R) (P : Z -> nat -> R -> list Message -> Prop) (F : Z -> R -> option PError -> list Message -> Prop).
    Context (s0 : Z -> State R) (E0 : forall i, In i ids -> s0 i = NewBaseState I (now i) (timeout i) (r0 i)).
    Context (R0 : forall i, In i ids -> r_self I (r0 i) = i /\ r_ids I (r0 i) = ids).
    Context (HL : forall i es s out, In i ids -> Forall (event_ok W) es -> run I (s0 i) es = Ret (s, out) -> linv I W (r0 i) (P i) (F i) s out).
    Context (NP : forall i sched sched' es, In i ids -> Forall (event_ok W) es -> exists s out, run I (s0 i) (EProcess sched sched' :: es) = Ret (s, out)).
    Context (P3 : forall i n r out, P i n r out -> (n < 3)%nat).
    Context (t0 t1 t2 : Z) (TY : forall i, In i ids -> r_accepted I (r0 i) = [t0; t1; t2]).
    (** The honest messages. *)
    Context (M1 : Z -> Message) (M2 : Z -> Z -> Message).
    Context (HM1 : forall i, In i ids -> W (M1 i) /\ m_From (M1 i) = i /\ m_Type (M1 i) = t1 /\ m_To (M1 i) = 0).
    Context (HM2 : forall i j, In i ids -> In j ids -> i <> j -> W (M2 i j) /\ m_From (M2 i j) = i /\ m_Type (M2 i j) = t2 /\ (m_To (M2 i j) = 0 \/ m_To (M2 i j) = j)).
    Context (O1 : forall i n r out, In i ids -> P i n r out -> (1 <= n)%nat -> In (M1 i) out).
    Context (O2 : forall i n r out, In i ids -> P i n r out -> (2 <= n)%nat -> forall j, In j (others_of i ids) -> In (M2 i j) out).
    Context (OF : forall i r out, In i ids -> F i r None out -> In (M1 i) out /\ forall j, In j (others_of i ids) -> In (M2 i j) out).
    Context (NE : forall i es s out, In i ids -> Forall (event_ok W) es -> Forall (fun e => e <> ECallback) es -> run I (s0 i) es = Ret (s, out) -> st_err s = None).

    Notation ms1 i := (map M1 (others_of i ids)).
    Notation ms2 i := (map (fun j => M2 j i) (others_of i ids)).
    Lemma all_full1 i : In i ids -> full_set i (others_of i ids) t1 (ms1 i) /\ Forall W (ms1 i).
    Proof.
      intros Hi. split; [split|].
      - rewrite map_map. rewrite (map_ext_in _ id); [now rewrite map_id|]. intros j Hj. apply others_of_In in Hj as [Hj _]. apply HM1; auto.
      - apply List.Forall_forall. intros m Hm. apply in_map_iff in Hm as (j & <- & Hj). apply others_of_In in Hj as [Hj _]. apply HM1; auto.
      - apply List.Forall_forall. intros m Hm. apply in_map_iff in Hm as (j & <- & Hj). apply others_of_In in Hj as [Hj _]. left. apply HM1; auto.
      - apply List.Forall_forall. intros m Hm. apply in_map_iff in Hm as (j & <- & Hj). apply others_of_In in Hj as [Hj _]. apply HM1; auto.
    Qed.
    Lemma all_full2 i : In i ids -> full_set i (others_of i ids) t2 (ms2 i) /\ Forall W (ms2 i).
    Proof.
      intros Hi. split; [split|].
      - rewrite map_map. rewrite (map_ext_in _ id); [now rewrite map_id|]. intros j Hj. apply others_of_In in Hj as [Hj Hne]. apply HM2; auto.
      - apply List.Forall_forall. intros m Hm. apply in_map_iff in Hm as (j & <- & Hj). apply others_of_In in Hj as [Hj Hne]. apply HM2; auto.
      - apply List.Forall_forall. intros m Hm. apply in_map_iff in Hm as (j & <- & Hj). apply others_of_In in Hj as [Hj Hne]. apply HM2; auto.
      - apply List.Forall_forall. intros m Hm. apply in_map_iff in Hm as (j & <- & Hj). apply others_of_In in Hj as [Hj Hne]. apply HM2; auto.
    Qed.

    (** Stage by stage: the events, States and outputs of party i when every round is complete before the next one. *)
    Definition stage0 : list event := [EProcess [] []].
    Definition stage1 (i : Z) : list event := map (EHandle 0) (ms1 i) ++ [EProcess [] []].
    Definition stage2 (i : Z) : list event := map (EHandle 0) (ms2 i) ++ [EProcess [] []].
    Lemma all_events (l : list Message) : Forall W l -> Forall (event_ok W) (map (EHandle 0) l ++ [EProcess [] []]).
    Proof.
      intros Hl. apply Forall_app. split; [|constructor; cbn; auto]. apply List.Forall_forall. intros e He. apply in_map_iff in He as (m & <- & Hm).
      cbn. rewrite List.Forall_forall in Hl. auto.
    Qed.
    Lemma all_nocb (l : list Message) : Forall (fun e : event => e <> ECallback) (map (EHandle 0) l ++ [EProcess [] []]).
    Proof.
      apply Forall_app. split; [|constructor; auto; discriminate]. apply List.Forall_forall. intros e He. apply in_map_iff in He as (m & <- & Hm). discriminate.
    Qed.

    Record stages (i : Z) (x : State R * list Message * (State R * list Message) * (State R * list Message)) : Prop := {
      sg_0 : run I (s0 i) stage0 = Ret (x.1.1.1, x.1.1.2);
      sg_1 : run I x.1.1.1 (stage1 i) = Ret (x.1.2.1, x.1.2.2);
      sg_2 : run I x.1.2.1 (stage2 i) = Ret (x.2.1, x.2.2);
      sg_o1 : In (M1 i) x.1.1.2;
      sg_o2 : forall j, In j (others_of i ids) -> In (M2 i j) (x.1.1.2 ++ x.1.2.2);
      sg_done : st_done x.2.1 = true /\ st_err x.2.1 = None
    }.
    Lemma stages_exist i : In i ids -> exists x, stages i x.
    Proof.
      intros Hi. destruct (all_full1 i Hi) as [FS1 W1]. destruct (all_full2 i Hi) as [FS2 W2]. destruct (R0 i Hi) as [Rs Ri].
      destruct (NP i [] [] (stage1 i ++ stage2 i) Hi) as (s3 & out & E).
      { apply Forall_app. split; apply all_events; auto. }
      change (EProcess [] [] :: stage1 i ++ stage2 i) with (stage0 ++ stage1 i ++ stage2 i) in E.
      assert (st_done s3 = true) as D.
      { eapply (sync_done I W (now i) (timeout i) (r0 i) (P i) (F i)); [intros es s o; rewrite <- E0 by auto; now apply HL|apply P3|now apply TY|
          now rewrite Ri|now rewrite Ri|now rewrite Rs, Ri| | | | |rewrite <- E0 by auto; exact E]; rewrite ?Rs, ?Ri; eauto. }
      rewrite run_app in E. apply obind_ret in E as ([s1 o1] & E1 & E). apply obind_ret in E as ([s3' o3] & E & E4). apply Ret_inj in E4. inversion E4; subst s3' out. clear E4. cbn [fst snd] in *.
      rewrite run_app in E. apply obind_ret in E as ([s2 o2] & E2 & E). apply obind_ret in E as ([s3' o4] & E & E4). apply Ret_inj in E4. inversion E4; subst s3' o3. clear E4. cbn [fst snd] in *.
      assert (Forall (event_ok W) stage0) as HE0 by (constructor; cbn; auto).
      assert (Forall (fun e : event => e <> ECallback) stage0) as HC0 by (constructor; auto; discriminate).
      assert (run I (s0 i) (stage0 ++ stage1 i) = Ret (s2, o1 ++ o2)) as E12. { rewrite run_app, E1. cbn [obind fst snd]. now rewrite E2. }
      assert (run I (s0 i) ((stage0 ++ stage1 i) ++ stage2 i) = Ret (s3, (o1 ++ o2) ++ o4)) as E123. { rewrite run_app, E12. cbn [obind fst snd]. now rewrite E. }
      assert (Forall (event_ok W) (stage0 ++ stage1 i)) as HE1. { apply Forall_app. split; auto. apply all_events; auto. }
      assert (Forall (fun e : event => e <> ECallback) (stage0 ++ stage1 i)) as HC1. { apply Forall_app. split; auto. apply all_nocb; auto. }
      pose proof (HL i _ _ _ Hi HE0 E1) as L1. pose proof (HL i _ _ _ Hi HE1 E12) as L2.
      pose proof (NE i _ _ _ Hi HE0 HC0 E1) as Er1. pose proof (NE i _ _ _ Hi HE1 HC1 E12) as Er2.
      (* round numbers *)
      assert (st_done s1 = false -> st_roundNumber s1 = 1 /\ st_received s1 = ∅ /\ st_queue s1 = []) as N1.
      { intros D1. eapply (stage0_step I (now i) (timeout i) (r0 i) t0 t1 t2); [now apply TY|now rewrite Ri|now rewrite Rs, Ri|rewrite <- E0 by auto; exact E1|exact D1]. }
      assert (st_done s2 = false -> st_roundNumber s2 = 2) as N2.
      { intros D2. pose proof (run_not_done _ _ _ _ _ E2 D2) as D1. destruct (N1 D1) as (X1 & X2 & X3).
        pose proof (li_self _ _ _ _ _ _ _ L1) as Es1. pose proof (li_ids _ _ _ _ _ _ _ L1) as Ei1. rewrite Rs in Es1. rewrite Ri in Ei1.
        destruct (li_P _ _ _ _ _ _ _ L1 D1) as (n & En & Ea & _). assert (n = 1)%nat as -> by lia. rewrite TY in Ea by auto.
        destruct (round_step I s1 (ms1 i) 0 [] [] s2 o2 t1 [t2]) as [X|(Y1 & _)]; auto; try (rewrite ?Es1, ?Ei1; auto; fail).
        - apply L1.
        - unfold others_s. now rewrite Es1, Ei1.
        - congruence.
        - lia. }
      exists (s1, o1, (s2, o2), (s3, o4)). split; cbn [fst snd]; auto.
      - destruct (st_done s1) eqn:D1.
        + pose proof (li_F _ _ _ _ _ _ _ L1 D1) as HF. rewrite Er1 in HF. apply (OF i _ _ Hi HF).
        + destruct (li_P _ _ _ _ _ _ _ L1 D1) as (n & En & _ & HP). destruct (N1 eq_refl). eapply O1; eauto. lia.
      - intros j Hj. destruct (st_done s2) eqn:D2.
        + pose proof (li_F _ _ _ _ _ _ _ L2 D2) as HF. rewrite Er2 in HF. apply (OF i _ _ Hi HF); auto.
        + destruct (li_P _ _ _ _ _ _ _ L2 D2) as (n & En & _ & HP). pose proof (N2 eq_refl). eapply O2; eauto. lia.
      - split; auto. eapply (NE i _ _ _ Hi); [| |exact E123].
        + apply Forall_app. split; auto. apply all_events; auto.
        + apply Forall_app. split; auto. apply all_nocb.
    Qed.

    Lemma choice_ids {A} (Q : Z -> A -> Prop) l (d : A) : (forall i, In i l -> exists x, Q i x) -> exists f, forall i, In i l -> Q i (f i).
    Proof.
      induction l as [|i l IH]; intros H; [exists (fun _ => d); intros i []|].
      destruct (H i (or_introl eq_refl)) as [x Hx]. destruct IH as [f Hf]; [intros j Hj; apply H; now right|].
      exists (fun j => if j =? i then x else f j). intros j Hj. destruct (Z.eqb_spec j i) as [->|Hne]; auto. destruct Hj as [->|Hj]; [congruence|auto].
    Qed.

    Lemma net_completes : exists c, net_reach I ids (mkConfig s0 []) c /\ forall i, In i ids -> st_done (cf_state c i) = true /\ st_err (cf_state c i) = None.
    Proof.
      destruct (choice_ids stages ids (s0 0, [], (s0 0, []), (s0 0, [])) stages_exist) as [x Hx]. pose proof (proj1 HV) as ND.
      destruct (net_phase ids (fun _ => stage0) (fun i => (x i).1.1.1) (fun i => (x i).1.1.2) ids ltac:(intros ?; auto) ND (mkConfig s0 [])) as (c1 & A1 & B1 & _ & _ & D1).
      { intros i Hi. apply (Hx i Hi). } { intros i nw m Hi [X|[]]. discriminate. }
      destruct (net_phase ids stage1 (fun i => (x i).1.2.1) (fun i => (x i).1.2.2) ids ltac:(intros ?; auto) ND c1) as (c2 & A2 & B2 & _ & C2 & D2).
      { intros i Hi. rewrite B1 by auto. apply (Hx i Hi). }
      { intros i nw m Hi Hin. apply in_app_iff in Hin as [Hin|[X|[]]]; [|discriminate]. apply in_map_iff in Hin as (m' & Em & Hin). inversion Em; subst m' nw.
        apply in_map_iff in Hin as (j & <- & Hj). apply others_of_In in Hj as [Hj _]. apply (D1 j Hj). apply (sg_o1 j (x j) (Hx j Hj)). }
      destruct (net_phase ids stage2 (fun i => (x i).2.1) (fun i => (x i).2.2) ids ltac:(intros ?; auto) ND c2) as (c3 & A3 & B3 & _ & C3 & D3).
      { intros i Hi. rewrite B2 by auto. apply (Hx i Hi). }
      { intros i nw m Hi Hin. apply in_app_iff in Hin as [Hin|[X|[]]]; [|discriminate]. apply in_map_iff in Hin as (m' & Em & Hin). inversion Em; subst m' nw.
        apply in_map_iff in Hin as (j & <- & Hj). apply others_of_In in Hj as [Hj Hne].
        assert (In (M2 j i) ((x j).1.1.2 ++ (x j).1.2.2)) as X. { apply (sg_o2 j (x j) (Hx j Hj)). apply others_of_In. auto. }
        apply in_app_iff in X as [X|X]; [apply C2; apply (D1 j Hj); auto|apply (D2 j Hj); auto]. }
      exists c3. split; [eapply net_reach_trans; [exact A1|]; eapply net_reach_trans; eauto|]. intros i Hi. rewrite B3 by auto. apply (Hx i Hi).
    Qed.
  End All.
End NetProgress.
