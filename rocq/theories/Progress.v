(** Synchronous progress: a State that is given all messages of its rounds finishes. *)
From Coq Require Import ZArith Lia List Bool String Permutation.
From stdpp Require Import base gmap list fin_maps.
From Verif Require Import ZField Primes Bytes Scalar Go Group Party Poly PolyFacts Zk Eddsa Messages State StateFacts Lift.
Import ListNotations.
Local Open Scope Z_scope.

Section Progress.
  Context `{Gr : group_ops} {R : Type} (I : RoundI R) (ROK : round_ok I).

  (** Where the error of a run without timeout comes from. *)
  Lemma process_loop_err rcv ks : forall r r' c t, process_loop I r rcv ks = RErr r' c t -> exists r1 m, r_process I r1 m = RErr r' c t.
  Proof.
    induction ks as [|k ks IH]; intros r r' c t; cbn [process_loop]; [discriminate|].
    destruct (r_process I r _) as [r1 u|r1 c1 t1|w] eqn:E; [apply IH| |discriminate]. intros X. rewrite X in E. eauto.
  Qed.
  Lemma run_err_source es : forall s s' out e, run I s es = Ret (s', out) -> inv I s -> st_err s = None -> st_err s' = Some e ->
    Forall (fun ev => ev <> ECallback) es ->
    (exists r m r' c, r_process I r m = RErr r' c (pe_text e)) \/ (exists sched r r' c, r_generate I sched r = RErr r' c (pe_text e)).
  Proof.
    induction es as [|ev es IH]; intros s s' out e E HI H0 HE HF; cbn [run] in E.
    - apply Ret_inj in E. inversion E; subst. congruence.
    - apply obind_ret in E as ([s1 o1] & E1 & E2). cbn [fst snd] in E2. apply obind_ret in E2 as ([s2 o2] & E2 & E3). apply Ret_inj in E3. inversion E3; subst s2. clear E3.
      inversion HF as [|? ? Hev HF']; subst.
      pose proof (inv_step I ROK s ev s1 o1 HI E1) as HI1.
      assert (st_done s1 = true -> s' = s1 \/ st_err s' = st_err s1) as Hdone.
      { intros D. right. clear - E2 D ROK. revert s1 o2 E2 D. induction es as [|ev es IH]; intros s1 o2 E2 D; cbn [run] in E2.
        - apply Ret_inj in E2. now inversion E2.
        - apply obind_ret in E2 as ([s3 o3] & E3 & E4). cbn [fst snd] in E4. apply obind_ret in E4 as ([s4 o4] & E4 & E5). apply Ret_inj in E5. inversion E5; subst s4. clear E5.
          assert (st_err s3 = st_err s1 /\ st_done s3 = true) as [A B].
          { destruct ev as [nw m|sched sched'|nw|]; cbn [step] in E3.
            - apply Ret_inj in E3. inversion E3; subst. destruct (handle_cases I nw s1 m) as [->|(_ & D' & _)]; auto. congruence.
            - apply process_cases in E3. destruct E3 as [-> _ _|? ? ? D' _ _ _ _|? ? ? ? D' _ _ _ _ _|? ? ? ? ? ? D' _ _ _ _ _ _]; auto; congruence.
            - apply Ret_inj in E3. inversion E3; subst. unfold timerExpire. destruct (tm_deadline _); [destruct (_ <=? _)|]; auto.
            - apply obind_ret in E3 as (s4 & E3 & E5). apply Ret_inj in E5. inversion E5; subst. unfold timerCallback in E3.
              destruct (tm_pending _); [apply Ret_inj in E3; subst; auto|]. unfold reportError in E3. cbn [st_done] in E3. rewrite D in E3. apply Ret_inj in E3. subst. auto. }
          rewrite (IH s3 o4 E4 B). exact A. }
      assert (st_done s = false \/ st_done s = true) as [D|D] by (destruct (st_done s); auto).
      2:{ (* already finished without error *)
        exfalso. assert (st_done s1 = true /\ st_err s1 = st_err s) as [D1 Ee].
        { destruct ev as [nw m|sched sched'|nw|]; cbn [step] in E1; [| | |congruence].
          - apply Ret_inj in E1. inversion E1; subst. destruct (handle_cases I nw s m) as [->|(_ & D' & _)]; auto. congruence.
          - apply process_cases in E1. destruct E1 as [-> _ _|? ? ? D' _ _ _ _|? ? ? ? D' _ _ _ _ _|? ? ? ? ? ? D' _ _ _ _ _ _]; auto; congruence.
          - apply Ret_inj in E1. inversion E1; subst. unfold timerExpire. destruct (tm_deadline _); [destruct (_ <=? _)|]; auto. }
        destruct (Hdone D1) as [->|X]; congruence. }
      destruct ev as [nw m|sched sched'|nw|]; cbn [step] in E1; [| | |congruence].
      + apply Ret_inj in E1. inversion E1; subst o1. assert (st_err s1 = None) as Ee.
        { rewrite <- H0. replace s1 with (fst (HandleMessage I nw s m)) by congruence.
          destruct (handle_cases I nw s m) as [->|(_ & _ & _ & _ & _ & _ & ct & tl & _ & [[_ ->]|(_ & _ & ->)])]; auto. }
        eapply IH; eauto.
      + apply process_cases in E1. destruct E1 as [-> _ _|r c t _ HS EP ER _|r r' c t _ HS EP EG ER _|r r' ct tl rcv q _ HS EP EG EA EQ EN].
        * eapply IH; eauto.
        * apply reportError_ret in ER as (r2 & _ & _ & ->); [|exact D|exact H0]. destruct (Hdone eq_refl) as [->|X].
          -- cbn in HE. inversion HE; subst e. left. apply process_loop_err in EP as (r1 & m & EP). cbn. eauto.
          -- rewrite X in HE. cbn in HE. inversion HE; subst e. left. apply process_loop_err in EP as (r1 & m & EP). cbn. eauto.
        * apply reportError_ret in ER as (r2 & _ & _ & ->); [|exact D|exact H0]. destruct (Hdone eq_refl) as [->|X].
          -- cbn in HE. inversion HE; subst e. right. cbn. eauto.
          -- rewrite X in HE. cbn in HE. inversion HE; subst e. right. cbn. eauto.
        * assert (st_err s1 = None) as Ee.
          { destruct (r_next I r'); [subst s1; exact H0|]. apply finish_ret in EN as (r2 & _ & _ & ->); auto. }
          eapply IH; eauto.
      + apply Ret_inj in E1. inversion E1; subst. eapply IH; eauto. unfold timerExpire. destruct (tm_deadline _); [destruct (_ <=? _)|]; auto.
  Qed.

  (** ** Delivering a round *)
  Definition others_s (s : State R) : list Z := others_of (r_self I (st_round s)) (r_ids I (st_round s)).
  (** A full set of messages of the current type, one per other party, sent to us. *)
  Record full_set (self : Z) (others : list Z) (ct : Z) (ms : list Message) : Prop := {
    fs_from : Permutation (map m_From ms) others;
    fs_type : Forall (fun m => m_Type m = ct) ms;
    fs_to : Forall (fun m => m_To m = 0 \/ m_To m = self) ms
  }.

  Lemma deliver nw ms : forall s ct tl, st_done s = false -> st_accepted s = ct :: tl -> sorted (r_ids I (st_round s)) ->
    (forall m, In m ms -> m_Type m = ct /\ (m_To m = 0 \/ m_To m = r_self I (st_round s)) /\ In (m_From m) (others_s s) /\ st_received s !! m_From m = None) ->
    List.NoDup (map m_From ms) ->
    exists s', run I s (map (EHandle nw) ms) = Ret (s', []) /\ st_done s' = false /\ st_accepted s' = st_accepted s /\ st_queue s' = st_queue s /\
      st_roundNumber s' = st_roundNumber s /\ st_round s' = st_round s /\ st_err s' = st_err s /\
      size (st_received s') = (size (st_received s) + List.length ms)%nat.
  Proof.
    induction ms as [|m ms IH]; intros s ct tl D EA HS HM ND.
    - exists s. cbn. repeat split; auto.
    - cbn [map] in *. inversion ND as [|? ? Hni ND']; subst. destruct (HM m (or_introl eq_refl)) as (Ht & Hto & Hin & Hrc).
      apply others_of_In in Hin as [Hin Hne].
      set (s1 := mkState (st_accepted s) (<[m_From m := Some m]> (st_received s)) (st_queue s) (ackMessage nw (st_timer s))
                (st_roundNumber s) (st_round s) (st_closed s) (st_done s) (st_err s)).
      assert (HandleMessage I nw s m = (s1, None)) as EH.
      { unfold HandleMessage. rewrite D, EA. apply Z.eqb_neq in Hne as Hne'. rewrite Hne'.
        assert (negb (IsBroadcast (m_Header m)) && negb (m_To m =? r_self I (st_round s)) = false) as ->.
        { unfold IsBroadcast. fold (m_To m). destruct Hto as [->| ->]; [reflexivity|]. rewrite Z.eqb_refl. now rewrite andb_false_r. }
        rewrite (proj2 (Contains_In _ _ HS) Hin). cbn [negb]. rewrite Hrc.
        unfold isAcceptedType. rewrite EA. cbn [existsb]. rewrite Ht, Z.eqb_refl. cbn [orb negb]. unfold s1. now rewrite D, EA. }
      destruct (IH s1 ct tl) as (s' & E & P1 & P2 & P3 & P4 & P5 & P6 & P7); auto.
      { intros m' Hm'. destruct (HM m' (or_intror Hm')) as (A & B & C & E). split; auto. split; auto. split; auto.
        unfold s1. cbn. rewrite lookup_insert_ne; auto. intros X. apply Hni. rewrite X. now apply in_map. }
      exists s'. cbn [run step]. rewrite EH. cbn [fst snd obind]. rewrite E. cbn. split; [reflexivity|]. split; auto. split; [rewrite P2; reflexivity|]. split; [rewrite P3; reflexivity|].
      split; auto. split; auto. split; auto. rewrite P7. unfold s1. cbn [st_received]. rewrite map_size_insert_None by exact Hrc. cbn. lia.
  Qed.

  (** One complete round: deliver everything, then ProcessAll. *)
  Lemma round_step s ms nw a b s' o ct tl : inv I s -> st_done s = false -> st_accepted s = ct :: tl -> st_received s = ∅ -> st_queue s = [] ->
    sorted (r_ids I (st_round s)) -> valid_ids (r_ids I (st_round s)) -> In (r_self I (st_round s)) (r_ids I (st_round s)) ->
    full_set (r_self I (st_round s)) (others_s s) ct ms ->
    run I s (map (EHandle nw) ms ++ [EProcess a b]) = Ret (s', o) ->
    st_done s' = true \/ (st_roundNumber s' = st_roundNumber s + 1 /\ st_received s' = ∅ /\ st_queue s' = [] /\ st_done s' = false).
  Proof.
    intros HI D EA ER0 EQ0 HS HV Hself HF E.
    assert (List.NoDup (map m_From ms)) as ND. { eapply Permutation_NoDup; [symmetry; apply HF|]. apply others_of_NoDup. apply HV. }
    destruct (deliver nw ms s ct tl D EA HS) as (s1 & E1 & P1 & P2 & P3 & P4 & P5 & P6 & P7); auto.
    { intros m Hm. destruct HF as [F1 F2 F3]. rewrite List.Forall_forall in F2, F3. split; [apply F2; auto|]. split; [apply F3; auto|].
      split; [apply (Permutation_in _ F1); now apply in_map|]. rewrite ER0. apply lookup_empty. }
    rewrite run_app, E1 in E. cbn [obind fst snd run] in E. apply obind_ret in E as ([s2 o2] & E & E3). apply obind_ret in E as ([s3 o3] & E & E4).
    cbn in E4. apply Ret_inj in E4. inversion E4; subst s3. clear E4. cbn in E3. apply Ret_inj in E3. inversion E3; subst s2. clear E3. cbn [step] in E.
    apply process_cases in E. destruct E as [-> _ X|r c t _ HS1 EP ER _|r r' c t _ HS1 EP EG ER _|r r' ct' tl' rcv q _ HS1 EP EG EA1 EQ EN].
    - exfalso. destruct X as [X|X]; [congruence|]. apply X. rewrite P5, P7, ER0, map_size_empty.
      pose proof (Permutation_length (fs_from _ _ _ _ HF)) as HL. rewrite map_length in HL. rewrite HL. unfold others_s.
      pose proof (others_of_length _ _ (proj1 HV) Hself) as Ho.
      assert (Z.of_nat (List.length (r_ids I (st_round s))) < 65536) as Hlt.
      { destruct HV as [ND' F]. assert (List.length (r_ids I (st_round s)) <= List.length (map Z.of_nat (seq 1 (Z.to_nat 65535))))%nat as Hl.
        { apply List.NoDup_incl_length; [exact ND'|]. intros i Hi. apply in_map_iff. exists (Z.to_nat i).
          rewrite List.Forall_forall in F. specialize (F i Hi). cbv beta in F. split; [lia|]. apply in_seq. lia. }
        rewrite map_length, seq_length in Hl. lia. }
      unfold N_ids, u16. rewrite (Z.mod_small (Z.of_nat _)) by lia. rewrite Z.mod_small by lia. lia.
    - left. unfold reportError in ER. cbn [set_round st_done] in ER. rewrite P1 in ER. apply finish_ret in ER as (r2 & _ & _ & ->); auto.
    - left. unfold reportError in ER. cbn [st_done] in ER. rewrite P1 in ER. apply finish_ret in ER as (r2 & _ & _ & ->); auto.
    - destruct (r_next I r') as [nr|].
      + right. subst s'. cbn. rewrite P3, EQ0 in EQ. destruct tl'; cbn in EQ; inversion EQ; subst; rewrite P4; auto.
      + left. apply finish_ret in EN as (r2 & _ & _ & ->); auto.
  Qed.

  Lemma run_not_done s es s' o : run I s es = Ret (s', o) -> st_done s' = false -> st_done s = false.
  Proof.
    revert s o. induction es as [|e es IH]; intros s o; cbn [run].
    - intros E. apply Ret_inj in E. now inversion E.
    - intros E D. apply obind_ret in E as ([s1 o1] & E1 & E2). cbn [fst snd] in E2. apply obind_ret in E2 as ([s2 o2] & E2 & E3). apply Ret_inj in E3. inversion E3; subst s2.
      pose proof (IH _ _ E2 D) as D1. destruct (st_done s) eqn:D0; auto. exfalso.
      destruct e as [nw m|sched sched'|nw|]; cbn [step] in E1.
      + apply Ret_inj in E1. inversion E1; subst. destruct (handle_cases I nw s m) as [X|(_ & D' & _)]; congruence.
      + apply process_cases in E1. destruct E1 as [-> _ _|? ? ? D' _ _ _ _|? ? ? ? D' _ _ _ _ _|? ? ? ? ? ? D' _ _ _ _ _ _]; congruence.
      + apply Ret_inj in E1. inversion E1; subst. unfold timerExpire in D1. destruct (tm_deadline _); [destruct (_ <=? _)|]; cbn in D1; congruence.
      + apply obind_ret in E1 as (s4 & E1' & E5). apply Ret_inj in E5. inversion E5; subst. unfold timerCallback in E1'.
        destruct (tm_pending _); [apply Ret_inj in E1'; subst; congruence|]. unfold reportError in E1'. cbn [st_done] in E1'. rewrite D0 in E1'. apply Ret_inj in E1'. subst. cbn in D1. congruence.
  Qed.

  (** ** A protocol of three rounds (0, 1, 2) whose first round receives nothing *)
  Section Three.
    Context (W : Message -> Prop) (now timeout : Z) (r0 : R) (P : nat -> R -> list Message -> Prop) (F : R -> option PError -> list Message -> Prop).
    Context (HL : forall es s out, Forall (event_ok W) es -> run I (NewBaseState I now timeout r0) es = Ret (s, out) -> linv I W r0 P F s out).
    Context (P3 : forall n r out, P n r out -> (n < 3)%nat).
    Context (t0 t1 t2 : Z) (TY : r_accepted I r0 = [t0; t1; t2]).
    Notation self := (r_self I r0).
    Notation ids := (r_ids I r0).
    Context (HS : sorted ids) (HV : valid_ids ids) (Hself : In self ids).
    Context (a0 b0 a1 b1 a2 b2 : list Z) (nw1 nw2 : Z) (ms1 ms2 : list Message).
    Context (FS1 : full_set self (others_of self ids) t1 ms1) (FS2 : full_set self (others_of self ids) t2 ms2).
    Context (W1 : Forall W ms1) (W2 : Forall W ms2).
    Definition sync_history : list event :=
      [EProcess a0 b0] ++ (map (EHandle nw1) ms1 ++ [EProcess a1 b1]) ++ (map (EHandle nw2) ms2 ++ [EProcess a2 b2]).

    Lemma init_size : Z.of_nat (size (st_received (NewBaseState I now timeout r0))) = u16 (N_ids ids - 1).
    Proof.
      pose proof (others_of_length _ _ (proj1 HV) Hself) as Ho.
      assert (Z.of_nat (List.length ids) < 65536) as Hlt.
      { destruct HV as [ND' Fa]. assert (List.length ids <= List.length (map Z.of_nat (seq 1 (Z.to_nat 65535))))%nat as Hl.
        { apply List.NoDup_incl_length; [exact ND'|]. intros i Hi. apply in_map_iff. exists (Z.to_nat i).
          rewrite List.Forall_forall in Fa. specialize (Fa i Hi). cbv beta in Fa. split; [lia|]. apply in_seq. lia. }
        rewrite map_length, seq_length in Hl. lia. }
      assert (Permutation (map_keys [] (st_received (NewBaseState I now timeout r0))) (others_of self ids)) as HP.
      { apply Permutation.NoDup_Permutation; [apply map_keys_NoDup|apply others_of_NoDup, HV|]. intros i. rewrite map_keys_In. split.
        - intros [v Hv]. now apply init_received in Hv as [_ Hv].
        - intros Hi. exists None. apply init_received. auto. }
      apply Permutation_length in HP. rewrite map_keys_length in HP. unfold N_ids, u16. rewrite (Z.mod_small (Z.of_nat _)) by lia. rewrite Z.mod_small by lia.
      cbn [NewBaseState] in HP |- *. lia.
    Qed.

    Lemma stage0_step s1 o1 a b : run I (NewBaseState I now timeout r0) [EProcess a b] = Ret (s1, o1) -> st_done s1 = false ->
      st_roundNumber s1 = 1 /\ st_received s1 = ∅ /\ st_queue s1 = [].
    Proof.
      intros E1 D1. cbn [run step] in E1. apply obind_ret in E1 as ([s5 o5] & E1 & E5). cbn in E5. apply Ret_inj in E5. inversion E5; subst s5. clear E5.
      apply process_cases in E1. destruct E1 as [-> _ X|r c t _ HS1 EP ER _|r r' c t _ HS1 EP EG ER _|r r' ct' tl' rcv q _ HS1 EP EG EA1 EQ EN].
      - exfalso. destruct X as [X|X]; [discriminate|]. apply X. exact init_size.
      - unfold reportError in ER. cbn in ER. apply obind_ret in ER as (r2 & _ & ER). apply Ret_inj in ER. subst s1. discriminate.
      - unfold reportError in ER. cbn in ER. apply obind_ret in ER as (r2 & _ & ER). apply Ret_inj in ER. subst s1. discriminate.
      - cbn in EA1. rewrite TY in EA1. inversion EA1; subst. cbn in EQ. inversion EQ; subst. destruct (r_next I r').
        + subst s1. cbn. auto.
        + apply finish_ret in EN as (r2 & _ & _ & ->); auto. discriminate.
    Qed.

    Lemma sync_done s out : run I (NewBaseState I now timeout r0) sync_history = Ret (s, out) -> st_done s = true.
    Proof.
      intros E. destruct (st_done s) eqn:D; auto. exfalso. unfold sync_history in E.
      assert (forall (l : list Message) nw, Forall W l -> Forall (event_ok W) (map (EHandle nw) l)) as HEV.
      { intros l nw Hl. apply List.Forall_forall. intros e He. apply in_map_iff in He as (m & <- & Hm). cbn. rewrite List.Forall_forall in Hl. auto. }
      assert (forall a b, Forall (event_ok W) [EProcess a b]) as HEP. { intros. constructor; [exact Logic.I|constructor]. }
      rewrite run_app in E. apply obind_ret in E as ([s1 o1] & E1 & E). apply obind_ret in E as ([s3 o3] & E & E4). apply Ret_inj in E4. inversion E4; subst s3. clear E4. cbn [fst] in E.
      rewrite run_app in E. apply obind_ret in E as ([s2 o2] & E2 & E). apply obind_ret in E as ([s4 o4] & E & E4). apply Ret_inj in E4. inversion E4; subst s4. clear E4. cbn [fst] in E.
      pose proof (run_not_done _ _ _ _ E D) as D2. pose proof (run_not_done _ _ _ _ E2 D2) as D1.
      pose proof (HL _ _ _ (HEP a0 b0) E1) as L1.
      destruct (stage0_step s1 o1 a0 b0 E1 D1) as (N1 & R1 & Q1).
      assert (forall sx ox n, linv I W r0 P F sx ox -> st_done sx = false -> st_roundNumber sx = Z.of_nat n -> st_accepted sx = skipn n [t0; t1; t2]) as HAcc.
      { intros sx ox n Lx Dx Nx. destruct (li_P _ _ _ _ _ _ _ Lx Dx) as (n' & En & Ea & _). assert (n' = n) as -> by lia. now rewrite <- TY. }
      pose proof (li_self _ _ _ _ _ _ _ L1) as Es1. pose proof (li_ids _ _ _ _ _ _ _ L1) as Ei1.
      assert (st_roundNumber s2 = 2 /\ st_received s2 = ∅ /\ st_queue s2 = []) as (N2 & R2 & Q2).
      { destruct (round_step s1 ms1 nw1 a1 b1 s2 o2 t1 [t2]) as [X|(X1 & X2 & X3 & _)]; auto; try (rewrite ?Es1, ?Ei1; auto; fail).
        - apply L1.
        - apply (HAcc s1 _ 1%nat L1 D1 N1).
        - unfold others_s. now rewrite Es1, Ei1.
        - congruence.
        - split; [lia|auto]. }
      assert (linv I W r0 P F s2 (o1 ++ o2)) as L2.
      { apply (HL ([EProcess a0 b0] ++ map (EHandle nw1) ms1 ++ [EProcess a1 b1])).
        - apply Forall_app. split; auto. apply Forall_app. split; auto.
        - rewrite run_app, E1. cbn [obind fst snd]. rewrite E2. reflexivity. }
      pose proof (li_self _ _ _ _ _ _ _ L2) as Es2. pose proof (li_ids _ _ _ _ _ _ _ L2) as Ei2.
      destruct (round_step s2 ms2 nw2 a2 b2 s o4 t2 []) as [X|(X1 & _)]; auto; try (rewrite ?Es2, ?Ei2; auto; fail).
      - apply L2.
      - apply (HAcc s2 _ 2%nat L2 D2 N2).
      - unfold others_s. now rewrite Es2, Ei2.
      - congruence.
      - assert (linv I W r0 P F s ((o1 ++ o2) ++ o4)) as L3.
        { apply (HL (([EProcess a0 b0] ++ map (EHandle nw1) ms1 ++ [EProcess a1 b1]) ++ map (EHandle nw2) ms2 ++ [EProcess a2 b2])).
          - repeat (apply Forall_app; split; auto).
          - rewrite run_app. rewrite (run_app I _ [EProcess a0 b0]), E1. cbn [obind fst snd]. rewrite E2. cbn [obind fst snd]. rewrite E. reflexivity. }
        destruct (li_P _ _ _ _ _ _ _ L3 D) as (n & En & _ & HP). apply P3 in HP. lia.
    Qed.
    Lemma sync_no_callback : Forall (fun e => e <> ECallback) sync_history.
    Proof.
      apply List.Forall_forall. intros e He. unfold sync_history in He. repeat (apply in_app_iff in He as [He|He]);
        try (destruct He as [<-|[]]; discriminate); apply in_map_iff in He as (m & <- & _); discriminate.
    Qed.
    Lemma sync_events : Forall (event_ok W) sync_history.
    Proof.
      assert (forall (l : list Message) nw, Forall W l -> Forall (event_ok W) (map (EHandle nw) l)) as HEV.
      { intros l nw Hl. apply List.Forall_forall. intros e He. apply in_map_iff in He as (m & <- & Hm). cbn. rewrite List.Forall_forall in Hl. auto. }
      unfold sync_history. repeat (apply Forall_app; split); auto; constructor; cbn; auto.
    Qed.
  End Three.
End Progress.
