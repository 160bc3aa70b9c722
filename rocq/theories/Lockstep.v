(** The lock-step driver of the commands: a State machine of three rounds run through PartyRoutine in three loops. *)
From Coq Require Import ZArith Lia List Bool String Permutation.
From Coq.Strings Require Import Byte.
From stdpp Require Import base gmap list fin_maps.
From Verif Require Import ZField Primes Bytes Scalar Go Group Party Poly PolyFacts Zk Eddsa Messages State StateFacts Lift Net Progress NetProgress Keygen Sign Helpers Cmd.
Import ListNotations.
Local Open Scope Z_scope.

Lemma Permutation_filter' {A} (f : A -> bool) l l' : Permutation l l' -> Permutation (List.filter f l) (List.filter f l').
Proof.
  induction 1; cbn.
  - constructor.
  - destruct (f x); [now constructor|auto].
  - destruct (f x), (f y); try constructor; auto.
  - etransitivity; eauto.
Qed.

Section Lock.
  Context `{Gr : group_ops} {R : Type} (I : RoundI R) (ROK : round_ok I).

  (** Messages that HandleMessage of party [i] does not drop silently. *)
  Definition rel (i : Z) (m : Message) : bool := negb (m_From m =? i) && ((m_To m =? 0) || (m_To m =? i)).

  Lemma handle_drop nw s m ct tl : st_done s = false -> st_accepted s = ct :: tl -> rel (r_self I (st_round s)) m = false -> HandleMessage I nw s m = (s, None).
  Proof.
    intros D EA HR. unfold HandleMessage. rewrite D, EA. unfold rel in HR. destruct (m_From m =? _) eqn:E1; [reflexivity|]. cbn [negb andb] in HR.
    unfold IsBroadcast. fold (m_To m). apply orb_false_iff in HR as [E2 E3]. rewrite E2, E3. reflexivity.
  Qed.

  Lemma deliver_wire nw : forall ms bs s ct tl, Forall2 (fun b m => msg_UnmarshalBinary zero_message b = Ret m) bs ms ->
    st_done s = false -> st_accepted s = ct :: tl -> sorted (r_ids I (st_round s)) ->
    (forall m, In m ms -> rel (r_self I (st_round s)) m = true -> m_Type m = ct /\ In (m_From m) (others_s I s) /\ st_received s !! m_From m = None) ->
    List.NoDup (map m_From (List.filter (rel (r_self I (st_round s))) ms)) ->
    exists s', pr_handle I nw bs s = (s', Ret tt) /\ run I s (map (EHandle nw) (List.filter (rel (r_self I (st_round s))) ms)) = Ret (s', []).
  Proof.
    induction ms as [|m ms IH]; intros bs s ct tl HB D EA HS HM ND.
    - inversion HB; subst. exists s. cbn. auto.
    - inversion HB as [|b ? bs' ? Eb HB']; subst. cbn [pr_handle]. rewrite Eb. cbn [List.filter] in *.
      destruct (rel (r_self I (st_round s)) m) eqn:Er.
      + cbn [map] in *. inversion ND as [|? ? Hni ND']; subst. destruct (HM m (or_introl eq_refl) Er) as (Ht & Hin & Hrc).
        apply others_of_In in Hin as [Hin Hne].
        set (s1 := mkState (st_accepted s) (<[m_From m := Some m]> (st_received s)) (st_queue s) (ackMessage nw (st_timer s))
                  (st_roundNumber s) (st_round s) (st_closed s) (st_done s) (st_err s)).
        assert (HandleMessage I nw s m = (s1, None)) as EH.
        { unfold HandleMessage. rewrite D, EA. apply Z.eqb_neq in Hne as Hne'. rewrite Hne'.
          assert (negb (IsBroadcast (m_Header m)) && negb (m_To m =? r_self I (st_round s)) = false) as ->.
          { unfold IsBroadcast. fold (m_To m). unfold rel in Er. rewrite Hne' in Er. cbn in Er. now destruct (m_To m =? 0), (m_To m =? r_self I (st_round s)). }
          rewrite (proj2 (Contains_In _ _ HS) Hin). cbn [negb]. rewrite Hrc.
          unfold isAcceptedType. rewrite EA. cbn [existsb]. rewrite Ht, Z.eqb_refl. cbn [orb negb]. unfold s1. now rewrite D, EA. }
        rewrite EH. destruct (IH bs' s1 ct tl) as (s' & E1 & E2); auto.
        { intros m' Hm' Er'. destruct (HM m' (or_intror Hm') Er') as (A & B & C). split; auto. split; auto.
          unfold s1. cbn. rewrite lookup_insert_ne; auto. intros X. apply Hni. rewrite X. apply in_map. apply filter_In. auto. }
        exists s'. split; [exact E1|]. cbn [run step]. rewrite EH. cbn [fst snd obind]. change (r_self I (st_round s1)) with (r_self I (st_round s)) in E2. rewrite E2. reflexivity.
      + rewrite (handle_drop nw s m ct tl D EA Er). apply (IH bs' s ct tl); auto. intros m' Hm'. apply HM. now right.
  Qed.

  Lemma same_rel i m m' : same_msg m m' -> rel i m' = rel i m.
  Proof. intros H. unfold rel. now rewrite (same_from _ _ H), (same_to _ _ H). Qed.

  Section All.
    Context (ids : list Z) (HS : sorted ids) (HV : valid_ids ids).
    Context (U W : Message -> Prop) (UW : forall m m', U m -> same_msg m m' -> W m').
    Context (now timeout : Z -> Z) (r0 : Z -> R) (P : Z -> nat -> R -> list Message -> Prop) (F : Z -> R -> option PError -> list Message -> Prop).
    Context (s0 : Z -> State R) (E0 : forall i, In i ids -> s0 i = NewBaseState I (now i) (timeout i) (r0 i)).
    Context (R0 : forall i, In i ids -> r_self I (r0 i) = i /\ r_ids I (r0 i) = ids).
    Context (HL : forall i es s out, In i ids -> Forall (event_ok W) es -> run I (s0 i) es = Ret (s, out) -> linv I W (r0 i) (P i) (F i) s out).
    Context (NP : forall i sched sched' es, In i ids -> Forall (event_ok W) es -> exists s out, run I (s0 i) (EProcess sched sched' :: es) = Ret (s, out)).
    Context (P3 : forall i n r out, P i n r out -> (n < 3)%nat).
    Context (t0 t1 t2 : Z) (TY : forall i, In i ids -> r_accepted I (r0 i) = [t0; t1; t2]).
    Context (NE : forall i es s out, In i ids -> Forall (event_ok W) es -> Forall (fun e => e <> ECallback) es -> run I (s0 i) es = Ret (s, out) -> st_err s = None).
    (** The honest messages and their encodings. *)
    Context (M1 : Z -> Message) (M2 : Z -> list Message).
    Context (HM1 : forall i, In i ids -> U (M1 i) /\ m_From (M1 i) = i /\ m_Type (M1 i) = t1 /\ m_To (M1 i) = 0).
    Context (HM2 : forall i m, In i ids -> In m (M2 i) -> U m /\ m_From m = i /\ m_Type m = t2).
    Context (HM2f : forall i j, In i ids -> In j ids -> i <> j -> exists m, List.filter (rel i) (M2 j) = [m]).
    Context (EX1 : forall i r out, In i ids -> P i 1 r out -> out = [M1 i]) (EX2 : forall i r out, In i ids -> P i 2 r out -> out = M1 i :: M2 i)
            (EXF : forall i r out, In i ids -> F i r None out -> out = M1 i :: M2 i).
    (** The rounds 0 and 1 have a next round. *)
    Context (NXT : forall i n r out rcv ks r1 sched r2 l, P i n r out -> (n < 2)%nat -> process_loop I r rcv ks = ROk r1 tt -> r_generate I sched r1 = ROk r2 l -> r_next I r2 <> None).
    Context (WIRE : forall m, U m -> exists b m', msg_MarshalBinary m = Ret b /\ msg_UnmarshalBinary zero_message b = Ret m' /\ same_msg m m').

    Definition enc (m : Message) : list byte := match msg_MarshalBinary m with Ret b => b | _ => [] end.
    Definition dec (m : Message) : Message := match msg_UnmarshalBinary zero_message (enc m) with Ret m' => m' | _ => m end.
    Lemma enc_dec m : U m -> msg_MarshalBinary m = Ret (enc m) /\ msg_UnmarshalBinary zero_message (enc m) = Ret (dec m) /\ same_msg m (dec m).
    Proof. intros Hm. destruct (WIRE m Hm) as (b & m' & A & B & C). unfold dec, enc. rewrite A, B. auto. Qed.
    Lemma marshal_enc ms : Forall U ms -> marshal_all ms = Ret (map enc ms).
    Proof.
      induction ms as [|m ms IH]; intros H; [reflexivity|]. inversion H; subst. cbn [marshal_all map]. destruct (enc_dec m H2) as (-> & _). cbn [obind].
      rewrite IH by auto. reflexivity.
    Qed.
    Lemma wire_dec ms : Forall U ms -> Forall2 (fun b m => msg_UnmarshalBinary zero_message b = Ret m) (map enc ms) (map dec ms).
    Proof. induction 1; cbn [map]; constructor; auto. now apply enc_dec. Qed.
    Lemma wire_rel i ms : Forall U ms -> List.filter (rel i) (map dec ms) = map dec (List.filter (rel i) ms).
    Proof.
      induction 1 as [|m ms Hm _ IH]; [reflexivity|]. cbn [map List.filter]. destruct (enc_dec m Hm) as (_ & _ & HH). rewrite (same_rel i _ _ HH), IH. now destruct (rel i m).
    Qed.

    (** What has happened to party [i]: a history over W without timeout. *)
    Record hist (i : Z) (s : State R) (es : list event) (out : list Message) : Prop := {
      hi_run : run I (s0 i) es = Ret (s, out);
      hi_ev : Forall (event_ok W) es;
      hi_cb : Forall (fun e => e <> ECallback) es;
      hi_start : exists a b es', es = EProcess a b :: es'
    }.
    Record at_round (i : Z) (k : nat) (s : State R) (es : list event) (out : list Message) : Prop := {
      ar_hist : hist i s es out;
      ar_done : st_done s = false;
      ar_no : st_roundNumber s = Z.of_nat k;
      ar_rcv : st_received s = ∅;
      ar_queue : st_queue s = []
    }.

    (** ProcessAll in round 0 or 1 does not end the protocol. *)
    Lemma process_not_done i s es out a b s' o n : In i ids -> run I (s0 i) es = Ret (s, out) -> Forall (event_ok W) es -> Forall (fun e => e <> ECallback) es ->
      st_done s = false -> st_roundNumber s = Z.of_nat n -> (n < 2)%nat -> ProcessAll I a b s = Ret (s', o) -> st_done s' = false.
    Proof.
      intros Hi E HE HC D En Hn EP. pose proof (HL i _ _ _ Hi HE E) as L. destruct (li_P _ _ _ _ _ _ _ L D) as (n' & En' & Ea & HP).
      assert (n' = n) as -> by lia.
      assert (st_err s' = None) as Er.
      { apply (NE i (es ++ [EProcess a b]) s' (out ++ o) Hi).
        - apply Forall_app. split; auto. constructor; [exact Logic.I|constructor].
        - apply Forall_app. split; [auto|constructor; [discriminate|constructor]].
        - rewrite run_app, E. cbn [obind fst snd run step]. rewrite EP. cbn [obind fst snd]. now rewrite app_nil_r. }
      pose proof (inv_err _ s (li_inv _ _ _ _ _ _ _ L) D) as Es.
      apply process_cases in EP. destruct EP as [-> _ X|r c t _ HS1 EP ER _|r r' c t _ HS1 EP EG ER _|r r' ct' tl' rcv q _ HS1 EP EG EA1 EQ EN]; auto.
      - exfalso. apply reportError_ret in ER as (r2 & _ & _ & ->); auto. cbn in Er. discriminate Er.
      - exfalso. apply reportError_ret in ER as (r2 & _ & _ & ->); auto. cbn in Er. discriminate Er.
      - destruct (r_next I r') as [nr|] eqn:En2; [subst s'; auto|]. exfalso. eapply NXT; eauto.
    Qed.

    Lemma ph0 i nw a b : In i ids -> exists s1, PartyRoutine I nw a b [] (s0 i) = (s1, Ret [enc (M1 i)]) /\ at_round i 1 s1 [EProcess a b] [M1 i].
    Proof.
      intros Hi. destruct (R0 i Hi) as [Rs Ri]. destruct (NP i a b [] Hi) as (s1 & o1 & E1); [constructor|].
      assert (Forall (event_ok W) [EProcess a b]) as HE by (constructor; [exact Logic.I|constructor]).
      assert (Forall (fun e : event => e <> ECallback) [EProcess a b]) as HC by (constructor; [discriminate|constructor]).
      assert (ProcessAll I a b (s0 i) = Ret (s1, o1)) as EP.
      { cbn [run step] in E1. destruct (ProcessAll I a b (s0 i)) as [[sx ox]| |]; [cbn in E1; rewrite app_nil_r in E1; exact E1|discriminate|discriminate]. }
      assert (st_done s1 = false) as D1.
      { eapply (process_not_done i (s0 i) [] [] a b s1 o1 0%nat); eauto; [rewrite E0 by auto; reflexivity|rewrite E0 by auto; reflexivity]. }
      destruct (stage0_step I (now i) (timeout i) (r0 i) t0 t1 t2 (TY i Hi)) with (s1 := s1) (o1 := o1) (a := a) (b := b) as (N1 & X1 & X2); auto;
        [now rewrite Ri|now rewrite Rs, Ri|rewrite <- E0 by auto; exact E1|].
      pose proof (HL i _ _ _ Hi HE E1) as L. destruct (li_P _ _ _ _ _ _ _ L D1) as (n & En & _ & HP). assert (n = 1)%nat as -> by lia.
      apply EX1 in HP; auto. subst o1. exists s1. split.
      - unfold PartyRoutine. cbn [pr_handle]. rewrite EP. cbn [fst snd]. rewrite marshal_enc by (constructor; [apply HM1; auto|constructor]). unfold IsFinished. now rewrite D1.
      - split; auto. split; auto. exists a, b, []. reflexivity.
    Qed.

    (** A later loop: all messages of the previous one are decoded and handled, then ProcessAll. *)
    Lemma ph_next i k s es out ms nw a b : In i ids -> at_round i k s es out -> (1 <= k < 3)%nat -> Forall U ms ->
      full_set i (others_of i ids) (if Nat.eqb k 1 then t1 else t2) (map dec (List.filter (rel i) ms)) ->
      exists s' es', PartyRoutine I nw a b (map enc ms) s = (s', Ret (if Nat.eqb k 1 then map enc (M2 i) else [])) /\
        (if Nat.eqb k 1 then at_round i 2 s' es' (M1 i :: M2 i) else hist i s' es' (M1 i :: M2 i) /\ st_done s' = true).
    Proof.
      intros Hi [[E HE HC [a' [b' [es0 ->]]]] D En Er Eq] Hk HU FS. destruct (R0 i Hi) as [Rs Ri].
      pose proof (HL i _ _ _ Hi HE E) as L. destruct (li_P _ _ _ _ _ _ _ L D) as (n & En' & Ea & HP). assert (n = k) as -> by lia. rewrite TY in Ea by auto.
      pose proof (li_self _ _ _ _ _ _ _ L) as Es1. pose proof (li_ids _ _ _ _ _ _ _ L) as Ei1. rewrite Rs in Es1. rewrite Ri in Ei1.
      set (ct := if Nat.eqb k 1 then t1 else t2) in *.
      assert (exists tl, st_accepted s = ct :: tl) as [tl EA].
      { rewrite Ea. unfold ct. destruct k as [|[|[|k]]]; try lia; cbn; eauto. }
      set (fl := map dec (List.filter (rel i) ms)) in *.
      assert (List.filter (rel i) (map dec ms) = fl) as Efl by (now apply wire_rel).
      assert (Forall W fl) as HWf.
      { apply List.Forall_forall. intros m Hm. apply in_map_iff in Hm as (m' & <- & Hm). apply filter_In in Hm as [Hm _]. rewrite List.Forall_forall in HU.
        eapply UW; [apply HU; exact Hm|]. now apply enc_dec, HU. }
      destruct (deliver_wire nw (map dec ms) (map enc ms) s ct tl) as (s1 & EH & ER); auto.
      { now apply wire_dec. } { now rewrite Ei1. }
      { intros m Hm Hr. rewrite Es1 in Hr. assert (In m fl) as Hf by (rewrite <- Efl; apply filter_In; auto). destruct FS as [F1 F2 F3]. rewrite List.Forall_forall in F2.
        split; [now apply F2|]. unfold others_s. rewrite Es1, Ei1, Er. split; [|apply lookup_empty]. apply (Permutation_in _ F1). now apply in_map. }
      { rewrite Es1, Efl. eapply Permutation_NoDup; [symmetry; apply FS|]. apply others_of_NoDup, HV. }
      rewrite Es1, Efl in ER.
      assert (Forall (event_ok W) (map (EHandle nw) fl)) as HE1.
      { apply List.Forall_forall. intros e He. apply in_map_iff in He as (m & <- & Hm). cbn. rewrite List.Forall_forall in HWf. auto. }
      assert (Forall (fun e : event => e <> ECallback) (map (EHandle nw) fl)) as HC1.
      { apply List.Forall_forall. intros e He. apply in_map_iff in He as (m & <- & Hm). discriminate. }
      destruct (NP i a' b' (es0 ++ map (EHandle nw) fl ++ [EProcess a b]) Hi) as (s2 & o & E2).
      { inversion HE; subst. apply Forall_app. split; auto. apply Forall_app. split; [auto|constructor; [exact Logic.I|constructor]]. }
      change (EProcess a' b' :: es0 ++ ?x) with ((EProcess a' b' :: es0) ++ x) in E2. set (es := EProcess a' b' :: es0) in *.
      assert (Forall (event_ok W) (es ++ map (EHandle nw) fl ++ [EProcess a b])) as HE2.
      { apply Forall_app. split; auto. apply Forall_app. split; [auto|constructor; [exact Logic.I|constructor]]. }
      assert (Forall (fun e : event => e <> ECallback) (es ++ map (EHandle nw) fl ++ [EProcess a b])) as HC2.
      { apply Forall_app. split; [auto|]. apply Forall_app. split; [auto|constructor; [discriminate|constructor]]. }
      pose proof (NE i _ _ _ Hi HE2 HC2 E2) as Er2.
      assert (hist i s2 (es ++ map (EHandle nw) fl ++ [EProcess a b]) o) as HH.
      { split; auto. exists a', b', (es0 ++ map (EHandle nw) fl ++ [EProcess a b]). reflexivity. }
      rewrite run_app, E in E2. cbn [obind fst snd] in E2. apply obind_ret in E2 as ([s2' o2] & E2 & E3). cbn [fst snd] in E3. apply Ret_inj in E3. inversion E3; subst s2' o. clear E3.
      pose proof E2 as E2r. rewrite run_app, ER in E2. cbn [obind fst snd run step] in E2.
      destruct (ProcessAll I a b s1) as [[sx ox]| |] eqn:EP; try discriminate. cbn in E2. apply Ret_inj in E2. inversion E2; subst sx o2. clear E2. rewrite app_nil_r in *.
      assert (st_done s2 = true \/ (st_roundNumber s2 = st_roundNumber s + 1 /\ st_received s2 = ∅ /\ st_queue s2 = [] /\ st_done s2 = false)) as HR.
      { eapply (round_step I s fl nw a b s2 ox ct tl); eauto.
        - apply L.
        - now rewrite Ei1.
        - now rewrite Ei1.
        - now rewrite Es1, Ei1.
        - unfold others_s. rewrite Es1, Ei1. exact FS. }
      pose proof (hi_run _ _ _ _ HH) as Efull. pose proof (HL i _ _ _ Hi HE2 Efull) as L2.
      assert (forall o', o' = ox -> Forall U o' -> PartyRoutine I nw a b (map enc ms) s = (s2, Ret (map enc o'))) as HPR.
      { intros o' -> Ho'. unfold PartyRoutine. rewrite EH, EP. cbn [fst snd]. rewrite marshal_enc by auto. unfold IsFinished, Err. rewrite Er2. now destruct (st_done s2). }
      exists s2, (es ++ map (EHandle nw) fl ++ [EProcess a b]).
      destruct k as [|[|[|k]]]; try lia; cbn [Nat.eqb] in *.
      - (* round 1 *)
        apply EX1 in HP; auto. subst out.
        assert (st_done s1 = false /\ st_roundNumber s1 = 1) as [D1 N1].
        { destruct (deliver I nw fl s ct tl D EA) as (sx & Ex & X1 & _ & _ & X4 & _).
          - now rewrite Ei1.
          - intros m Hm. destruct FS as [F1 F2 F3]. rewrite List.Forall_forall in F2, F3. split; [now apply F2|]. rewrite Es1. split; [now apply F3|].
            unfold others_s. rewrite Es1, Ei1, Er. split; [|apply lookup_empty]. apply (Permutation_in _ F1). now apply in_map.
          - eapply Permutation_NoDup; [symmetry; apply FS|]. apply others_of_NoDup, HV.
          - rewrite Ex in ER. apply Ret_inj in ER. inversion ER; subst sx. rewrite X4. auto. }
        assert (st_done s2 = false) as D2.
        { eapply (process_not_done i s1 (es ++ map (EHandle nw) fl) [M1 i] a b s2 ox 1%nat); eauto.
          - rewrite run_app, E. cbn [obind fst snd]. rewrite ER. reflexivity.
          - apply Forall_app. auto.
          - apply Forall_app. auto. }
        destruct HR as [X|(X1 & X2 & X3 & _)]; [congruence|]. destruct (li_P _ _ _ _ _ _ _ L2 D2) as (n & Enn & _ & HP2). assert (n = 2)%nat as -> by lia.
        pose proof (EX2 i _ _ Hi HP2) as Eo. cbn in Eo. inversion Eo. subst ox. split.
        + apply HPR; auto. apply List.Forall_forall. intros m Hm. now apply (HM2 i m Hi).
        + split; auto; lia.
      - (* round 2 *)
        apply EX2 in HP; auto. subst out. destruct (st_done s2) eqn:D2.
        + pose proof (li_F _ _ _ _ _ _ _ L2 D2) as HF. rewrite Er2 in HF. apply EXF in HF; auto. rewrite <- (app_nil_r (M1 i :: M2 i)) in HF at 2. apply app_inv_head in HF. subst ox.
          rewrite app_nil_r in HH. split; auto. apply (HPR []); auto.
        + exfalso. destruct HR as [X|(X1 & _)]; [congruence|]. destruct (li_P _ _ _ _ _ _ _ L2 D2) as (n & Enn & _ & HP2). apply P3 in HP2. lia.
    Qed.

    Lemma drive_loop_ok v ins (f : Z -> State R) (o : Z -> list (list byte)) : forall ks sts acc, List.NoDup ks ->
      (forall i, In i ks -> exists s, sts !! i = Some (Some s) /\ PartyRoutine I (le_now v i) (le_sched v i) (le_sched' v i) ins s = (f i, Ret (o i))) ->
      exists sts', drive_loop I v ins ks sts acc = Ret (sts', acc ++ List.concat (map o ks)) /\
        (forall i, In i ks -> sts' !! i = Some (Some (f i))) /\ (forall i, ~ In i ks -> sts' !! i = sts !! i).
    Proof.
      induction ks as [|i ks IH]; intros sts acc ND H.
      - exists sts. cbn. rewrite app_nil_r. split; auto. split; [intros i []|auto].
      - inversion ND as [|? ? Hni ND']; subst. destruct (H i (or_introl eq_refl)) as (s & E1 & E2). cbn [drive_loop]. rewrite E1, E2.
        destruct (IH (<[i := Some (f i)]> sts) (acc ++ o i) ND') as (sts' & E & A & B).
        + intros j Hj. rewrite lookup_insert_ne by (intros ->; auto). apply H. now right.
        + exists sts'. rewrite E. cbn [map List.concat]. rewrite app_assoc. split; auto. split.
          * intros j [<-|Hj]; auto. rewrite B by auto. apply lookup_insert.
          * intros j Hj. rewrite B by (intros X; apply Hj; now right). apply lookup_insert_ne. intros ->. apply Hj. now left.
    Qed.
    Definition over (sts : gmap Z (option (State R))) : Prop := forall i, sts !! i <> None <-> In i ids.
    Lemma drive_ok v ins sts (f : Z -> State R) (o : Z -> list (list byte)) : over sts ->
      (forall i, In i ids -> exists s, sts !! i = Some (Some s) /\ PartyRoutine I (le_now v i) (le_sched v i) (le_sched' v i) ins s = (f i, Ret (o i))) ->
      exists sts' ord, drive I v ins sts = Ret (sts', List.concat (map o ord)) /\ Permutation ord ids /\ over sts' /\
        (forall i, In i ids -> sts' !! i = Some (Some (f i))).
    Proof.
      intros HO H. unfold drive.
      assert (Permutation (map_keys (le_order v) sts) ids) as HP.
      { apply Permutation.NoDup_Permutation; [apply map_keys_NoDup|apply HV|]. intros i. pose proof (HO i) as HOi. rewrite map_keys_In, <- HOi. destruct (sts !! i); split; eauto; try congruence. intros [? ?]; discriminate. }
      destruct (drive_loop_ok v ins f o (map_keys (le_order v) sts) sts []) as (sts' & E & A & B).
      { apply map_keys_NoDup. }
      { intros i Hi. apply H. eapply Permutation_in; eauto. }
      exists sts', (map_keys (le_order v) sts). split; [exact E|]. split; auto.
      assert (forall i, In i ids -> sts' !! i = Some (Some (f i))) as HA. { intros i Hi. apply A. eapply Permutation_in; [symmetry; eauto|auto]. }
      split; auto. intros i. split.
      - intros Hi. destruct (in_dec Z.eq_dec i ids) as [|Hn]; auto. rewrite B in Hi by (intros X; apply Hn; eapply Permutation_in; eauto). now apply HO.
      - intros Hi. rewrite HA by auto. discriminate.
    Qed.

    Lemma rel_M1 i ord : In i ids -> incl ord ids -> List.filter (rel i) (map M1 ord) = map M1 (others_of i ord).
    Proof.
      intros Hi. induction ord as [|j ord IH]; intros Hl; [reflexivity|]. cbn [map List.filter]. unfold others_of. cbn [List.filter]. rewrite IH by (intros x Hx; apply Hl; now right).
      destruct (HM1 j (Hl j (or_introl eq_refl))) as (_ & Ef & _ & Et). unfold rel. rewrite Ef, Et. cbn. destruct (j =? i); reflexivity.
    Qed.
    Lemma M1_full i ord : In i ids -> Permutation ord ids -> full_set i (others_of i ids) t1 (map dec (List.filter (rel i) (map M1 ord))).
    Proof.
      intros Hi HP. assert (incl ord ids) as Hl by (intros x Hx; eapply Permutation_in; eauto). rewrite rel_M1 by auto.
      assert (forall j, In j (others_of i ord) -> In j ids) as Ho. { intros j Hj. apply others_of_In in Hj as [Hj _]. auto. }
      split.
      - rewrite !map_map. rewrite (map_ext_in _ id).
        + rewrite map_id. unfold others_of. now apply Permutation_filter'.
        + intros j Hj. apply Ho in Hj. destruct (HM1 j Hj) as (HU & Ef & _). destruct (enc_dec _ HU) as (_ & _ & HH). now rewrite (same_from _ _ HH).
      - apply List.Forall_forall. intros m Hm. apply in_map_iff in Hm as (m' & <- & Hm). apply in_map_iff in Hm as (j & <- & Hj). apply Ho in Hj.
        destruct (HM1 j Hj) as (HU & _ & Et & _). destruct (enc_dec _ HU) as (_ & _ & HH). now rewrite (same_type _ _ HH).
      - apply List.Forall_forall. intros m Hm. apply in_map_iff in Hm as (m' & <- & Hm). apply in_map_iff in Hm as (j & <- & Hj). apply Ho in Hj.
        destruct (HM1 j Hj) as (HU & _ & _ & Et). destruct (enc_dec _ HU) as (_ & _ & HH). left. now rewrite (same_to _ _ HH).
    Qed.
    Lemma rel_M2 i ord : In i ids -> incl ord ids -> exists g, List.filter (rel i) (List.concat (map M2 ord)) = map g (others_of i ord) /\
      forall j, In j (others_of i ord) -> In (g j) (M2 j) /\ rel i (g j) = true.
    Proof.
      intros Hi Hl.
      destruct (choice_ids (fun j m => j <> i -> List.filter (rel i) (M2 j) = [m]) ids zero_message) as [g Hg].
      { intros j Hj. destruct (Z.eq_dec j i) as [->|Hne]; [exists zero_message; congruence|]. destruct (HM2f i j) as [m Hm]; auto. exists m. auto. }
      exists g. split.
      - induction ord as [|j ord IH]; [reflexivity|]. cbn [map List.concat]. rewrite List.filter_app, IH by (intros x Hx; apply Hl; now right).
        unfold others_of. cbn [List.filter]. destruct (Z.eqb_spec j i) as [->|Hne]; cbn [negb].
        + assert (List.filter (rel i) (M2 i) = []) as ->; [|reflexivity].
          assert (forall m, In m (M2 i) -> rel i m = false) as Hz. { intros m Hm. destruct (HM2 i m Hi Hm) as (_ & Ef & _). unfold rel. now rewrite Ef, Z.eqb_refl. }
          clear - Hz. induction (M2 i) as [|m l IH]; auto. cbn. rewrite Hz by now left. apply IH. intros m' H. apply Hz. now right.
        + rewrite Hg; auto. apply Hl. now left.
      - intros j Hj. apply others_of_In in Hj as [Hj Hne]. assert (In (g j) (List.filter (rel i) (M2 j))) as X. { rewrite Hg; auto. now left. } now apply filter_In in X.
    Qed.
    Lemma M2_full i ord : In i ids -> Permutation ord ids -> full_set i (others_of i ids) t2 (map dec (List.filter (rel i) (List.concat (map M2 ord)))).
    Proof.
      intros Hi HP. assert (incl ord ids) as Hl by (intros x Hx; eapply Permutation_in; eauto). destruct (rel_M2 i ord Hi Hl) as (g & -> & Hg).
      assert (forall j, In j (others_of i ord) -> U (g j) /\ m_From (g j) = j /\ m_Type (g j) = t2 /\ (m_To (g j) = 0 \/ m_To (g j) = i)) as Ho.
      { intros j Hj. destruct (Hg j Hj) as [G1 G2]. apply others_of_In in Hj as [Hj _]. destruct (HM2 j (g j) (Hl j Hj) G1) as (A & B & C). repeat split; auto.
        unfold rel in G2. apply andb_true_iff in G2 as [_ G2]. apply orb_true_iff in G2 as [G2|G2]; apply Z.eqb_eq in G2; auto. }
      split.
      - rewrite !map_map. rewrite (map_ext_in _ id).
        + rewrite map_id. unfold others_of. now apply Permutation_filter'.
        + intros j Hj. destruct (Ho j Hj) as (HU & Ef & _). destruct (enc_dec _ HU) as (_ & _ & HH). now rewrite (same_from _ _ HH).
      - apply List.Forall_forall. intros m Hm. apply in_map_iff in Hm as (m' & <- & Hm). apply in_map_iff in Hm as (j & <- & Hj).
        destruct (Ho j Hj) as (HU & _ & Et & _). destruct (enc_dec _ HU) as (_ & _ & HH). now rewrite (same_type _ _ HH).
      - apply List.Forall_forall. intros m Hm. apply in_map_iff in Hm as (m' & <- & Hm). apply in_map_iff in Hm as (j & <- & Hj).
        destruct (Ho j Hj) as (HU & _ & _ & Et). destruct (enc_dec _ HU) as (_ & _ & HH). now rewrite (same_to _ _ HH).
    Qed.

    (** The three loops succeed and leave every party finished without error. *)
    Theorem drive3_ok v sts : over sts -> (forall i, In i ids -> sts !! i = Some (Some (s0 i))) ->
      exists sts', drive3 I v sts = Ret sts' /\ over sts' /\
        forall i, In i ids -> exists s es out, sts' !! i = Some (Some s) /\ hist i s es out /\ st_done s = true /\ st_err s = None.
    Proof.
      intros HO HI.
      destruct (choice_ids (fun i x => PartyRoutine I (le_now (v 0%nat) i) (le_sched (v 0%nat) i) (le_sched' (v 0%nat) i) [] (s0 i) = (fst x, Ret [enc (M1 i)]) /\ at_round i 1 (fst x) (snd x) [M1 i])
        ids (s0 0, [])) as [x1 Hx1].
      { intros i Hi. destruct (ph0 i (le_now (v 0%nat) i) (le_sched (v 0%nat) i) (le_sched' (v 0%nat) i) Hi) as (s1 & A & B). exists (s1, [EProcess (le_sched (v 0%nat) i) (le_sched' (v 0%nat) i)]). auto. }
      destruct (drive_ok (v 0%nat) [] sts (fun i => fst (x1 i)) (fun i => [enc (M1 i)]) HO) as (sts1 & ord1 & D1 & Q1 & HO1 & HI1).
      { intros i Hi. exists (s0 i). split; auto. apply (Hx1 i Hi). }
      assert (List.concat (map (fun i => [enc (M1 i)]) ord1) = map enc (map M1 ord1)) as C1.
      { clear. induction ord1 as [|i l IH]; [reflexivity|]. cbn. now rewrite IH. }
      rewrite C1 in D1.
      assert (forall ord, Permutation ord ids -> Forall U (map M1 ord)) as HU1.
      { intros ord HP. apply List.Forall_forall. intros m Hm. apply in_map_iff in Hm as (j & <- & Hj). apply HM1. eapply Permutation_in; eauto. }
      assert (forall ord, Permutation ord ids -> Forall U (List.concat (map M2 ord))) as HU2.
      { intros ord HP. apply List.Forall_forall. intros m Hm. apply in_concat in Hm as (l & Hl & Hm). apply in_map_iff in Hl as (j & <- & Hj). eapply HM2; [|exact Hm]. eapply Permutation_in; eauto. }
      destruct (choice_ids (fun i x => PartyRoutine I (le_now (v 1%nat) i) (le_sched (v 1%nat) i) (le_sched' (v 1%nat) i) (map enc (map M1 ord1)) (fst (x1 i)) = (fst x, Ret (map enc (M2 i))) /\ at_round i 2 (fst x) (snd x) (M1 i :: M2 i))
        ids (s0 0, [])) as [x2 Hx2].
      { intros i Hi. destruct (Hx1 i Hi) as [_ A1]. destruct (ph_next i 1 _ _ _ (map M1 ord1) (le_now (v 1%nat) i) (le_sched (v 1%nat) i) (le_sched' (v 1%nat) i) Hi A1) as (s2 & es2 & A & B); auto.
        - apply M1_full; auto.
        - exists (s2, es2). auto. }
      destruct (drive_ok (v 1%nat) (map enc (map M1 ord1)) sts1 (fun i => fst (x2 i)) (fun i => map enc (M2 i)) HO1) as (sts2 & ord2 & D2 & Q2 & HO2 & HI2).
      { intros i Hi. exists (fst (x1 i)). split; auto. apply (Hx2 i Hi). }
      assert (List.concat (map (fun i => map enc (M2 i)) ord2) = map enc (List.concat (map M2 ord2))) as C2.
      { clear. induction ord2 as [|i l IH]; [reflexivity|]. cbn. now rewrite IH, map_app. }
      rewrite C2 in D2.
      destruct (choice_ids (fun i x => PartyRoutine I (le_now (v 2%nat) i) (le_sched (v 2%nat) i) (le_sched' (v 2%nat) i) (map enc (List.concat (map M2 ord2))) (fst (x2 i)) = (fst x, Ret []) /\ hist i (fst x) (snd x) (M1 i :: M2 i) /\ st_done (fst x) = true)
        ids (s0 0, [])) as [x3 Hx3].
      { intros i Hi. destruct (Hx2 i Hi) as [_ A1]. destruct (ph_next i 2 _ _ _ (List.concat (map M2 ord2)) (le_now (v 2%nat) i) (le_sched (v 2%nat) i) (le_sched' (v 2%nat) i) Hi A1) as (s2 & es2 & A & B & C); auto.
        - apply M2_full; auto.
        - exists (s2, es2). auto. }
      destruct (drive_ok (v 2%nat) (map enc (List.concat (map M2 ord2))) sts2 (fun i => fst (x3 i)) (fun i => []) HO2) as (sts3 & ord3 & D3 & Q3 & HO3 & HI3).
      { intros i Hi. exists (fst (x2 i)). split; auto. apply (Hx3 i Hi). }
      exists sts3. unfold drive3. rewrite D1. cbn [obind fst snd]. rewrite D2. cbn [obind fst snd]. rewrite D3. cbn [obind fst snd]. split; auto. split; auto.
      intros i Hi. destruct (Hx3 i Hi) as (_ & A & B). exists (fst (x3 i)), (snd (x3 i)), (M1 i :: M2 i). split; auto. split; auto. split; auto.
      destruct A as [A1 A2 A3 _]. eapply NE; eauto.
    Qed.
  End All.

  (** The hypotheses of the section above in one record: an honest run of a protocol of three rounds, where party [i] sends
      [M1 i] to everybody in round 0 and [M2 i] in round 1. *)
  Record three (ids : list Z) (U W : Message -> Prop) (now timeout : Z -> Z) (r0 : Z -> R) (P : Z -> nat -> R -> list Message -> Prop)
      (F : Z -> R -> option PError -> list Message -> Prop) (s0 : Z -> State R) (t0 t1 t2 : Z) (M1 : Z -> Message) (M2 : Z -> list Message) : Prop := {
    th_UW : forall m m', U m -> same_msg m m' -> W m';
    th_E0 : forall i, In i ids -> s0 i = NewBaseState I (now i) (timeout i) (r0 i);
    th_R0 : forall i, In i ids -> r_self I (r0 i) = i /\ r_ids I (r0 i) = ids;
    th_HL : forall i es s out, In i ids -> Forall (event_ok W) es -> run I (s0 i) es = Ret (s, out) -> linv I W (r0 i) (P i) (F i) s out;
    th_NP : forall i sched sched' es, In i ids -> Forall (event_ok W) es -> exists s out, run I (s0 i) (EProcess sched sched' :: es) = Ret (s, out);
    th_P3 : forall i n r out, P i n r out -> (n < 3)%nat;
    th_TY : forall i, In i ids -> r_accepted I (r0 i) = [t0; t1; t2];
    th_NE : forall i es s out, In i ids -> Forall (event_ok W) es -> Forall (fun e => e <> ECallback) es -> run I (s0 i) es = Ret (s, out) -> st_err s = None;
    th_M1 : forall i, In i ids -> U (M1 i) /\ m_From (M1 i) = i /\ m_Type (M1 i) = t1 /\ m_To (M1 i) = 0;
    th_M2 : forall i m, In i ids -> In m (M2 i) -> U m /\ m_From m = i /\ m_Type m = t2;
    th_M2f : forall i j, In i ids -> In j ids -> i <> j -> exists m, List.filter (rel i) (M2 j) = [m];
    th_EX1 : forall i r out, In i ids -> P i 1%nat r out -> out = [M1 i];
    th_EX2 : forall i r out, In i ids -> P i 2%nat r out -> out = M1 i :: M2 i;
    th_EXF : forall i r out, In i ids -> F i r None out -> out = M1 i :: M2 i;
    th_NXT : forall i n r out rcv ks r1 sched r2 l, P i n r out -> (n < 2)%nat -> process_loop I r rcv ks = ROk r1 tt -> r_generate I sched r1 = ROk r2 l -> r_next I r2 <> None;
    th_WIRE : forall m, U m -> exists b m', msg_MarshalBinary m = Ret b /\ msg_UnmarshalBinary zero_message b = Ret m' /\ same_msg m m'
  }.
  Lemma drive3_three ids U W now timeout r0 P F s0 t0 t1 t2 M1 M2 v sts : sorted ids -> valid_ids ids -> three ids U W now timeout r0 P F s0 t0 t1 t2 M1 M2 ->
    over ids sts -> (forall i, In i ids -> sts !! i = Some (Some (s0 i))) ->
    exists sts', drive3 I v sts = Ret sts' /\ over ids sts' /\
      forall i, In i ids -> exists s es out, sts' !! i = Some (Some s) /\ hist W s0 i s es out /\ st_done s = true /\ st_err s = None.
  Proof. intros HS HV []. eapply drive3_ok; eauto. Qed.
End Lock.
Arguments th_UW {Gr R I ids U W now timeout r0 P F s0 t0 t1 t2 M1 M2} _.
Arguments th_E0 {Gr R I ids U W now timeout r0 P F s0 t0 t1 t2 M1 M2} _.
Arguments th_R0 {Gr R I ids U W now timeout r0 P F s0 t0 t1 t2 M1 M2} _.
Arguments th_HL {Gr R I ids U W now timeout r0 P F s0 t0 t1 t2 M1 M2} _.
Arguments th_NP {Gr R I ids U W now timeout r0 P F s0 t0 t1 t2 M1 M2} _.
Arguments th_P3 {Gr R I ids U W now timeout r0 P F s0 t0 t1 t2 M1 M2} _.
Arguments th_TY {Gr R I ids U W now timeout r0 P F s0 t0 t1 t2 M1 M2} _.
Arguments th_NE {Gr R I ids U W now timeout r0 P F s0 t0 t1 t2 M1 M2} _.
Arguments th_M1 {Gr R I ids U W now timeout r0 P F s0 t0 t1 t2 M1 M2} _.
Arguments th_M2 {Gr R I ids U W now timeout r0 P F s0 t0 t1 t2 M1 M2} _.
Arguments th_M2f {Gr R I ids U W now timeout r0 P F s0 t0 t1 t2 M1 M2} _.
Arguments th_EX1 {Gr R I ids U W now timeout r0 P F s0 t0 t1 t2 M1 M2} _.
Arguments th_EX2 {Gr R I ids U W now timeout r0 P F s0 t0 t1 t2 M1 M2} _.
Arguments th_EXF {Gr R I ids U W now timeout r0 P F s0 t0 t1 t2 M1 M2} _.
Arguments th_NXT {Gr R I ids U W now timeout r0 P F s0 t0 t1 t2 M1 M2} _.
Arguments th_WIRE {Gr R I ids U W now timeout r0 P F s0 t0 t1 t2 M1 M2} _.
