(** C71: what is left of a State when a caller recovers from a crash of ProcessAll. *)
From Coq Require Import ZArith Lia List Bool String Permutation.
From Coq.Strings Require Import Byte.
From stdpp Require Import base gmap list.
From Verif Require Import ZField Primes Bytes Scalar Go Group ToyGroup Party Poly PolyFacts Zk Eddsa Messages State StateFacts Spec_State
  Keygen Sign RoundFacts Lift Spec_Poly PolyAlg Spec_Group Spec_Wire Spec_Sign Spec_SignRun Spec_Keygen SignFacts SignRun KeygenFacts KeygenRun
  Properties_State Properties_StateRuns Properties_Algebra Properties_Codec Properties_Sign Properties_Keygen Properties_Crash ToyRuns Recover.
Import ListNotations.
Local Open Scope Z_scope.

(** The verdict of ProcessMessage on a message: accepted, an error with its culprit, or a crash. *)
Definition verdict_of {R} (x : rres R unit) : option (ID * string + string) :=
  match x with ROk _ _ => None | RErr _ c t => Some (inl (c, t)) | RPanic w => Some (inr w) end.

Section Generic.
  Context `{Gr : group_ops} {R : Type} (I : RoundI R) (after : R -> Message -> Message).
  (** Rounds that give the same verdict on every message; what accepted messages may become. *)
  Context (sim : R -> R -> Prop) (mrel : R -> Message -> Message -> Prop).
  Record recoverable : Prop := {
    rc_refl : forall r, sim r r;
    rc_trans : forall a b c, sim a b -> sim b c -> sim a c;
    rc_ids : forall a b, sim a b -> r_ids I a = r_ids I b /\ r_self I a = r_self I b;
    rc_ok : forall r m r', r_process I r m = ROk r' tt -> sim r r';
    rc_err : forall r m r' c t, r_process I r m = RErr r' c t -> sim r r';
    rc_after : forall r m, mrel r m (after r m);
    rc_mrefl : forall r m, mrel r m m;
    rc_mtrans : forall r a b c, mrel r a b -> mrel r b c -> mrel r a c;
    rc_msim : forall a b m m', sim a b -> mrel b m m' -> mrel a m m';
    rc_same : forall a b m, sim a b -> verdict_of (r_process I a m) = verdict_of (r_process I b m)
  }.
  Context (OK : recoverable).
  Notation step := (rec_step I after).
  Notation rrun := (rec_run I after).

  (** ** Without a crash nothing is new. *)
  Lemma run_is_rec es : forall s s' out, run I s es = Ret (s', out) -> rrun s es = Ret (s', out, false).
  Proof.
    induction es as [|e es IH]; intros s s' out E; cbn [run rec_run] in *.
    - apply Ret_inj in E. inversion E; subst. reflexivity.
    - apply obind_ret in E as ([s1 l1] & E1 & E). apply obind_ret in E as ([s2 l2] & E2 & E). cbn [fst snd] in *. apply Ret_inj in E. inversion E; subst.
      assert (step s e = Ret (s1, Some l1)) as ->.
      { destruct e as [now m|o o'|now|]; cbn [rec_step]; try (rewrite E1; reflexivity). unfold ProcessAll_rec. cbn [State.step] in E1. rewrite E1. cbn [obind fst snd].
        destruct (st_done s) eqn:D; auto. destruct (negb _) eqn:EN; auto. destruct (process_loop _ _ _ _) eqn:EL; auto. exfalso. unfold ProcessAll in E1. rewrite D, EN, EL in E1. discriminate. }
      cbn [obind fst snd]. rewrite (IH _ _ _ E2). reflexivity.
  Qed.
  Lemma rec_cases o o' s s' r : ProcessAll_rec I after o o' s = Ret (s', r) ->
    match r with
    | Some l => ProcessAll I o o' s = Ret (s', l)
    | None => st_done s = false /\ Z.of_nat (size (st_received s)) = u16 (N_ids (r_ids I (st_round s)) - 1) /\
              (exists w, process_loop I (st_round s) (st_received s) (map_keys o (st_received s)) = RPanic w) /\
              exists rr, rr = processed I after (st_round s) (st_received s) (map_keys o (st_received s)) /\
              s' = mkState (st_accepted s) (snd rr) (st_queue s) (st_timer s) (st_roundNumber s) (fst rr) (st_closed s) (st_done s) (st_err s)
    end.
  Proof.
    unfold ProcessAll_rec. intros E.
    assert (forall x, obind (ProcessAll I o o' s) (fun r => Ret (fst r, Some (snd r))) = Ret x -> match snd x with Some l => ProcessAll I o o' s = Ret (fst x, l) | None => False end) as Go.
    { intros x X. apply obind_ret in X as ([a b] & X1 & X2). apply Ret_inj in X2. subst x. exact X1. }
    destruct (st_done s) eqn:D; [apply Go in E; cbn [fst snd] in E; destruct r; [auto|contradiction]|].
    destruct (negb _) eqn:EN; [apply Go in E; cbn [fst snd] in E; destruct r; [auto|contradiction]|].
    destruct (process_loop _ _ _ _) eqn:EL; try (apply Go in E; cbn [fst snd] in E; destruct r; [auto|contradiction]).
    apply Ret_inj in E. inversion E; subst. apply negb_false_iff, Z.eqb_eq in EN. eauto 10.
  Qed.
  Lemma rec_is_run es : forall s s' out, rrun s es = Ret (s', out, false) -> run I s es = Ret (s', out).
  Proof.
    induction es as [|e es IH]; intros s s' out E; cbn [run rec_run] in *.
    - apply Ret_inj in E. inversion E; subst. reflexivity.
    - apply obind_ret in E as ([s1 l1] & E1 & E). apply obind_ret in E as ([[s2 l2] b] & E2 & E). cbn [fst snd] in *. apply Ret_inj in E. inversion E; subst.
      destruct l1 as [l1|]; [|discriminate]. subst b. assert (State.step I s e = Ret (s1, l1)) as ->.
      { destruct e as [now m|o o'|now|]; cbn [rec_step] in E1; try (apply obind_ret in E1 as ([a b] & X1 & X2); apply Ret_inj in X2; inversion X2; subst; exact X1). exact (rec_cases _ _ _ _ _ E1). }
      cbn [obind fst snd]. rewrite (IH _ _ _ E2). reflexivity.
  Qed.

  (** ** Loops over similar rounds *)
  Definition at_ (rcv : gmap ID (option Message)) (k : ID) : option Message := default None (rcv !! k).
  Lemma loop_sim rcv ks : forall r, match process_loop I r rcv ks with
    | ROk r' _ => sim r r' /\ forall k, In k ks -> verdict_of (r_process I r (at_ rcv k)) = None
    | RErr r' c t => sim r r' /\ exists k, In k ks /\ verdict_of (r_process I r (at_ rcv k)) = Some (inl (c, t))
    | RPanic w => exists k, In k ks /\ verdict_of (r_process I r (at_ rcv k)) = Some (inr w)
    end.
  Proof.
    induction ks as [|k ks IH]; intros r; cbn [process_loop]; [split; [apply rc_refl; auto|intros ? []]|]. fold (at_ rcv k). destruct (r_process I r (at_ rcv k)) as [r1 []|r1 c t|w] eqn:E.
    - pose proof (rc_ok OK _ _ _ E) as HS. specialize (IH r1). destruct (process_loop I r1 rcv ks) as [r2 u|r2 c t|w].
      + destruct IH as [A B]. split; [eapply rc_trans; eauto|]. intros k' [<-|H]; [now rewrite E|]. rewrite (rc_same OK r r1) by auto. auto.
      + destruct IH as (A & k' & Hk & B). split; [eapply rc_trans; eauto|]. exists k'. split; [right; auto|]. now rewrite (rc_same OK r r1).
      + destruct IH as (k' & Hk & B). exists k'. split; [right; auto|]. now rewrite (rc_same OK r r1).
    - split; [eapply rc_err; eauto|]. exists k. split; [left; auto|now rewrite E].
    - exists k. split; [left; auto|now rewrite E].
  Qed.
  (** What was stored, possibly changed by the call that accepted it. *)
  Definition stored (r : R) (v v' : option Message) : Prop := match v, v' with Some m, Some m' => mrel r m m' | None, None => True | _, _ => False end.
  Lemma stored_refl r v : stored r v v. Proof. destruct v; cbn; auto. apply (rc_mrefl OK). Qed.
  Lemma stored_trans r a b c : stored r a b -> stored r b c -> stored r a c. Proof. destruct a, b, c; cbn; try tauto. apply (rc_mtrans OK). Qed.
  Lemma stored_sim a b v v' : sim a b -> stored b v v' -> stored a v v'. Proof. intros H. destruct v, v'; cbn; auto. now apply (rc_msim OK). Qed.
  Lemma touch_lookup r id rcv k : touch after r id rcv !! k = if decide (k = id) then match rcv !! id with Some (Some m) => Some (Some (after r m)) | x => x end else rcv !! k.
  Proof.
    unfold touch. destruct (decide (k = id)) as [->|N].
    - destruct (rcv !! id) as [[m|]|] eqn:E; [now rewrite lookup_insert|exact E|exact E].
    - destruct (rcv !! id) as [[m|]|]; auto. now rewrite lookup_insert_ne by congruence.
  Qed.
  Lemma processed_sim ks : List.NoDup ks -> forall r rcv, sim r (fst (processed I after r rcv ks)) /\
    (forall k, ~ In k ks -> snd (processed I after r rcv ks) !! k = rcv !! k) /\
    (forall k w, In k ks -> verdict_of (r_process I r (at_ rcv k)) = Some (inr w) -> snd (processed I after r rcv ks) !! k = rcv !! k) /\
    (forall k v, rcv !! k = Some v -> exists v', snd (processed I after r rcv ks) !! k = Some v' /\ stored r v v') /\
    (forall k, rcv !! k = None -> snd (processed I after r rcv ks) !! k = None).
  Proof.
    assert (forall r rcv ks, sim r r /\ (forall k, ~ In k ks -> rcv !! k = rcv !! k) /\ (forall k w, In k ks -> verdict_of (r_process I r (at_ rcv k)) = Some (inr w) -> rcv !! k = rcv !! k) /\
      (forall k v, rcv !! k = Some v -> exists v', rcv !! k = Some v' /\ stored r v v') /\ (forall k, rcv !! k = None -> rcv !! k = None)) as Same.
    { intros r rcv l. split; [apply (rc_refl OK)|]. split; auto. split; auto. split; auto. intros k v Hk. exists v. split; auto. apply stored_refl. }
    induction ks as [|k ks IH]; intros ND r rcv; cbn [processed]; [cbn [fst snd]; apply Same|].
    inversion ND as [|? ? Nin ND']; subst. fold (at_ rcv k). destruct (r_process I r (at_ rcv k)) as [r1 []|r1 c t|w] eqn:E; [|cbn [fst snd]; apply Same|cbn [fst snd]; apply Same].
    pose proof (rc_ok OK _ _ _ E) as HS. destruct (IH ND' r1 (touch after r k rcv)) as (A & B & B' & C & D).
    split; [eapply rc_trans; eauto|]. split; [|split; [|split]].
    - intros j Hj. rewrite B by (intros X; apply Hj; right; auto). rewrite touch_lookup. destruct (decide (j = k)) as [->|]; auto. destruct Hj. left; auto.
    - intros j w [<-|Hj] Hw; [rewrite E in Hw; discriminate|]. assert (j <> k) as N by (intros ->; contradiction).
      rewrite (B' j w Hj); [now rewrite touch_lookup, decide_False by auto|]. unfold at_. rewrite touch_lookup, decide_False by auto. fold (at_ rcv j). now rewrite <- (rc_same OK r r1).
    - intros j v Hj. destruct (decide (j = k)) as [->|N].
      + rewrite B by exact Nin. rewrite touch_lookup, decide_True by auto. rewrite Hj. destruct v as [m|].
        * exists (Some (after r m)). split; auto. cbn. apply (rc_after OK).
        * exists None. split; auto. exact Logic.I.
      + destruct (C j v) as (v' & C1 & C2). { rewrite touch_lookup, decide_False by auto. exact Hj. } exists v'. split; auto. eapply stored_sim; eauto.
    - intros j Hj. apply D. rewrite touch_lookup. destruct (decide (j = k)) as [->|]; auto. now rewrite Hj.
  Qed.

  (** ** After a crash *)
  Definition there (s : State R) : Prop := forall i, In i (r_ids I (st_round s)) -> i <> r_self I (st_round s) -> is_Some (st_received s !! i).
  (** [s1] crashed; [s] is a State of afterwards that has not ended. *)
  Record doomed (s1 s : State R) : Prop := {
    dm_sim : sim (st_round s1) (st_round s);
    dm_bad : exists k v w, st_received s1 !! k = Some v /\ st_received s !! k = Some v /\ verdict_of (r_process I (st_round s1) v) = Some (inr w);
    dm_stored : forall k v', st_received s !! k = Some v' -> exists v, st_received s1 !! k = Some v /\ stored (st_round s1) v v';
    dm_keys : forall k, is_Some (st_received s1 !! k) -> is_Some (st_received s !! k);
    dm_done : st_done s = false; dm_err : st_err s = st_err s1; dm_no : st_roundNumber s = st_roundNumber s1;
    dm_closed : st_closed s = st_closed s1
  }.
  (** It has ended, with an error: the timeout, or one found in a message. *)
  Definition reason (s1 : State R) (c : ID) (t : string) : Prop :=
    (c = 0 /\ t = "message timeout"%string) \/
    exists k v v', st_received s1 !! k = Some v /\ stored (st_round s1) v v' /\ verdict_of (r_process I (st_round s1) v') = Some (inl (c, t)).
  Record ended (s1 s : State R) : Prop := {
    ed_done : st_done s = true;
    ed_no : st_roundNumber s = st_roundNumber s1;
    ed_err : exists c t, reason s1 c t /\ st_err s = match st_err s1 with None => Some (mkPError c (st_roundNumber s1) t) | Some e => Some e end;
    ed_reset : exists r, sim (st_round s1) r /\ r_reset I r = Ret (st_round s)
  }.

  Lemma crash_doomed o o' s1 s : ProcessAll_rec I after o o' s1 = Ret (s, None) -> doomed s1 s.
  Proof.
    intros E. apply rec_cases in E as (D & HN & (w & EL) & rr & -> & ->). set (ks := map_keys o (st_received s1)) in *.
    destruct (processed_sim ks (map_keys_NoDup _ _) (st_round s1) (st_received s1)) as (A & B & B' & C & N). split; cbn [st_round st_received st_done st_err st_roundNumber st_closed]; auto.
    - pose proof (loop_sim (st_received s1) ks (st_round s1)) as HL. rewrite EL in HL. destruct HL as (k & Hk & Hw). pose proof Hk as Hk'. unfold ks in Hk'. apply map_keys_In in Hk' as [v Hv].
      exists k, v, w. split; auto. rewrite (B' k w Hk Hw). split; auto. unfold at_ in Hw. now rewrite Hv in Hw.
    - intros k v' Hk. destruct (st_received s1 !! k) as [v|] eqn:E1; [|rewrite (N k E1) in Hk; discriminate]. exists v. split; auto. destruct (C k v E1) as (v2 & C1 & C2). congruence.
    - intros k [v Hv]. destruct (C k v Hv) as (v' & C1 & _). eauto.
  Qed.
  Lemma report_ended s1 s r c t s' : doomed s1 s -> sim (st_round s1) r -> reason s1 c t -> reportError I (set_round s r) c t = Ret s' -> ended s1 s'.
  Proof.
    intros HD HS HR E. unfold reportError, finish in E. cbn [set_round st_done st_round st_err st_closed] in E. rewrite (dm_done _ _ HD) in E. apply obind_ret in E as (r' & E1 & E).
    destruct (st_closed s); [|discriminate]. apply Ret_inj in E. subst s'. split; cbn; auto; [apply (dm_no _ _ HD)| |eauto]. exists c, t. split; auto. rewrite (dm_err _ _ HD), (dm_no _ _ HD). now destruct (st_err s1).
  Qed.
  Lemma doomed_loop s1 s o : doomed s1 s -> match process_loop I (st_round s) (st_received s) (map_keys o (st_received s)) with
    | ROk _ _ => False | RErr r c t => sim (st_round s1) r /\ reason s1 c t | RPanic _ => True end.
  Proof.
    intros HD. pose proof (loop_sim (st_received s) (map_keys o (st_received s)) (st_round s)) as HL. destruct (process_loop _ _ _ _) as [r u|r c t|w]; auto.
    - destruct HL as [_ HL]. destruct (dm_bad _ _ HD) as (k & v & w & _ & Hk & Hw). specialize (HL k). unfold at_ in HL. rewrite Hk in HL. cbn [default] in HL. unfold id in HL.
      rewrite <- (rc_same OK (st_round s1)) in HL by apply (dm_sim _ _ HD). rewrite Hw in HL. assert (In k (map_keys o (st_received s))) as X by (apply map_keys_In; eauto). specialize (HL X). discriminate.
    - destruct HL as (A & k & Hk & Hv). split; [eapply rc_trans; [|apply (dm_sim _ _ HD)|]; eauto|]. right. apply map_keys_In in Hk as [v' Hk]. unfold at_ in Hv. rewrite Hk in Hv. cbn [default] in Hv. unfold id in Hv.
      destruct (dm_stored _ _ HD k v' Hk) as (v & E1 & E2). exists k, v, v'. split; auto. split; auto. now rewrite (rc_same OK _ (st_round s)) by apply (dm_sim _ _ HD).
  Qed.
  Lemma set_round_own (s : State R) : set_round s (st_round s) = s. Proof. now destruct s. Qed.
  Lemma doomed_step s1 s e s' l : there s1 -> doomed s1 s -> step s e = Ret (s', l) -> default [] l = [] /\ (doomed s1 s' \/ ended s1 s').
  Proof.
    intros HT HD E. destruct e as [now m|o o'|now|]; cbn [rec_step] in E.
    - apply obind_ret in E as ([a b] & E1 & E). apply Ret_inj in E. inversion E; subst. cbn [State.step fst snd] in *. apply Ret_inj in E1. inversion E1; subst. split; auto. left.
      unfold HandleMessage. rewrite (dm_done _ _ HD). destruct (st_accepted s) as [|ct tl]; [exact HD|]. destruct (m_From m =? r_self I (st_round s)) eqn:Es; [exact HD|].
      destruct (negb (IsBroadcast _) && _); [exact HD|]. destruct (negb (Contains (r_ids I (st_round s)) (m_From m))) eqn:EC; [exact HD|].
      destruct (st_received s !! m_From m) eqn:ER; [exact HD|]. exfalso. destruct (rc_ids OK _ _ (dm_sim _ _ HD)) as [Ei Esf]. rewrite <- Ei in EC. rewrite <- Esf in Es. apply negb_false_iff in EC. apply Contains_true_In in EC. apply Z.eqb_neq in Es.
      destruct (dm_keys _ _ HD (m_From m) (HT _ EC Es)) as [v Hv]. congruence.
    - apply rec_cases in E. destruct l as [l|].
      + unfold ProcessAll in E. rewrite (dm_done _ _ HD) in E. destruct (negb _); [apply Ret_inj in E; inversion E; subst; auto|]. pose proof (doomed_loop s1 s o HD) as HL. destruct (process_loop _ _ _ _) as [r u|r c t|w]; [contradiction| |discriminate].
        destruct HL as [HS HR]. apply obind_ret in E as (s2 & E1 & E). apply Ret_inj in E. inversion E; subst. split; auto. right. eapply report_ended; eauto.
      + destruct E as (D & HN & (w & EL) & rr & -> & ->). set (ks := map_keys o (st_received s)) in *. split; auto. left.
        destruct (processed_sim ks (map_keys_NoDup _ _) (st_round s) (st_received s)) as (A & B & B' & C & N). pose proof (dm_sim _ _ HD) as HS. split; cbn [st_round st_received st_done st_err st_roundNumber st_closed]; try apply HD.
        * eapply rc_trans; eauto.
        * destruct (dm_bad _ _ HD) as (k & v & w' & H1 & H2 & H3). exists k, v, w'. split; auto. split; auto. rewrite (B' k w'); auto; [unfold ks; apply map_keys_In; eauto|]. unfold at_. rewrite H2. cbn [default]. unfold id. now rewrite <- (rc_same OK (st_round s1)).
        * intros k v' Hk. destruct (st_received s !! k) as [v|] eqn:E1; [|rewrite (N k E1) in Hk; discriminate]. destruct (C k v E1) as (v2 & C1 & C2). assert (v2 = v') as -> by congruence.
          destruct (dm_stored _ _ HD k v E1) as (v0 & D1 & D2). exists v0. split; auto. eapply stored_trans; eauto. eapply stored_sim; eauto.
        * intros k Hk. destruct (dm_keys _ _ HD k Hk) as [v Hv]. destruct (C k v Hv) as (v' & C1 & _). eauto.
    - apply obind_ret in E as ([a b] & E1 & E). apply Ret_inj in E. inversion E; subst. cbn [State.step fst snd] in *. apply Ret_inj in E1. inversion E1; subst. split; auto. left.
      unfold timerExpire. destruct (tm_deadline (st_timer s)) as [dl|]; [|exact HD]. destruct (dl <=? now); [|exact HD]. destruct HD as [A1 A2 A3 A4 A5 A6 A7 A8]. split; auto.
    - apply obind_ret in E as ([a b] & E1 & E). apply Ret_inj in E. inversion E; subst. cbn [State.step fst snd] in *. apply obind_ret in E1 as (s2 & E1 & E2). apply Ret_inj in E2. inversion E2; subst. split; auto.
      unfold timerCallback in E1. destruct (tm_pending (st_timer s)) as [|n]; [apply Ret_inj in E1; subst; auto|]. right.
      match type of E1 with reportError _ ?x _ _ = _ => assert (doomed s1 x) as HD' by (destruct HD as [A1 A2 A3 A4 A5 A6 A7 A8]; split; auto); rewrite <- (set_round_own x) in E1 end.
      eapply report_ended; [exact HD'| |left; auto|exact E1]. apply (dm_sim _ _ HD).
  Qed.
  Lemma ended_step s1 s e : ended s1 s -> exists s' l, step s e = Ret (s', l) /\ default [] l = [] /\ ended s1 s'.
  Proof.
    intros HE. pose proof (ed_done _ _ HE) as D. destruct e as [now m|o o'|now|]; cbn [rec_step State.step obind fst snd].
    - eexists _, _. split; [reflexivity|]. split; auto. unfold HandleMessage. now rewrite D.
    - unfold ProcessAll_rec, ProcessAll. rewrite D. cbn. eexists _, _. split; [reflexivity|]. auto.
    - eexists _, _. split; [reflexivity|]. split; auto. unfold timerExpire. destruct (tm_deadline (st_timer s)) as [dl|]; auto. destruct (dl <=? now); auto. destruct HE as [A1 A2 A3 A4]. split; auto.
    - unfold timerCallback, reportError. destruct (tm_pending (st_timer s)) as [|n]; cbn [st_done]; [|rewrite D]; cbn [obind fst snd]; eexists _, _; (split; [reflexivity|]; split; auto). destruct HE as [A1 A2 A3 A4]. split; auto.
  Qed.
  Lemma after_crash es : forall s1 s s' out b, there s1 -> doomed s1 s \/ ended s1 s -> rrun s es = Ret (s', out, b) -> out = [] /\ (doomed s1 s' \/ ended s1 s').
  Proof.
    induction es as [|e es IH]; intros s1 s s' out b HT H E; cbn [rec_run] in E. { apply Ret_inj in E. inversion E; subst. auto. }
    apply obind_ret in E as ([s2 l2] & E1 & E). apply obind_ret in E as ([[s3 l3] b3] & E2 & E). cbn [fst snd] in *. apply Ret_inj in E. inversion E; subst.
    assert (default [] l2 = [] /\ (doomed s1 s2 \/ ended s1 s2)) as [-> H2].
    { destruct H as [H|H]; [eapply doomed_step; eauto|]. destruct (ended_step s1 s e H) as (x & y & Ex & Ey & Ez). rewrite E1 in Ex. apply Ret_inj in Ex. inversion Ex; subst. auto. }
    destruct (IH s1 s2 _ _ _ HT H2 E2) as [-> H3]. auto.
  Qed.
  (** Nothing crashes that is not recovered from, if similar rounds can be reset. *)
  Lemma after_total es : forall s1 s, there s1 -> (forall r, sim (st_round s1) r -> exists r', r_reset I r = Ret r') -> st_closed s1 = 0%nat -> doomed s1 s \/ ended s1 s -> exists s' b, rrun s es = Ret (s', [], b).
  Proof.
    induction es as [|e es IH]; intros s1 s HT HR HC H; cbn [rec_run]; [eauto|].
    assert (exists s2 l2, step s e = Ret (s2, l2)) as (s2 & l2 & E1).
    { destruct H as [H|H]; [|destruct (ended_step s1 s e H) as (x & y & Ex & _); eauto]. destruct e as [now m|o o'|now|]; cbn [rec_step State.step obind fst snd]; eauto.
      - unfold ProcessAll_rec, ProcessAll. rewrite (dm_done _ _ H). destruct (negb _) eqn:EN; [cbn; eauto|]. pose proof (doomed_loop s1 s o H) as HL. destruct (process_loop _ _ _ _) as [r u|r c t|w]; [contradiction| |eauto].
        destruct HL as [HS _]. destruct (HR r HS) as [r' Er]. unfold reportError, finish. cbn [set_round st_done st_round st_err st_closed]. rewrite (dm_done _ _ H), Er. cbn [obind]. rewrite (dm_closed _ _ H), HC. cbn. eauto.
      - unfold timerCallback, reportError, finish. destruct (tm_pending (st_timer s)) as [|n]; cbn [st_done st_round st_closed obind]; [eauto|]. rewrite (dm_done _ _ H). destruct (HR _ (dm_sim _ _ H)) as [r' Er]. cbn [st_done]. rewrite Er. cbn [obind]. rewrite (dm_closed _ _ H), HC. cbn. eauto. }
    assert (default [] l2 = [] /\ (doomed s1 s2 \/ ended s1 s2)) as [X H2].
    { destruct H as [H|H]; [eapply doomed_step; eauto|]. destruct (ended_step s1 s e H) as (x & y & Ex & Ey & Ez). rewrite E1 in Ex. apply Ret_inj in Ex. inversion Ex; subst. auto. }
    destruct (IH s1 s2 HT HR HC H2) as (s3 & b3 & E3). rewrite E1. cbn [obind fst snd]. rewrite E3. cbn [obind fst snd]. rewrite X. eauto.
  Qed.

  Lemma rec_run_app es1 : forall es2 s, rrun s (es1 ++ es2) =
    obind (rrun s es1) (fun r1 => obind (rrun (fst (fst r1)) es2) (fun r2 => Ret (fst (fst r2), snd (fst r1) ++ snd (fst r2), snd r1 || snd r2))).
  Proof.
    induction es1 as [|e es1 IH]; intros es2 s; cbn [app rec_run obind fst snd].
    - destruct (rrun s es2) as [[[a b] c]|?|?]; reflexivity.
    - destruct (step s e) as [[s1 l1]|?|?]; cbn [obind fst snd]; auto. rewrite IH. destruct (rrun s1 es1) as [[[a b] c]|?|?]; cbn [obind fst snd]; auto.
      destruct (rrun a es2) as [[[d f] g]|?|?]; cbn [obind fst snd]; auto. rewrite app_assoc. now destruct l1.
  Qed.
  Lemma first_crash es : forall s0 s out, rrun s0 es = Ret (s, out, true) -> exists es1 o o' es2 s1 s2 o1 o2 b,
    es = es1 ++ EProcess o o' :: es2 /\ run I s0 es1 = Ret (s1, o1) /\ ProcessAll_rec I after o o' s1 = Ret (s2, None) /\ rrun s2 es2 = Ret (s, o2, b) /\ out = o1 ++ o2.
  Proof.
    induction es as [|e es IH]; intros s0 s out E; cbn [rec_run] in E; [apply Ret_inj in E; discriminate|].
    apply obind_ret in E as ([s1 l1] & E1 & E). cbn [fst snd] in E. apply obind_ret in E as ([[s2 o2] b2] & E2 & E). cbn [fst snd] in E. apply Ret_inj in E. inversion E; subst. destruct l1 as [l|].
    - subst b2. destruct (IH _ _ _ E2) as (es1 & o & o' & es2 & s3 & s4 & o3 & o4 & b & -> & A & B & C & ->).
      exists (e :: es1), o, o', es2, s3, s4, (l ++ o3), o4, b. split; auto. split; [|split; auto; split; auto; cbn [default]; unfold id; now rewrite app_assoc].
      apply run_is_rec in A. apply rec_is_run. cbn [rec_run]. rewrite E1. cbn [obind fst snd]. rewrite A. reflexivity.
    - destruct e as [now m|o o'|now|]; cbn [rec_step] in E1; try (apply obind_ret in E1 as (? & _ & E1); apply Ret_inj in E1; discriminate).
      exists [], o, o', es, s0, s1, [], o2, b2. repeat split; auto.
  Qed.
  Lemma rec_panics o o' s1 s : ProcessAll_rec I after o o' s1 = Ret (s, None) -> exists w, ProcessAll I o o' s1 = Panics w.
  Proof.
    intros E. apply rec_cases in E as (D & HN & (w & EL) & _). exists w. unfold ProcessAll. apply Z.eqb_eq in HN. now rewrite D, HN, EL.
  Qed.
  Lemma crash_shape s0 es s out : (forall es1 s1 o1 o o' w, run I s0 es1 = Ret (s1, o1) -> ProcessAll I o o' s1 = Panics w -> there s1) -> rrun s0 es = Ret (s, out, true) ->
    exists es1 o o' es2 s1 w, es = es1 ++ EProcess o o' :: es2 /\ run I s0 es1 = Ret (s1, out) /\ ProcessAll I o o' s1 = Panics w /\ (doomed s1 s \/ ended s1 s).
  Proof.
    intros HT E. destruct (first_crash _ _ _ _ E) as (es1 & o & o' & es2 & s1 & s2 & o1 & o2 & b & -> & E1 & E2 & E3 & ->). destruct (rec_panics _ _ _ _ E2) as [w Ew].
    destruct (after_crash es2 s1 s2 s o2 b (HT _ _ _ _ _ _ E1 Ew) (or_introl (crash_doomed _ _ _ _ E2)) E3) as [-> H]. exists es1, o, o', es2, s1, w. rewrite app_nil_r. auto.
  Qed.
  (** A message that can be blamed in [s] could be blamed in the State that crashed, if accepted messages stay as they are. *)
  Lemma blame_before s1 c t : st_done s1 = false -> st_err s1 = None -> st_closed s1 = 0%nat -> Z.of_nat (size (st_received s1)) = u16 (N_ids (r_ids I (st_round s1)) - 1) ->
    (forall r, sim (st_round s1) r -> exists r', r_reset I r = Ret r') ->
    (exists k v, st_received s1 !! k = Some v /\ verdict_of (r_process I (st_round s1) v) = Some (inl (c, t))) ->
    exists sched s', ProcessAll I sched [] s1 = Ret (s', []) /\ st_err s' = Some (mkPError c (st_roundNumber s1) t).
  Proof.
    intros D Er C F HR (k & v & Hk & Hv). destruct (order_from _ k v Hk) as (sched & tl & E). exists sched. unfold ProcessAll. rewrite D, E, (proj2 (Z.eqb_eq _ _) F). cbn [negb process_loop]. rewrite Hk. cbn [default]. unfold id.
    destruct (r_process I (st_round s1) v) as [r u|r c' t'|w] eqn:EP; try discriminate. injection Hv as <- <-. unfold reportError, finish. cbn [set_round st_done st_round st_err st_closed]. rewrite D.
    destruct (HR r (rc_err OK _ _ _ _ _ EP)) as [r' ->]. cbn [obind]. rewrite C, Er. cbn. eauto.
  Qed.
End Generic.

(** ** Signing *)
Section SignRecover.
  Context `{L : group_laws} `{Hf : hash_fn} (HH : hash_ok Hf).
  Definition checked (p : signer) : G * G := (sg_Public p, sg_Ri p).
  Definition sg_sim (a b : sround) : Prop := sr_no a = sr_no b /\ sr_self a = sr_self b /\ sr_ids a = sr_ids b /\ sr_C a = sr_C b /\ sr_out a = sr_out b /\
    forall i, option_map checked (sr_Parties a !! i) = option_map checked (sr_Parties b !! i).
  Lemma sign_recoverable : recoverable sign_round sg_after sg_sim (fun _ m m' => m' = m).
  Proof.
    split.
    - intros r. repeat split; auto.
    - intros a b c (A1 & A2 & A3 & A4 & A5 & A6) (B1 & B2 & B3 & B4 & B5 & B6). repeat split; congruence.
    - intros a b (A1 & A2 & A3 & _). auto.
    - intros r m r' E. cbn in E. destruct (sr_no r) as [|[|n]] eqn:En.
      + injection E as <-. repeat split; auto.
      + unfold sg1_process in E. destruct m as [m|]; [|discriminate]. destruct (m_Sign1 m); [|discriminate]. destruct (_ || _); [discriminate|]. destruct (sr_Parties r !! m_From m) as [p|] eqn:Ep; [|discriminate].
        injection E as <-. unfold sg_set_parties. repeat split; auto. cbn [sr_Parties]. intros i. destruct (decide (m_From m = i)) as [<-|N]; [rewrite lookup_insert, Ep; reflexivity|now rewrite lookup_insert_ne].
      + unfold sg2_process in E. destruct m as [m|]; [|discriminate]. destruct (sr_Parties r !! m_From m) as [p|] eqn:Ep; [|discriminate]. destruct (m_Sign2 m); [|discriminate]. destruct (negb _); [discriminate|].
        injection E as <-. unfold sg_set_parties. repeat split; auto. cbn [sr_Parties]. intros i. destruct (decide (m_From m = i)) as [<-|N]; [rewrite lookup_insert, Ep; reflexivity|now rewrite lookup_insert_ne].
    - intros r m r' c t E. cbn in E. assert (r' = r) as ->; [|repeat split; auto]. destruct (sr_no r) as [|[|n]]; [discriminate| |].
      + unfold sg1_process in E. destruct m as [m|]; [|discriminate]. destruct (m_Sign1 m); [|discriminate]. destruct (_ || _); [congruence|]. destruct (sr_Parties r !! m_From m); discriminate.
      + unfold sg2_process in E. destruct m as [m|]; [|discriminate]. destruct (sr_Parties r !! m_From m); [|discriminate]. destruct (m_Sign2 m); [|discriminate]. destruct (negb _); [congruence|discriminate].
    - reflexivity.
    - reflexivity.
    - intros r a b c -> ->. reflexivity.
    - auto.
    - intros a b m (A1 & A2 & A3 & A4 & A5 & A6). cbn. rewrite A1. destruct (sr_no b) as [|[|n]]; auto; destruct m as [m|]; auto.
      + unfold sg1_process. destruct (m_Sign1 m); auto. destruct (_ || _); auto. specialize (A6 (m_From m)). now destruct (sr_Parties a !! m_From m), (sr_Parties b !! m_From m).
      + unfold sg2_process. specialize (A6 (m_From m)). destruct (sr_Parties a !! m_From m) as [p|], (sr_Parties b !! m_From m) as [q|]; try discriminate; auto. cbn [option_map] in A6. unfold checked in A6. injection A6 as B1 B2.
        destruct (m_Sign2 m); auto. rewrite B1, B2, A4. destruct (negb _); auto.
  Qed.
  Lemma sign_there rg now t ids secret shares message s0 es s out o o' w : List.NoDup ids -> Forall is_u16 ids -> NewSignState rg now t ids secret shares message = Ret s0 -> run sign_round s0 es = Ret (s, out) ->
    ProcessAll sign_round o o' s = Panics w -> st_done s = false /\ there sign_round s /\ sign_bodyless s.
  Proof. intros ND HU NEW RUN E. apply (C19_sign_exact HH _ _ _ _ _ _ _ _ _ _ _ ND HU NEW RUN). exists o, o', w. exact E. Qed.

  (** If no call crashed there is nothing to recover from.  After a crash (someone's message lacks its body, C19_sign_exact) the party sends nothing
      any more and has no signature, whatever is called on it; no call crashes that is not recovered from; and it ends, if it does, with its secrets erased, and
      with an error that is the timeout or one that the State that crashed would have reported had it looked at the messages in another order. *)
  Theorem C71_sign : forall rg now t ids secret shares message s0 es s out b, List.NoDup ids -> Forall is_u16 ids ->
    NewSignState rg now t ids secret shares message = Ret s0 -> sign_rec_run s0 es = Ret (s, out, b) ->
    if b then
      exists es1 o o' es2 s1 w, es = es1 ++ EProcess o o' :: es2 /\ run sign_round s0 es1 = Ret (s1, out) /\ ProcessAll sign_round o o' s1 = Panics w /\
        sg_output s = None /\ st_roundNumber s = st_roundNumber s1 /\
        (if st_done s then sr_SecretKeyShare (st_round s) = f0 /\ sr_d (st_round s) = f0 /\ sr_e (st_round s) = f0 /\
           (st_err s = Some (mkPError 0 (st_roundNumber s1) "message timeout") \/ exists sched s', ProcessAll sign_round sched [] s1 = Ret (s', []) /\ st_err s <> None /\ st_err s' = st_err s)
         else st_err s = None) /\
        forall es', exists s' b', sign_rec_run s es' = Ret (s', [], b')
    else run sign_round s0 es = Ret (s, out).
  Proof.
    intros rg now t ids secret shares message s0 es s out b ND HU NEW E. destruct b; [|eapply rec_is_run; exact E].
    destruct (crash_shape _ _ _ _ sign_recoverable s0 es s out) as (es1 & o & o' & es2 & s1 & w & -> & E1 & EP & HC); auto.
    { intros. eapply sign_there; eauto. }
    destruct (sign_there _ _ _ _ _ _ _ _ _ _ _ _ _ _ ND HU NEW E1 EP) as (D & HT & HB). exists es1, o, o', es2, s1, w. do 3 (split; auto).
    pose proof (C01_no_output_otherwise _ _ _ _ _ _ _ _ NEW s1 out (ex_intro _ _ E1) (or_introl D)) as Ho. unfold sg_output in *.
    assert (inv sign_round s1) as HI. { destruct (NewSignState_round _ _ _ _ _ _ _ _ NEW) as (r0 & X1 & ->). eapply (inv_run sign_round); [apply sign_round_ok|apply inv_init|exact E1]. }
    pose proof (inv_closed _ _ HI) as C. rewrite D in C. pose proof (inv_err _ _ HI D) as Er.
    assert (forall r, exists r', r_reset sign_round r = Ret r') as HR by (intros r; cbn; unfold sg_Reset; eauto).
    assert (forall es', exists s' b', sign_rec_run s es' = Ret (s', [], b')) as HG. { intros es'. eapply (after_total _ _ _ _ sign_recoverable); eauto. }
    destruct HC as [HC|HC].
    - pose proof (dm_sim _ _ _ _ _ HC) as (_ & _ & _ & _ & X & _). rewrite (dm_done _ _ _ _ _ HC). split; [congruence|]. split; [apply HC|]. split; auto. rewrite (dm_err _ _ _ _ _ HC). exact Er.
    - destruct (ed_reset _ _ _ _ _ HC) as (r & (_ & _ & _ & _ & X & _) & Rr). cbn in Rr. unfold sg_Reset in Rr. apply Ret_inj in Rr. rewrite (ed_done _ _ _ _ _ HC). rewrite <- Rr. cbn [sr_out sr_SecretKeyShare sr_d sr_e].
      split; [congruence|]. split; [apply HC|]. split; auto. do 3 (split; auto). destruct (ed_err _ _ _ _ _ HC) as (c & tx & HRe & Es). rewrite Er in Es. destruct HRe as [[-> ->]|(k & v & v' & Hk & Hst & Hv)]; [left; exact Es|right].
      assert (v' = v) as -> by (destruct v, v'; cbn in Hst; try contradiction; congruence).
      assert (Z.of_nat (size (st_received s1)) = u16 (N_ids (r_ids sign_round (st_round s1)) - 1)) as F.
      { unfold ProcessAll in EP. rewrite D in EP. destruct (Z.eqb_spec (Z.of_nat (size (st_received s1))) (u16 (N_ids (r_ids sign_round (st_round s1)) - 1))); auto. discriminate. }
      destruct (blame_before _ _ _ _ sign_recoverable s1 c tx D Er C F (fun r _ => HR r)) as (sched & s' & A1 & A2); [eauto|]. exists sched, s'. split; auto. split; congruence.
  Qed.
  (** With such a caller no history crashes. *)
  Theorem C71_sign_total : forall rg now t ids secret shares message s0 es, List.NoDup ids -> Forall is_u16 ids ->
    NewSignState rg now t ids secret shares message = Ret s0 -> exists s out b, sign_rec_run s0 es = Ret (s, out, b).
  Proof.
    intros rg now t ids secret shares message s0 es ND HU NEW. induction es as [|e es IH] using rev_ind; [cbn; eauto|]. destruct IH as (s & out & b & E). unfold sign_rec_run. rewrite rec_run_app. fold sign_rec_run. rewrite E. cbn [obind fst snd].
    assert (exists s' o' b', sign_rec_run s [e] = Ret (s', o', b')) as (s' & o' & b' & E'); [|rewrite E'; cbn; eauto]. pose proof (C71_sign _ _ _ _ _ _ _ _ _ _ _ _ ND HU NEW E) as HS. destruct b.
    - destruct HS as (es1 & o & o' & es2 & s1 & w & _ & _ & _ & _ & _ & _ & H). destruct (H [e]) as (s' & b' & X). eauto.
    - assert (inv sign_round s) as HI. { destruct (NewSignState_round _ _ _ _ _ _ _ _ NEW) as (r0 & X1 & ->). eapply (inv_run sign_round); [apply sign_round_ok|apply inv_init|exact HS]. }
      assert (exists s' l, rec_step sign_round sg_after s e = Ret (s', l)) as (s' & l & X); [|unfold sign_rec_run; cbn [rec_run]; rewrite X; cbn; eauto].
      assert (forall x c tx, st_done x = st_done s -> st_closed x = st_closed s -> exists y, reportError sign_round x c tx = Ret y) as HRep.
      { intros x c tx X1 X2. unfold reportError, finish. cbn [st_done st_round st_closed]. rewrite X1, X2. pose proof (inv_closed _ _ HI) as C. destruct (st_done s); [eauto|]. cbn [sign_round r_reset]. unfold sg_Reset. cbn [obind]. rewrite C. eauto. }
      destruct e as [nw m|o o'|nw|]; cbn [rec_step step obind]; eauto.
      + destruct (ProcessAll sign_round o o' s) as [[s' l]|tx|w] eqn:EP.
        * unfold ProcessAll_rec. rewrite EP. cbn [obind fst snd]. destruct (st_done s); eauto. destruct (negb _); eauto. destruct (process_loop _ _ _ _); eauto.
        * exfalso. unfold ProcessAll in EP. destruct (st_done s) eqn:D; [discriminate|]. destruct (negb _); [discriminate|]. destruct (process_loop _ _ _ _) as [r u|r c tx'|w]; try discriminate.
          -- destruct (r_generate _ _ _) as [r' l|r' c tx'|w]; try discriminate; [|destruct (HRep (set_round (mkState (st_accepted s) ∅ (st_queue s) (st_timer s) (st_roundNumber s) r (st_closed s) (st_done s) (st_err s)) r') c tx') as [y Ey]; cbn; auto; try congruence; rewrite <- D in EP; rewrite Ey in EP; discriminate].
             destruct (st_accepted s) as [|a l0]; [discriminate|]. destruct (match l0 with [] => _ | _ => _ end). destruct (r_next _ _); [discriminate|]. unfold finish in EP. cbn [st_done st_round st_closed] in EP. try rewrite D in EP. cbn in EP. pose proof (inv_closed _ _ HI) as C. rewrite D in C. rewrite C in EP. discriminate.
          -- destruct (HRep (set_round s r) c tx') as [y Ey]; auto. rewrite Ey in EP. discriminate.
        * destruct (sign_there _ _ _ _ _ _ _ _ _ _ _ _ _ _ ND HU NEW HS EP) as (D & HT & k & m & Hk & Hm). unfold ProcessAll_rec. rewrite EP. unfold ProcessAll in EP. rewrite D in *. destruct (negb _) eqn:EN; [discriminate|].
          pose proof (loop_sim _ _ _ _ sign_recoverable (st_received s) (map_keys o (st_received s)) (st_round s)) as HL. destruct (process_loop _ _ _ _) as [r u|r c tx|w'] eqn:EL; [| |eauto].
          -- exfalso. destruct HL as [_ HL]. assert (In k (map_keys o (st_received s))) as Hin by (apply map_keys_In; eauto). specialize (HL k Hin). unfold at_ in HL. rewrite Hk in HL. cbn [default] in HL. unfold id in HL.
             destruct (NewSignState_round _ _ _ _ _ _ _ _ NEW) as (r0 & X1 & ->). pose proof (sign_run HH (given es) rg ids secret shares message r0 X1 ND HU now t es s out (given_events es) HS) as HLi.
             destruct (li_P _ _ _ _ _ _ _ HLi D) as (n & En & Ea & HP). pose proof (linv_rcv_ok sign_round (given es) r0 _ _ s out n HLi D En Ea) as HRc. destruct (ro_val _ _ _ _ _ HRc k m Hk) as (_ & _ & Ht & _). pose proof HP as (_ & Hno & _).
             cbn [sign_round r_process] in HL. rewrite Hno in HL. destruct n as [|[|[|n]]]; cbn [sign_round r_accepted nth_error] in Ht.
             ++ apply Some_inj in Ht. destruct Hm as [[Hm _]|[Hm _]]; rewrite <- Ht in Hm; discriminate.
             ++ apply Some_inj in Ht. destruct Hm as [[_ Hm]|[Hm _]]; [|rewrite <- Ht in Hm; discriminate]. unfold sg1_process in HL. rewrite Hm in HL. discriminate.
             ++ apply Some_inj in Ht. destruct Hm as [[Hm _]|[_ Hm]]; [rewrite <- Ht in Hm; discriminate|]. unfold sg2_process in HL. rewrite Hm in HL. destruct (sr_Parties _ !! _); discriminate.
             ++ destruct n; discriminate.
          -- exfalso. destruct (HRep (set_round s r) c tx) as [y Ey]; auto. rewrite Ey in EP. discriminate.
      + unfold timerCallback. destruct (tm_pending _); [cbn; eauto|]. match goal with |- context [reportError _ ?x ?c ?tx] => destruct (HRep x c tx) as [y ->]; auto end. cbn. eauto.
  Qed.
End SignRecover.

(** ** Key generation *)
Section KeygenRecover.
  Context `{L : group_laws} `{Hf : hash_fn}.
  Definition kg_sim (a b : kround) : Prop := kr_no a = kr_no b /\ kr_self a = kr_self b /\ kr_ids a = kr_ids b /\ kr_Polynomial a = kr_Polynomial b /\ kr_out a = kr_out b /\
    (kr_CommitmentsSum a = None <-> kr_CommitmentsSum b = None) /\ (kr_no a <> 1%nat -> kr_Commitments a = kr_Commitments b).
  Definition erased (m : Message) : Message := mkMessage (m_Header m) (m_KeyGen1 m) (Some (mkKeyGen2 f0)) (m_Sign1 m) (m_Sign2 m).
  Definition kg_mrel (r : kround) (m m' : Message) : Prop := m' = m \/ kr_no r = 2%nat /\ m_KeyGen2 m <> None /\ m' = erased m.
  Lemma kg_sim_refl r : kg_sim r r. Proof. repeat split; auto. Qed.
  Lemma keygen_recoverable : recoverable keygen_round kg_after kg_sim kg_mrel.
  Proof.
    split.
    - apply kg_sim_refl.
    - intros a b c (A1 & A2 & A3 & A4 & A5 & A6 & A7) (B1 & B2 & B3 & B4 & B5 & B6 & B7). split; [congruence|]. split; [congruence|]. split; [congruence|]. split; [congruence|]. split; [congruence|]. split; [tauto|].
      intros N. rewrite A7 by auto. apply B7. congruence.
    - intros a b (A1 & A2 & A3 & _). auto.
    - intros r m r' E. cbn in E. destruct (kr_no r) as [|[|n]] eqn:En.
      + injection E as <-. apply kg_sim_refl.
      + unfold kg1_process in E. destruct m as [m|]; [|discriminate]. destruct (m_KeyGen1 m); [|discriminate]. destruct (exp_constant _); cbn [lift_r] in E; try discriminate. destruct (zk_Verify _ _ _ _); cbn [lift_r] in E; try discriminate.
        destruct (negb _); [discriminate|]. destruct (kr_CommitmentsSum r) as [cs|] eqn:Ec; [|discriminate]. injection E as <-. unfold kg_sim. cbn. rewrite Ec. repeat split; auto; try discriminate. congruence.
      + unfold kg2_process in E. destruct m as [m|]; [|discriminate]. destruct (m_KeyGen2 m); [|discriminate]. destruct (kr_Commitments r !! m_From m); [|discriminate]. destruct (id_scalar _); cbn [lift_r] in E; try discriminate.
        destruct (exp_eval _ _); cbn [lift_r] in E; try discriminate. destruct (negb _); [discriminate|]. injection E as <-. unfold kg_sim. cbn. repeat split; auto.
    - intros r m r' c t E. cbn in E. assert (r' = r) as ->; [|apply kg_sim_refl]. destruct (kr_no r) as [|[|n]]; [discriminate| |].
      + unfold kg1_process in E. destruct m as [m|]; [|discriminate]. destruct (m_KeyGen1 m); [|discriminate]. destruct (exp_constant _); cbn [lift_r] in E; try discriminate. destruct (zk_Verify _ _ _ _); cbn [lift_r] in E; try discriminate.
        destruct (negb _); [congruence|]. destruct (kr_CommitmentsSum r); discriminate.
      + unfold kg2_process in E. destruct m as [m|]; [|discriminate]. destruct (m_KeyGen2 m); [|discriminate]. destruct (kr_Commitments r !! m_From m); [|discriminate]. destruct (id_scalar _); cbn [lift_r] in E; try discriminate.
        destruct (exp_eval _ _); cbn [lift_r] in E; try discriminate. destruct (negb _); [congruence|discriminate].
    - intros r m. unfold kg_after, kg_mrel. destruct (Nat.eqb_spec (kr_no r) 2); [|auto]. destruct (m_KeyGen2 m) eqn:E; [|auto]. right. split; auto.
    - intros r m. now left.
    - intros r a b c [->|(A1 & A2 & ->)] [->|(B1 & B2 & ->)]; [now left|right; auto|right; auto|right; auto].
    - intros a b m m' (A1 & _) [->|(B1 & B2 & ->)]; [now left|]. right. split; [congruence|auto].
    - intros a b m (A1 & A2 & A3 & A4 & A5 & A6 & A7). cbn. rewrite <- A1. destruct (kr_no a) as [|[|n]] eqn:En; auto; destruct m as [m|]; auto.
      + unfold kg1_process. destruct (m_KeyGen1 m); auto. destruct (exp_constant _); cbn [lift_r]; auto. destruct (zk_Verify _ _ _ _); cbn [lift_r]; auto. destruct (negb _); auto.
        destruct (kr_CommitmentsSum a) eqn:Ea, (kr_CommitmentsSum b) eqn:Eb; auto; [destruct A6 as [_ A6]; discriminate A6; auto|destruct A6 as [A6 _]; discriminate A6; auto].
      + unfold kg2_process. rewrite A7 by congruence. rewrite A2. destruct (m_KeyGen2 m); auto. destruct (kr_Commitments b !! m_From m); auto. destruct (id_scalar _); cbn [lift_r]; auto. destruct (exp_eval _ _); cbn [lift_r]; auto. destruct (negb _); auto.
  Qed.
  Lemma keygen_there rg now t self ids thr s0 es s out o o' w : valid_ids ids -> is_u16 thr -> NewKeygenState rg now t self ids thr = Ret s0 -> run keygen_round s0 es = Ret (s, out) ->
    ProcessAll keygen_round o o' s = Panics w -> st_done s = false /\ there keygen_round s /\ keygen_bodyless s.
  Proof. intros V HT NEW RUN E. apply (C19_keygen_exact _ _ _ _ _ _ _ _ _ _ V HT NEW RUN). exists o, o', w. exact E. Qed.
  (** A State that crashed is past its first round, so it can be reset. *)
  Lemma keygen_past rg now t self ids thr s0 es s out : valid_ids ids -> is_u16 thr -> NewKeygenState rg now t self ids thr = Ret s0 -> run keygen_round s0 es = Ret (s, out) ->
    st_done s = false -> keygen_bodyless s -> exists n, (n = 1%nat \/ n = 2%nat) /\ st_roundNumber s = Z.of_nat n /\ kr_no (st_round s) = n /\ (forall r, kg_sim (st_round s) r -> exists r', r_reset keygen_round r = Ret r') /\
      exists k m, st_received s !! k = Some (Some m) /\ exists w, r_process keygen_round (st_round s) (Some m) = RPanic w.
  Proof.
    intros V HT NEW RUN D (k & m & Hk & Hm). destruct (NewKeygenState_round _ _ _ _ _ _ _ NEW) as (r0 & X1 & ->). pose proof (keygen_run (given es) rg self ids thr r0 X1 V HT now t es s out (given_events es) RUN) as HL.
    destruct (li_P _ _ _ _ _ _ _ HL D) as (n & En & Ea & HP). pose proof (linv_rcv_ok keygen_round (given es) r0 _ _ s out n HL D En Ea) as HRc. destruct (ro_val _ _ _ _ _ HRc k m Hk) as (_ & _ & Ht & _). pose proof HP as (_ & Hno & HX).
    assert (n = 1%nat \/ n = 2%nat) as Hn. { destruct n as [|[|[|n]]]; [|auto|auto|contradiction]. apply Some_inj in Ht. destruct Hm as [[Hm _]|[Hm _]]; rewrite <- Ht in Hm; discriminate. }
    exists n. split; auto. split; auto. split; auto. split.
    - intros r (A1 & A2 & A3 & A4 & A5 & A6 & A7). destruct (PK_reset (given es) rg self ids thr n (st_round s) out HP ltac:(lia)) as [r3 E3]. unfold kg_Reset in E3. cbn. unfold kg_Reset. rewrite <- A4.
      destruct (kr_Polynomial (st_round s)); [|discriminate]. destruct (kr_CommitmentsSum (st_round s)) eqn:Ec; [|discriminate]. destruct (kr_CommitmentsSum r) eqn:Er; [eauto|]. destruct A6 as [_ A6]. discriminate A6; auto.
    - exists k, m. split; auto. cbn [keygen_round r_process]. rewrite Hno. destruct Hn as [->| ->]; apply Some_inj in Ht.
      + destruct Hm as [[_ Hm]|[Hm _]]; [|rewrite <- Ht in Hm; discriminate]. unfold kg1_process. destruct (m_KeyGen1 m) as [b|]; eauto. rewrite (Hm b eq_refl). cbn. eauto.
      + destruct Hm as [[Hm _]|[_ Hm]]; [rewrite <- Ht in Hm; discriminate|]. unfold kg2_process. rewrite Hm. eauto.
  Qed.

  (** As for signing, but a party can be blamed that the State that crashed had no fault to find with: in the last round the share in a message is
      erased when it has been added, and is not looked at a second time without an error. *)
  Theorem C71_keygen : forall rg now t self ids thr s0 es s out b, valid_ids ids -> is_u16 thr ->
    NewKeygenState rg now t self ids thr = Ret s0 -> keygen_rec_run s0 es = Ret (s, out, b) ->
    if b then
      exists es1 o o' es2 s1 w, es = es1 ++ EProcess o o' :: es2 /\ run keygen_round s0 es1 = Ret (s1, out) /\ ProcessAll keygen_round o o' s1 = Panics w /\
        kg_output s = mkKOutput None None /\ st_roundNumber s = st_roundNumber s1 /\
        (if st_done s then kr_Secret (st_round s) = f0 /\ (exists p, kr_Polynomial (st_round s) = Some p /\ Forall (eq f0) p) /\
           (st_err s = Some (mkPError 0 (st_roundNumber s1) "message timeout") \/ (exists sched s', ProcessAll keygen_round sched [] s1 = Ret (s', []) /\ st_err s <> None /\ st_err s' = st_err s) \/
            (st_roundNumber s1 = 2 /\ exists c m r', st_err s = Some (mkPError c 2 "VSS failed to validate") /\ st_received s1 !! c = Some (Some m) /\ r_process keygen_round (st_round s1) (Some m) = ROk r' tt))
         else st_err s = None) /\
        forall es', exists s' b', keygen_rec_run s es' = Ret (s', [], b')
    else run keygen_round s0 es = Ret (s, out).
  Proof.
    intros rg now t self ids thr s0 es s out b V HU NEW E. destruct b; [|eapply rec_is_run; exact E].
    destruct (crash_shape _ _ _ _ keygen_recoverable s0 es s out) as (es1 & o & o' & es2 & s1 & w & -> & E1 & EP & HC); auto.
    { intros. eapply keygen_there; eauto. }
    destruct (keygen_there _ _ _ _ _ _ _ _ _ _ _ _ _ V HU NEW E1 EP) as (D & HT & HB). exists es1, o, o', es2, s1, w. do 3 (split; auto).
    pose proof (C06_no_output_otherwise _ _ _ _ _ _ _ NEW V HU _ _ _ E1 (or_introl D)) as Ho. unfold kg_output in *.
    assert (inv keygen_round s1) as HI. { destruct (NewKeygenState_round _ _ _ _ _ _ _ NEW) as (r0 & X1 & ->). eapply (inv_run keygen_round); [apply keygen_round_ok|apply inv_init|exact E1]. }
    pose proof (inv_closed _ _ HI) as C. rewrite D in C. pose proof (inv_err _ _ HI D) as Er.
    destruct (keygen_past _ _ _ _ _ _ _ _ _ _ V HU NEW E1 D HB) as (n & Hn & En & Hno & HR & _).
    assert (forall es', exists s' b', keygen_rec_run s es' = Ret (s', [], b')) as HG. { intros es'. eapply (after_total _ _ _ _ keygen_recoverable); eauto. }
    destruct HC as [HC|HC].
    - pose proof (dm_sim _ _ _ _ _ HC) as (_ & _ & _ & _ & X & _). rewrite (dm_done _ _ _ _ _ HC). split; [congruence|]. split; [apply HC|]. split; auto. rewrite (dm_err _ _ _ _ _ HC). exact Er.
    - destruct (ed_reset _ _ _ _ _ HC) as (r & (_ & _ & _ & _ & X & _) & Rr). cbn in Rr. unfold kg_Reset in Rr. destruct (kr_Polynomial r) as [p|]; [|discriminate]. destruct (kr_CommitmentsSum r); [|discriminate]. apply Ret_inj in Rr. rewrite (ed_done _ _ _ _ _ HC). rewrite <- Rr. cbn [kr_out kr_Secret kr_Polynomial].
      split; [congruence|]. split; [apply HC|]. split; auto. split; auto. split. { exists (poly_reset p). split; auto. unfold poly_reset. clear. induction p; cbn; auto. }
      destruct (ed_err _ _ _ _ _ HC) as (c & tx & HRe & Es). rewrite Er in Es. destruct HRe as [[-> ->]|(k & v & v' & Hk & Hst & Hv)]; [left; exact Es|right].
      assert (Z.of_nat (size (st_received s1)) = u16 (N_ids (r_ids keygen_round (st_round s1)) - 1)) as F.
      { unfold ProcessAll in EP. rewrite D in EP. destruct (Z.eqb_spec (Z.of_nat (size (st_received s1))) (u16 (N_ids (r_ids keygen_round (st_round s1)) - 1))); auto. discriminate. }
      assert ((exists k v, st_received s1 !! k = Some v /\ verdict_of (r_process keygen_round (st_round s1) v) = Some (inl (c, tx))) -> exists sched s', ProcessAll keygen_round sched [] s1 = Ret (s', []) /\ st_err s <> None /\ st_err s' = st_err s) as HBl.
      { intros HX. destruct (blame_before _ _ _ _ keygen_recoverable s1 c tx D Er C F HR HX) as (sched & s' & A1 & A2). exists sched, s'. split; auto. split; congruence. }
      destruct v as [m|], v' as [m'|]; cbn in Hst; try contradiction; [|left; apply HBl; eauto]. destruct Hst as [->|(H2 & Hb & ->)]; [left; apply HBl; eauto|].
      assert (m_From m = k) as Hfr. { destruct (inv_received _ _ HI k _ Hk) as (_ & _ & X2 & _). exact X2. }
      destruct (m_KeyGen2 m) as [b|] eqn:Eb; [|congruence]. cbn [keygen_round r_process] in Hv. rewrite H2 in Hv. unfold kg2_process in Hv. cbn [erased m_KeyGen2 m_From m_Header] in Hv. unfold m_From at 1 in Hv. fold (m_From m) in Hv.
      change (h_From (m_Header (erased m))) with (m_From m) in Hv.
      destruct (kr_Commitments (st_round s1) !! m_From m) as [cm|] eqn:Ecm; [|discriminate]. destruct (id_scalar (kr_self (st_round s1))) as [x|?|?] eqn:Ex; cbn [lift_r] in Hv; try discriminate.
      destruct (exp_eval cm x) as [y|?|?] eqn:Ey; cbn [lift_r] in Hv; try discriminate. destruct (negb (geqb (gbmul (k2_Share (mkKeyGen2 f0))) y)); [|discriminate]. cbn [verdict_of] in Hv. injection Hv as Hc <-.
      change (m_From (erased m)) with (m_From m) in Hc.
      destruct (geqb (gbmul (k2_Share b)) y) eqn:Eg.
      + right. assert (st_roundNumber s1 = 2) as E2 by lia. split; auto. exists c, m. eexists. split; [congruence|]. split; [congruence|]. cbn [keygen_round r_process]. rewrite H2. unfold kg2_process. rewrite Eb, Ecm, Ex. cbn [lift_r]. rewrite Ey. cbn [lift_r]. rewrite Eg. reflexivity.
      + left. apply HBl. exists k, (Some m). split; auto. cbn [keygen_round r_process]. rewrite H2. unfold kg2_process. rewrite Eb, Ecm, Ex. cbn [lift_r]. rewrite Ey. cbn [lift_r]. rewrite Eg. cbn. congruence.
  Qed.

  (** A call on a State no call of which has crashed: only the timer's callback in round 0 is not recovered from. *)
  Lemma keygen_rec_step rg now t self ids thr s0 es s out e : valid_ids ids -> is_u16 thr -> NewKeygenState rg now t self ids thr = Ret s0 -> run keygen_round s0 es = Ret (s, out) ->
    (e = ECallback -> st_done s = true \/ st_roundNumber s <> 0) -> exists s' l, rec_step keygen_round kg_after s e = Ret (s', l).
  Proof.
    intros V HU NEW HS HE. destruct e as [nw m|o o'|nw|]; cbn [rec_step step obind]; eauto.
    - assert (inv keygen_round s) as HI. { destruct (NewKeygenState_round _ _ _ _ _ _ _ NEW) as (r0 & X1 & ->). eapply (inv_run keygen_round); [apply keygen_round_ok|apply inv_init|exact HS]. }
      destruct (ProcessAll keygen_round o o' s) as [[s' l]|tx|w] eqn:EP.
      + unfold ProcessAll_rec. rewrite EP. cbn [obind fst snd]. destruct (st_done s); eauto. destruct (negb _); eauto. destruct (process_loop _ _ _ _); eauto.
      + exfalso. assert (forall x c t, reportError keygen_round x c t <> Fail tx) as HF.
        { intros x c t'. unfold reportError, finish. cbn [st_done st_round st_closed]. destruct (st_done x); [discriminate|]. cbn [keygen_round r_reset]. destruct (kg_Reset (st_round x)) eqn:EK; cbn [obind]; try discriminate; [destruct (st_closed x); discriminate|].
          exfalso. unfold kg_Reset in EK. destruct (kr_Polynomial (st_round x)), (kr_CommitmentsSum (st_round x)); discriminate. }
        assert (forall x, finish keygen_round x <> Fail tx) as HF2.
        { intros x. unfold finish. destruct (st_done x); [discriminate|]. cbn [keygen_round r_reset]. destruct (kg_Reset (st_round x)) eqn:EK; cbn [obind]; try discriminate; [destruct (st_closed x); discriminate|].
          exfalso. unfold kg_Reset in EK. destruct (kr_Polynomial (st_round x)), (kr_CommitmentsSum (st_round x)); discriminate. }
        assert (forall (o : outcome (State kround)) (l : list Message), o <> Fail tx -> obind o (fun s' => Ret (s', l)) <> Fail tx) as HB by (intros [?|?|?] l H; cbn; congruence).
        unfold ProcessAll in EP. destruct (st_done s); [discriminate|]. destruct (negb _); [discriminate|]. destruct (process_loop _ _ _ _) as [r u|r c tx'|w]; try discriminate.
        * destruct (r_generate _ _ _) as [r' l|r' c tx'|w]; try discriminate; [|revert EP; apply HB, HF].
          destruct (st_accepted s) as [|a l0]; [discriminate|]. destruct (match l0 with [] => _ | _ => _ end). destruct (r_next _ _); [discriminate|]. revert EP. apply HB, HF2.
        * revert EP. apply HB, HF.
      + destruct (keygen_there _ _ _ _ _ _ _ _ _ _ _ _ _ V HU NEW HS EP) as (D & HT & HB). destruct (keygen_past _ _ _ _ _ _ _ _ _ _ V HU NEW HS D HB) as (n & Hn & En & Hno & HR & k & m & Hk & w' & Hm).
        unfold ProcessAll_rec. rewrite EP. unfold ProcessAll in EP. rewrite D in *. destruct (negb _) eqn:EN; [discriminate|].
        pose proof (loop_sim _ _ _ _ keygen_recoverable (st_received s) (map_keys o (st_received s)) (st_round s)) as HL. destruct (process_loop _ _ _ _) as [r u|r c tx|w2] eqn:EL; [| |eauto].
        * exfalso. destruct HL as [_ HL]. assert (In k (map_keys o (st_received s))) as Hin by (apply map_keys_In; eauto). specialize (HL k Hin). unfold at_ in HL. rewrite Hk in HL. cbn [default] in HL. unfold id in HL. rewrite Hm in HL. discriminate.
        * exfalso. destruct HL as [HL _]. destruct (HR r HL) as [r' Hr']. unfold reportError, finish in EP. cbn [set_round st_done st_round st_closed] in EP. rewrite D in EP. cbn [st_done] in EP. rewrite Hr' in EP. cbn [obind] in EP.
          pose proof (inv_closed _ _ HI) as C. rewrite D in C. rewrite C in EP. discriminate.
    - specialize (HE eq_refl). destruct (timerCallback keygen_round s) as [y|tx|w] eqn:ET; [cbn; eauto| |].
      + exfalso. unfold timerCallback, reportError, finish in ET. destruct (tm_pending _); [discriminate|]. cbn [st_done st_round st_closed] in ET. destruct (st_done s); [discriminate|]. cbn [keygen_round r_reset st_done] in ET. unfold kg_Reset in ET.
        destruct (kr_Polynomial (st_round s)), (kr_CommitmentsSum (st_round s)); cbn [obind] in ET; try discriminate. destruct (st_closed s); discriminate.
      + exfalso. destruct (proj1 (C17_keygen_exact _ _ _ _ _ _ _ _ _ _ V HU NEW HS) (ex_intro _ w ET)) as (_ & X1 & X2). destruct HE; [congruence|contradiction].
  Qed.
  Theorem C71_keygen_total : forall rg now t self ids thr s0 es, valid_ids ids -> is_u16 thr -> NewKeygenState rg now t self ids thr = Ret s0 ->
    (Forall (fun e => e <> ECallback) es \/ (exists sched sched' es', es = EProcess sched sched' :: es')) ->
    exists s out b, keygen_rec_run s0 es = Ret (s, out, b).
  Proof.
    intros rg now t self ids thr s0 es V HU NEW HE.
    assert (forall es s out, keygen_rec_run s0 es = Ret (s, out, true) -> forall e, exists s' b', keygen_rec_run s [e] = Ret (s', [], b')) as HX.
    { intros es1 s out E e. destruct (C71_keygen _ _ _ _ _ _ _ _ _ _ _ V HU NEW E) as (a1 & a2 & a3 & a4 & a5 & a6 & _ & _ & _ & _ & _ & _ & H). apply H. }
    destruct HE as [HE|(sched & sched' & es' & ->)].
    - induction es as [|e es IH] using rev_ind; [cbn; eauto|]. apply Forall_app in HE as [HE He]. inversion He; subst. destruct (IH HE) as (s & out & b & E). unfold keygen_rec_run. rewrite rec_run_app. fold keygen_rec_run. rewrite E. cbn [obind fst snd].
      assert (exists s' o' b', keygen_rec_run s [e] = Ret (s', o', b')) as (s' & o' & b' & E'); [|rewrite E'; cbn; eauto]. destruct b; [destruct (HX _ _ _ E e) as (s' & b' & X); eauto|].
      apply rec_is_run in E. destruct (keygen_rec_step _ _ _ _ _ _ _ _ _ _ e V HU NEW E) as (s' & l & X); [congruence|]. unfold keygen_rec_run. cbn [rec_run]. rewrite X. cbn. eauto.
    - assert (exists s out b, keygen_rec_run s0 (EProcess sched sched' :: es') = Ret (s, out, b) /\ (b = false -> st_done s = true \/ 1 <= st_roundNumber s)) as (s & out & b & E & _); [|eauto].
      induction es' as [|e es' IH] using rev_ind.
      + destruct (C35_runs_partial rg now t self ids thr s0 sched sched' [] V HU NEW) as (s & out & E). { intros m (nw & []). }
        exists s, out, false. split; [now apply run_is_rec|]. intros _. destruct (NewKeygenState_round _ _ _ _ _ _ _ NEW) as (r0 & X1 & ->).
        destruct (keygen_nopanic_started (fun _ => False) rg self ids thr r0 X1 V HU ltac:(intros ? []) ltac:(intros ? []) now t [] sched sched' ltac:(constructor)) as (s2 & o2 & E2 & _ & H). rewrite E in E2. apply Ret_inj in E2. inversion E2; subst. exact H.
      + destruct IH as (s & out & b & E & Hb). rewrite app_comm_cons. unfold keygen_rec_run. rewrite rec_run_app. fold keygen_rec_run. rewrite E. cbn [obind fst snd]. destruct b.
        * destruct (HX _ _ _ E e) as (s' & b' & X). rewrite X. cbn [obind fst snd]. eexists _, _, _. split; [reflexivity|discriminate].
        * specialize (Hb eq_refl). pose proof E as E0. apply rec_is_run in E0. destruct (keygen_rec_step _ _ _ _ _ _ _ _ _ _ e V HU NEW E0) as (s' & l & X).
          { intros ->. destruct Hb; [auto|right; lia]. }
          unfold keygen_rec_run. cbn [rec_run]. rewrite X. cbn [obind fst snd]. eexists _, _, _. split; [reflexivity|]. cbn [fst snd]. intros Hl. destruct l as [l|]; [|discriminate].
          assert (step keygen_round s e = Ret (s', l)) as X'.
          { destruct e as [nw m|o o'|nw|]; cbn [rec_step] in X; try (apply obind_ret in X as ([a b] & X1 & X2); apply Ret_inj in X2; inversion X2; subst; exact X1). exact (rec_cases _ _ _ _ _ _ _ X). }
          apply step_monotone in X' as (A & B & _). destruct Hb as [Hb|Hb]; [left; auto|right; lia].
  Qed.
End KeygenRecover.

(** Party 1 of three, in the last round: 2's share is fine, 3's message has no body.  ProcessAll adds 2's share and crashes; called again, it blames 2. *)
Definition tkr (s : outcome tkstate) es := obind s (fun s => @keygen_rec_run toy_group toy_hash s es).
Definition tsr (s : outcome tsstate) es := obind s (fun s => @sign_rec_run toy_group toy_hash s es).
Definition rview {R} (r : outcome (@State toy_group R * list tmsg * bool)) : option (bool * Z * nat * bool * option (Z * string)) :=
  match r with Ret (s, l, b) => Some (st_done s, st_roundNumber s, List.length l, b, option_map (fun e => (pe_PartyID e, pe_text e)) (st_err s)) | _ => None end.
Definition to_last : list (@event toy_group) := prc :: hnd (concat (map kg1_of k3)) ++ prc :: hnd (kg2_of 2 ++ [bare MTKeyGen2 3]).
Definition prc23 : @event toy_group := @EProcess toy_group [2; 3] [].
Definition prc32 : @event toy_group := @EProcess toy_group [3; 2] [].
Example C71_keygen_example :
  rview (tkr (tk_new k3 1 1 50) (to_last ++ [prc23])) = Some (false, 2, 3%nat, true, None) /\
  rview (tkr (tk_new k3 1 1 50) (to_last ++ [prc23; prc23])) = Some (true, 2, 3%nat, true, Some (2, "VSS failed to validate"%string)) /\
  rview (tkr (tk_new k3 1 1 50) (to_last ++ [prc32; prc32; EExpire 60; ECallback])) = Some (true, 2, 3%nat, true, Some (0, "message timeout"%string)).
Proof. vm_compute. auto. Qed.
Example C71_sign_example :
  rview (tsr (ts_new s13 1 50) (prc :: hnd [bare MTSign1 3] ++ [prc; prc])) = Some (false, 1, 1%nat, true, None) /\
  rview (tsr (ts_new s13 1 50) (prc :: hnd [bare MTSign1 3] ++ [prc; prc; EExpire 60; ECallback; prc])) = Some (true, 1, 1%nat, true, Some (0, "message timeout"%string)) /\
  rview (tsr (ts_new s13 1 50) sign_history) = Some (true, 2, 2%nat, false, None).
Proof. vm_compute. auto. Qed.
(** "Only a party is blamed after a crash whose message had a fault" is false for key generation. *)
Definition faulty_only (x : outcome (tkstate * list tmsg)) (y : outcome (tkstate * list tmsg * bool)) : Prop :=
  match x, y with
  | Ret (s1, _), Ret (s, _, true) =>
    forall e, st_err s = Some e -> pe_PartyID e <> 0 -> exists m, st_received s1 !! pe_PartyID e = Some (Some m) /\ verdict_of (r_process tkg (st_round s1) (Some m)) <> None
  | _, _ => True
  end.
Theorem C71_blame_refuted : ~ forall es p, faulty_only (tk_run (tk_new k3 1 1 50) es) (tkr (tk_new k3 1 1 50) (es ++ [p; p])).
Proof.
  intros H. specialize (H to_last prc23).
  assert (match tk_run (tk_new k3 1 1 50) to_last, tkr (tk_new k3 1 1 50) (to_last ++ [prc23; prc23]) with
    | Ret (s1, _), Ret (s, _, true) => match st_err s with
      | Some e => negb (pe_PartyID e =? 0) && match st_received s1 !! pe_PartyID e with Some (Some m) => match r_process tkg (st_round s1) (Some m) with ROk _ _ => true | _ => false end | _ => false end
      | None => false end
    | _, _ => false end = true) as X by (vm_compute; reflexivity).
  revert H X. generalize (tk_run (tk_new k3 1 1 50) to_last) (tkr (tk_new k3 1 1 50) (to_last ++ [prc23; prc23])). intros x y H X.
  destruct x as [[s1 l1]|?|?]; try discriminate. destruct y as [[[s l] b]|?|?]; try discriminate. destruct b; try discriminate. cbn [faulty_only] in H. destruct (st_err s) as [e|] eqn:EE; try discriminate.
  apply andb_true_iff in X as [X1 X2]. apply negb_true_iff, Z.eqb_neq in X1. destruct (H e EE X1) as (m & Hm & Hv). rewrite Hm in X2. destruct (r_process tkg (st_round s1) (Some m)); try discriminate. now apply Hv.
Qed.
Print Assumptions C71_sign. Print Assumptions C71_sign_total. Print Assumptions C71_keygen. Print Assumptions C71_keygen_total. Print Assumptions C71_blame_refuted.
