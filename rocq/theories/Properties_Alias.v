(** C51: buffers that the caller keeps. *)
From Coq Require Import ZArith Lia List Bool String Permutation.
From Coq.Strings Require Import Byte.
From stdpp Require Import base gmap list fin_maps.
From Verif Require Import ZField Primes Bytes Scalar Go Group ToyGroup Party Poly PolyFacts Zk Eddsa Messages State StateFacts Spec_State
  Keygen Sign RoundFacts Lift Spec_Group Spec_Wire Spec_Sign SignFacts SignRun Alias Properties_State ToyRuns Properties_Sign Spec_SignRun.
Import ListNotations.
Local Open Scope Z_scope.

Section Alias.
  Context `{Gr : group_ops} `{Hf : hash_fn}.
  Notation ret := (Ret (A := State sround * list Message)).

  Lemma remsg_remsg m m' s : remsg_state m (remsg_state m' s) = remsg_state m s.
  Proof. reflexivity. Qed.
  Lemma remsg_same s : remsg_state (sr_Message (st_round s)) s = s.
  Proof. destruct s as [? ? ? ? ? [] ? ? ?]. reflexivity. Qed.

  Definition rmap {A} (m : list byte) (x : rres sround A) : rres sround A :=
    match x with ROk r a => ROk (remsg m r) a | RErr r c t => RErr (remsg m r) c t | RPanic w => RPanic w end.
  Lemma process_remsg m k x : r_process sign_round (remsg m k) x = rmap m (r_process sign_round k x).
  Proof.
    cbn [sign_round r_process]. change (sr_no (remsg m k)) with (sr_no k). destruct (sr_no k) as [|[|n]]; [reflexivity| |].
    - unfold sg1_process. destruct x as [x|]; [|reflexivity]. destruct (m_Sign1 x); [|reflexivity]. cbv zeta. destruct (_ || _); [reflexivity|].
      change (sr_Parties (remsg m k)) with (sr_Parties k). destruct (sr_Parties k !! m_From x); reflexivity.
    - unfold sg2_process. destruct x as [x|]; [|reflexivity]. cbv zeta. change (sr_Parties (remsg m k)) with (sr_Parties k). change (sr_C (remsg m k)) with (sr_C k).
      destruct (sr_Parties k !! m_From x); [|reflexivity]. destruct (m_Sign2 x); [|reflexivity]. destruct (negb _); reflexivity.
  Qed.
  Lemma loop_remsg m rcv l : forall k, process_loop sign_round (remsg m k) rcv l = rmap m (process_loop sign_round k rcv l).
  Proof.
    induction l as [|i l IH]; intros k; cbn [process_loop]; [reflexivity|]. rewrite process_remsg.
    destruct (r_process sign_round k (default None (rcv !! i))); cbn [rmap]; auto.
  Qed.
  Lemma process_no k x k' : (exists u, r_process sign_round k x = ROk k' u) \/ (exists c t, r_process sign_round k x = RErr k' c t) -> sr_no k' = sr_no k /\ sr_Message k' = sr_Message k.
  Proof.
    cbn [sign_round r_process]. destruct (sr_no k) as [|[|n]] eqn:En.
    - intros [[u E]|(c & t & E)]; inversion E; subst; auto.
    - unfold sg1_process. destruct x as [x|]; [|intros [[u E]|(c & t & E)]; discriminate]. destruct (m_Sign1 x); [|intros [[u E]|(c & t & E)]; discriminate]. cbv zeta.
      destruct (_ || _); [intros [[u E]|(c & t & E)]; inversion E; subst; auto|]. destruct (sr_Parties k !! m_From x); intros [[u E]|(c & t & E)]; inversion E; auto.
    - unfold sg2_process. destruct x as [x|]; [|intros [[u E]|(c & t & E)]; discriminate]. cbv zeta. destruct (sr_Parties k !! m_From x); [|intros [[u E]|(c & t & E)]; discriminate].
      destruct (m_Sign2 x); [|intros [[u E]|(c & t & E)]; discriminate]. destruct (negb _); intros [[u E]|(c & t & E)]; inversion E; subst; auto.
  Qed.
  Lemma loop_no rcv l : forall k k', (exists u, process_loop sign_round k rcv l = ROk k' u) \/ (exists c t, process_loop sign_round k rcv l = RErr k' c t) -> sr_no k' = sr_no k /\ sr_Message k' = sr_Message k.
  Proof.
    induction l as [|i l IH]; intros k k'; cbn [process_loop]; [intros [[u E]|(c & t & E)]; inversion E; auto|].
    destruct (r_process sign_round k (default None (rcv !! i))) as [k1 u1|k1 c1 t1|w] eqn:E1.
    - intros H. destruct (IH _ _ H) as [A B]. destruct (process_no k (default None (rcv !! i)) k1) as [C D]; [eauto|]. split; congruence.
    - intros [[u E]|(c & t & E)]; inversion E; subst. apply (process_no k (default None (rcv !! i))). eauto.
    - intros [[u E]|(c & t & E)]; discriminate.
  Qed.
  Lemma generate0_remsg m sched k : sr_no k = 0%nat -> r_generate sign_round sched (remsg m k) = rmap m (r_generate sign_round sched k).
  Proof.
    cbn [sign_round r_generate]. change (sr_no (remsg m k)) with (sr_no k). intros ->. unfold sg0_generate. change (sr_Parties (remsg m k)) with (sr_Parties k). change (sr_self (remsg m k)) with (sr_self k).
    destruct (sr_Parties k !! sr_self k); reflexivity.
  Qed.
  Lemma generate_no sched k k' o : r_generate sign_round sched k = ROk k' o -> sr_no k' = sr_no k /\ sr_Message k' = sr_Message k.
  Proof.
    cbn [sign_round r_generate]. destruct (sr_no k) as [|[|n]] eqn:En.
    - unfold sg0_generate. destruct (_ !! _); [|discriminate]. cbv zeta. now intros [= <- _].
    - unfold sg1_generate. destruct (computeRhos k); [|discriminate|discriminate]. cbv zeta. destruct (_ !! _); [|discriminate]. now intros [= <- _].
    - unfold sg2_generate. cbv zeta. destruct (negb _); [discriminate|]. destruct (sr_outp k); [|discriminate]. now intros [= <- _].
  Qed.
  Lemma next_no k : match r_next sign_round k with Some k' => sr_no k' = S (sr_no k) /\ (sr_no k < 2)%nat /\ sr_Message k' = sr_Message k | None => (2 <= sr_no k)%nat end.
  Proof. cbn [sign_round r_next]. destruct (sr_no k) as [|[|n]] eqn:En; cbn; auto; lia. Qed.
  Lemma next_remsg m k : r_next sign_round (remsg m k) = option_map (remsg m) (r_next sign_round k).
  Proof. cbn [sign_round r_next]. change (sr_no (remsg m k)) with (sr_no k). destruct (sr_no k) as [|[|n]]; reflexivity. Qed.
  Lemma finish_remsg m (s : State sround) : st_done s = false -> finish sign_round (remsg_state m s) = finish sign_round s.
  Proof. intros D. unfold finish, remsg_state. cbn [set_round st_done st_round st_closed]. rewrite D. reflexivity. Qed.
  Lemma report_remsg m (s : State sround) c t : st_done s = false -> reportError sign_round (remsg_state m s) c t = reportError sign_round s c t.
  Proof.
    intros D. unfold reportError, finish. cbn [remsg_state set_round st_done st_err st_round st_closed]. rewrite D. reflexivity.
  Qed.
  Lemma report_done (s : State sround) c t s' : reportError sign_round s c t = Ret s' -> st_done s' = true.
  Proof.
    unfold reportError. destruct (st_done s) eqn:D; [intros E; apply Ret_inj in E; congruence|]. intros E. apply finish_ret in E as (r & _ & _ & ->); reflexivity.
  Qed.

  Ltac step_fin := repeat split; auto; try lia; try discriminate; try (intros _ X; rewrite X; discriminate).
  (** What one call does to the round number and to the message. *)
  Lemma step_no s e s' o : step sign_round s e = Ret (s', o) -> st_done s = false -> (sr_no (st_round s) <= 2)%nat -> st_roundNumber s = Z.of_nat (sr_no (st_round s)) ->
    (sr_no (st_round s) <= sr_no (st_round s') <= 2)%nat /\ st_roundNumber s' = Z.of_nat (sr_no (st_round s')) /\ sr_Message (st_round s') = (if st_done s' then [] else sr_Message (st_round s)) /\
    (st_done s' = true -> st_err s = None -> st_err s' = None -> sr_no (st_round s) = 2%nat) /\ (st_done s' = false -> st_err s' = st_err s) /\ (sr_no (st_round s') <= S (sr_no (st_round s)))%nat.
  Proof.
    intros E D HN HR. destruct e as [t m|a b|t|]; cbn [step] in E.
    - apply Ret_inj in E. inversion E; subst. destruct (handle_cases sign_round t s m) as [X|(_ & _ & _ & _ & _ & _ & ct & tl & _ & [[_ X]|(_ & _ & X)])]; rewrite X; cbn [st_round st_done st_roundNumber]; rewrite ?D; step_fin.
    - apply (process_cases sign_round) in E. destruct E as [-> _ _|r1 c tx D' HS EP ER _|r1 r' c tx D' HS EP EG ER _|r1 r' ct tl rcv q D' HS EP EG EA EQ EN].
      + rewrite D. step_fin.
      + destruct (loop_no _ _ _ r1 (or_intror (ex_intro _ c (ex_intro _ tx EP)))) as [A B].
        unfold reportError in ER. cbn [set_round st_done] in ER. rewrite D in ER. apply finish_ret in ER as (r2 & E2 & _ & ->); [|reflexivity]. cbn [set_round st_round r_reset sign_round sg_Reset] in E2. apply Ret_inj in E2. subst r2.
        cbn. rewrite A. step_fin.
      + destruct (loop_no _ _ _ r1 (or_introl (ex_intro _ tt EP))) as [A B].
        assert (r' = r1 /\ sr_no r1 = 2%nat) as [-> Hn].
        { revert EG. cbn [sign_round r_generate]. destruct (sr_no r1) as [|[|n]] eqn:En.
          - unfold sg0_generate. destruct (_ !! _); discriminate.
          - unfold sg1_generate. destruct (computeRhos r1); [|discriminate|discriminate]. cbv zeta. destruct (_ !! _); discriminate.
          - unfold sg2_generate. cbv zeta. destruct (negb _); [intros [= <- _ _]; split; [reflexivity|lia]|]. destruct (sr_outp r1); discriminate. }
        unfold reportError in ER. cbn [set_round st_done] in ER. rewrite D in ER. apply finish_ret in ER as (r2 & E2 & _ & ->); [|reflexivity]. cbn [set_round st_round r_reset sign_round sg_Reset] in E2. apply Ret_inj in E2. subst r2.
        cbn. rewrite A. step_fin.
      + destruct (loop_no _ _ _ r1 (or_introl (ex_intro _ tt EP))) as [A B]. apply generate_no in EG as [A2 B2]. pose proof (next_no r') as N. destruct (r_next sign_round r') as [nr|].
        * destruct N as (N1 & N2 & N3). subst s'. cbn. rewrite D, N1, N3, B2, B. step_fin.
        * apply finish_ret in EN as (r2 & E2 & _ & ->); [|exact D]. cbn [st_round r_reset sign_round sg_Reset] in E2. apply Ret_inj in E2. subst r2. cbn. step_fin.
    - apply Ret_inj in E. inversion E; subst. unfold timerExpire. destruct (tm_deadline _); [destruct (_ <=? _)|]; cbn; rewrite D; step_fin.
    - apply obind_ret in E as (s3 & E3 & E4). apply Ret_inj in E4. inversion E4; subst. unfold timerCallback in E3. destruct (tm_pending _); [apply Ret_inj in E3; subst; rewrite D; step_fin|].
      unfold reportError in E3. cbn [st_done] in E3. rewrite D in E3. apply finish_ret in E3 as (r2 & E2 & _ & ->); [|reflexivity]. cbn [st_round r_reset sign_round sg_Reset] in E2. apply Ret_inj in E2. subst r2. cbn. step_fin.
  Qed.

  (** A call that does not read the message. *)
  Definition silent (s s' : State sround) : Prop :=
    sr_no (st_round s) = 0%nat \/ (sr_no (st_round s) = 1%nat /\ sr_no (st_round s') = 1%nat) \/ (sr_no (st_round s) = 2%nat /\ st_done s' = false).
  Lemma restep m s e s' o : step sign_round s e = Ret (s', o) -> st_done s = false -> silent s s' ->
    step sign_round (remsg_state m s) e = Ret (if st_done s' then s' else remsg_state m s', o).
  Proof.
    intros E D HS. destruct e as [t x|a b|t|]; cbn [step] in *.
    - apply Ret_inj in E. inversion E; subst. f_equal. f_equal.
      assert (fst (HandleMessage sign_round t (remsg_state m s) x) = remsg_state m (fst (HandleMessage sign_round t s x)) /\ st_done (fst (HandleMessage sign_round t s x)) = false) as [-> ->]; [|reflexivity].
      unfold HandleMessage. cbn [remsg_state set_round st_done st_accepted st_round st_received]. rewrite D. destruct (st_accepted s); [auto|].
      change (r_self sign_round (remsg m (st_round s))) with (r_self sign_round (st_round s)). change (r_ids sign_round (remsg m (st_round s))) with (r_ids sign_round (st_round s)).
      destruct (_ =? _); [auto|]. destruct (_ && _); [auto|]. destruct (negb _); [auto|]. destruct (_ !! _); [auto|].
      change (isAcceptedType (mkState (st_accepted s) (st_received s) (st_queue s) (st_timer s) (st_roundNumber s) (remsg m (st_round s)) (st_closed s) false (st_err s)) (m_Type x)) with (isAcceptedType s (m_Type x)).
      destruct (negb _); [auto|]. destruct (_ =? _); auto.
    - pose proof E as E'. unfold ProcessAll in E |- *. cbn [remsg_state set_round st_done st_received st_round st_accepted st_queue st_timer st_roundNumber st_closed st_err]. rewrite D in E |- *.
      change (r_ids sign_round (remsg m (st_round s))) with (r_ids sign_round (st_round s)). destruct (negb _); [apply Ret_inj in E; inversion E; subst; now rewrite D|].
      rewrite loop_remsg. destruct (process_loop sign_round (st_round s) (st_received s) (map_keys a (st_received s))) as [r u|r c t|w] eqn:EL; cbn [rmap]; [| |discriminate].
      + destruct (loop_no _ _ _ r (or_introl (ex_intro _ u EL))) as [A B].
        destruct HS as [HS|[[HS1 HS2]|[HS1 HS2]]].
        * rewrite generate0_remsg by congruence. destruct (r_generate sign_round b r) as [r2 l|r2 c t|w] eqn:EG; cbn [rmap]; [| |discriminate].
          -- destruct (generate_no _ _ _ _ EG) as [A2 B2]. destruct (st_accepted s) as [|ct tl]; [discriminate|]. rewrite next_remsg.
             destruct (match tl with [] => (∅, st_queue s) | ct0 :: _ => take_queue ct0 (st_queue s) ∅ end) as [rcv q]. pose proof (next_no r2) as N. destruct (r_next sign_round r2) as [nr|] eqn:ENx; cbn [option_map].
             ++ apply Ret_inj in E. inversion E; subst. cbn [st_done]. reflexivity.
             ++ lia.
          -- exfalso. revert EG. cbn [sign_round r_generate]. rewrite A, HS. unfold sg0_generate. destruct (_ !! _); discriminate.
        * exfalso. destruct (r_generate sign_round b r) as [r2 l|r2 c t|w] eqn:EG; [| |discriminate].
          -- destruct (generate_no _ _ _ _ EG) as [A2 B2]. destruct (st_accepted s) as [|ct tl]; [discriminate|].
             destruct (match tl with [] => (∅, st_queue s) | ct0 :: _ => take_queue ct0 (st_queue s) ∅ end) as [rcv q]. pose proof (next_no r2) as N. destruct (r_next sign_round r2) as [nr|] eqn:ENx; [|lia].
             apply Ret_inj in E. inversion E; subst. cbn [st_round] in HS2. lia.
          -- revert EG. cbn [sign_round r_generate]. rewrite A, HS1. unfold sg1_generate. destruct (computeRhos r); [|discriminate|discriminate]. cbv zeta. destruct (_ !! _); discriminate.
        * exfalso. destruct (r_generate sign_round b r) as [r2 l|r2 c t|w] eqn:EG; [| |discriminate].
          -- destruct (generate_no _ _ _ _ EG) as [A2 B2]. destruct (st_accepted s) as [|ct tl]; [discriminate|].
             destruct (match tl with [] => (∅, st_queue s) | ct0 :: _ => take_queue ct0 (st_queue s) ∅ end) as [rcv q]. pose proof (next_no r2) as N. destruct (r_next sign_round r2) as [nr|] eqn:ENx; [lia|].
             apply obind_ret in E as (s3 & E3 & E4). apply Ret_inj in E4. inversion E4; subst. apply finish_ret in E3 as (r3 & _ & _ & ->); [discriminate|reflexivity].
          -- apply obind_ret in E as (s3 & E3 & E4). apply Ret_inj in E4. inversion E4; subst. apply report_done in E3. congruence.
      + apply obind_ret in E as (s3 & E3 & E4). apply Ret_inj in E4. inversion E4; subst. rewrite (report_done _ _ _ _ E3).
        pose proof (report_remsg m (set_round s r) c t D) as X. rewrite E3 in X. unfold remsg_state, set_round in X. cbn [st_accepted st_received st_queue st_timer st_roundNumber st_round st_closed st_done st_err] in X.
        exact (f_equal (fun x => obind x (fun s' => Ret (s', @nil Message))) X).
    - apply Ret_inj in E. inversion E; subst. unfold timerExpire. cbn [remsg_state set_round st_timer]. destruct (tm_deadline _); [destruct (_ <=? _)|]; unfold remsg_state, set_round; cbn; rewrite D; reflexivity.
    - apply obind_ret in E as (s3 & E3 & E4). apply Ret_inj in E4. inversion E4; subst. unfold timerCallback in *. cbn [remsg_state set_round st_timer]. destruct (tm_pending _); [apply Ret_inj in E3; subst; now rewrite D|].
      rewrite (report_done _ _ _ _ E3). rewrite <- (report_remsg m) in E3 by exact D. 
      pose proof (E3 : reportError sign_round (mkState (st_accepted s) (st_received s) (st_queue s) (mkTimer (tm_d (st_timer s)) (tm_deadline (st_timer s)) n) (st_roundNumber s) (remsg m (st_round s)) (st_closed s) (st_done s) (st_err s)) 0 "message timeout" = Ret s') as X.
      exact (f_equal (fun x => obind x (fun s' => Ret (s', @nil Message))) X).
  Qed.

  (** ** Histories *)
  Lemma wrun_app s es1 es2 : wrun s (es1 ++ es2) = obind (wrun s es1) (fun r1 => obind (wrun (fst r1) es2) (fun r2 => Ret (fst r2, snd r1 ++ snd r2))).
  Proof.
    revert s. induction es1 as [|e es1 IH]; intros s; cbn [app wrun].
    - cbn [obind fst snd]. destruct (wrun s es2) as [[s2 o2]| |]; reflexivity.
    - destruct (wstep s e) as [[s1 o1]| |]; cbn [obind fst snd]; auto. rewrite IH. destruct (wrun s1 es1) as [[s2 o2]| |]; cbn [obind fst snd]; auto.
      destruct (wrun s2 es2) as [[s3 o3]| |]; cbn [obind fst snd]; auto. now rewrite app_assoc.
  Qed.
  Lemma wrun_snoc s es e s' out : wrun s (es ++ [e]) = Ret (s', out) -> exists s1 o1 o2, wrun s es = Ret (s1, o1) /\ wstep s1 e = Ret (s', o2) /\ out = o1 ++ o2.
  Proof.
    rewrite wrun_app. intros E. apply obind_ret in E as ([s1 o1] & E1 & E). apply obind_ret in E as ([s2 o2] & E2 & E). apply Ret_inj in E. inversion E; subst. cbn [wrun fst] in E2.
    apply obind_ret in E2 as ([s3 o3] & E3 & E4). cbn [obind fst snd] in E4. apply Ret_inj in E4. inversion E4; subst. exists s1, o1, o3. cbn [fst snd]. now rewrite app_nil_r.
  Qed.
  Lemma calls_app es1 es2 : calls (es1 ++ es2) = calls es1 ++ calls es2.
  Proof. induction es1 as [|[e|b] es1 IH]; cbn; auto. now rewrite IH. Qed.
  Lemma run_snoc' s es e s1 o1 s2 o2 : run sign_round s es = Ret (s1, o1) -> step sign_round s1 e = Ret (s2, o2) -> run sign_round s (es ++ [e]) = Ret (s2, o1 ++ o2).
  Proof. intros E1 E2. rewrite run_app, E1. cbn [obind fst snd run]. rewrite E2. cbn [obind fst snd]. now rewrite app_nil_r. Qed.
  Lemma buffer_snoc m es e : buffer m (es ++ [e]) = match e with WWrite b => if Nat.eqb (List.length b) (List.length m) then b else buffer m es | WCall _ => buffer m es end.
  Proof. unfold buffer. now rewrite fold_left_app. Qed.
  Lemma buffer_length m es : List.length (buffer m es) = List.length m.
  Proof.
    induction es as [|[e|b] es IH] using rev_ind; [reflexivity| |]; rewrite buffer_snoc; auto. destruct (Nat.eqb_spec (List.length b) (List.length m)); auto.
  Qed.

  Context (rg : rng) (now t : Z) (ids : list Z) (secret : SecretShare) (shares : Public) (message : list byte) (s0 : State sround).
  Context (NEW : NewSignState rg now t ids secret shares message = Ret s0).

  Lemma new_with m : NewSignState rg now t ids secret shares m = Ret (remsg_state m s0).
  Proof.
    unfold NewSignState in *. apply obind_ret in NEW as (k & E & E'). apply Ret_inj in E'. subst s0. unfold sg_NewRound in *. do 2 (destruct (negb _); [discriminate|]).
    destruct (sg_setup shares ids); cbn [obind] in *; [|discriminate|discriminate]. destruct (Lagrange (sh_ID secret) ids); cbn [obind] in *; [|discriminate|discriminate]. apply Ret_inj in E. subst k. reflexivity.
  Qed.
  Lemma new_fields : sr_no (st_round s0) = 0%nat /\ sr_Message (st_round s0) = message /\ st_done s0 = false /\ st_err s0 = None /\ st_roundNumber s0 = 0.
  Proof.
    unfold NewSignState in *. apply obind_ret in NEW as (k & E & E'). apply Ret_inj in E'. subst s0. unfold sg_NewRound in *. do 2 (destruct (negb _); [discriminate|]).
    destruct (sg_setup shares ids); cbn [obind] in *; [|discriminate|discriminate]. destruct (Lagrange (sh_ID secret) ids); cbn [obind] in *; [|discriminate|discriminate]. apply Ret_inj in E. subst k. auto.
  Qed.

  (** The two moments at which the message is read: [es1] before the call that sends the share, [es2] before the call that finishes. *)
  Record winv (es : list wevent) (s : State sround) (o : list Message) : Prop := {
    wi_no : (sr_no (st_round s) <= 2)%nat /\ st_roundNumber s = Z.of_nat (sr_no (st_round s));
    wi_msg : sr_Message (st_round s) = if st_done s then [] else buffer message es;
    wi_err : st_done s = false -> st_err s = None;
    wi_early : (sr_no (st_round s) < 2)%nat -> forall m, run sign_round (remsg_state m s0) (calls es) = Ret (if st_done s then s else remsg_state m s, o);
    wi_late : sr_no (st_round s) = 2%nat -> st_done s = false -> exists es1 e es2, es = es1 ++ WCall e :: es2 /\
       run sign_round (remsg_state (buffer message es1) s0) (calls es) = Ret (remsg_state (buffer message es1) s, o) /\
       (exists s1 o1, wrun s0 es1 = Ret (s1, o1) /\ st_done s1 = false /\ st_roundNumber s1 = 1) /\ (exists s2 o2, wrun s0 (es1 ++ [WCall e]) = Ret (s2, o2) /\ st_roundNumber s2 = 2);
    wi_end : st_done s = true -> st_err s = None -> exists es1 e1 es2 e2 es3 s2 o2 s3 o3, es = es1 ++ WCall e1 :: es2 ++ WCall e2 :: es3 /\
       run sign_round (remsg_state (buffer message es1) s0) (calls (es1 ++ WCall e1 :: es2)) = Ret (remsg_state (buffer message es1) s2, o2) /\
       (exists s1 o1, wrun s0 es1 = Ret (s1, o1) /\ st_done s1 = false /\ st_roundNumber s1 = 1) /\ (exists s2 o2, wrun s0 (es1 ++ [WCall e1]) = Ret (s2, o2) /\ st_roundNumber s2 = 2) /\
       wrun s0 (es1 ++ WCall e1 :: es2) = Ret (s2, o2) /\ st_done s2 = false /\ sr_no (st_round s2) = 2%nat /\ sr_Message (st_round s2) = buffer message (es1 ++ WCall e1 :: es2) /\
       step sign_round s2 e2 = Ret (s3, o3) /\ st_done s3 = true /\ st_err s3 = None /\ sr_out (st_round s) = sr_out (st_round s3) /\ o = o2 ++ o3
  }.
  Lemma winv_run es : forall s o, wrun s0 es = Ret (s, o) -> winv es s o.
  Proof.
    destruct new_fields as (F1 & F2 & F3 & F4 & F5).
    induction es as [|e es IH] using rev_ind; intros s o E.
    { cbn in E. apply Ret_inj in E. inversion E; subst s o. split; rewrite ?F1, ?F3, ?F5; try lia; try discriminate; auto. }
    pose proof E as E0. apply wrun_snoc in E as (s1 & o1 & o2 & E1 & E2 & ->). pose proof (IH s1 o1 E1) as [[W1 W2] W3 W4 W5 W6 W7]. clear IH.
    destruct e as [e|b].
    - cbn [wstep] in E2. assert (calls (es ++ [WCall e]) = calls es ++ [e]) as HC by now rewrite calls_app. pose proof (buffer_snoc message es (WCall e)) as HB. cbn iota in HB.
      destruct (st_done s1) eqn:D1.
      { destruct (C13_final sign_round s1 [e] D1) as (s2 & X1 & X2 & X3 & X4 & X5 & X6 & X7 & X8). cbn [run] in X1. rewrite E2 in X1. cbn [obind fst snd] in X1. apply Ret_inj in X1. inversion X1; subst s2. assert (o2 = []) as -> by now rewrite app_nil_r in *.
        rewrite app_nil_r in *. split; rewrite ?X2, ?X3, ?X4, ?X8; auto; try discriminate.
        - intros H m. rewrite HC. rewrite <- (app_nil_r o1). eapply run_snoc'; [apply W5; lia|]. exact E2.
        - intros _ HE. destruct W7 as (es1 & e1 & es2 & e2 & es3 & s2 & o2 & s3 & o3 & -> & H); auto. exists es1, e1, es2, e2, (es3 ++ [WCall e]), s2, o2, s3, o3. split; [|exact H].
          rewrite <- !app_assoc. cbn. now rewrite <- !app_assoc. }
      destruct (step_no s1 e s o2 E2 D1 W1 W2) as ((N1 & N2) & N3 & N4 & N5 & N6 & N7).
      split; auto.
      + rewrite N4, W3, HB. reflexivity.
      + intros D. rewrite N6; auto.
      + intros H m. rewrite HC. eapply run_snoc'; [apply W5; lia|]. apply restep; auto. unfold silent. destruct (sr_no (st_round s1)) as [|[|n]]; [auto|right; left; split; [auto|]|]; lia.
      + intros H D. destruct (Nat.eq_dec (sr_no (st_round s1)) 2%nat) as [H2|H2].
        * destruct W6 as (es1 & e1 & es2 & -> & A & B & C); auto. exists es1, e1, (es2 ++ [WCall e]). split; [now rewrite <- app_assoc|]. split; auto. rewrite HC. eapply run_snoc'; [exact A|].
          rewrite (restep _ s1 e s o2 E2 D1); [now rewrite D|]. right; right; auto.
        * exists es, e, []. split; auto. rewrite HC. split; [|split].
          -- eapply run_snoc'; [apply W5; lia|]. rewrite <- W3. rewrite remsg_same, E2. rewrite W3. do 2 f_equal.
             pose proof (remsg_same s) as X. rewrite N4, D, W3 in X. now rewrite X.
          -- exists s1, o1. split; auto. split; auto. lia.
          -- exists s, (o1 ++ o2). split; auto. lia.
      + intros D HE. assert (sr_no (st_round s1) = 2%nat) as H2 by (apply N5; auto). destruct W6 as (es1 & e1 & es2 & Ees & A & B & C); auto. subst es.
        exists es1, e1, es2, e, [], s1, o1, s, o2. split; [now rewrite <- app_assoc|]. repeat split; auto.
    - cbn [wstep] in E2. apply Ret_inj in E2. assert (calls (es ++ [WWrite b]) = calls es) as HC by (rewrite calls_app; cbn; apply app_nil_r).
      assert (o2 = []) as -> by (now inversion E2). rewrite app_nil_r in *. pose proof (buffer_snoc message es (WWrite b)) as HB. cbn iota in HB.
      assert (s = (if Nat.eqb (List.length b) (List.length (sr_Message (st_round s1))) then remsg_state b s1 else s1)) as Es by (now inversion E2). clear E2.
      rewrite W3 in Es. destruct (st_done s1) eqn:D1.
      { assert (s = s1) as ->. { subst s. destruct b; [|reflexivity]. cbn. rewrite <- W3 at 1. apply remsg_same. }
        split; rewrite ?HC, ?D1; auto; try discriminate. intros _ HE. destruct W7 as (es1 & e1 & es2 & e2 & es3 & s2 & o2 & s3 & o3 & -> & H); auto.
        exists es1, e1, es2, e2, (es3 ++ [WWrite b]), s2, o2, s3, o3. split; [|exact H]. rewrite <- !app_assoc. cbn. now rewrite <- !app_assoc. }
      rewrite buffer_length in Es. assert (s = remsg_state (buffer message (es ++ [WWrite b])) s1) as ->.
      { rewrite HB. subst s. destruct (Nat.eqb _ _); auto. rewrite <- W3. now rewrite remsg_same. }
      split; cbn [remsg_state set_round remsg st_round st_done st_roundNumber st_err sr_no sr_Message]; rewrite ?HC, ?D1; auto; try discriminate.
      intros H _. destruct W6 as (es1 & e1 & es2 & -> & A & B & C); auto. exists es1, e1, (es2 ++ [WWrite b]). split; [now rewrite <- app_assoc|]. auto.
  Qed.

  (** * C51 *)
  (** As long as the State has not sent its share, writing into the buffer is the same as having passed the new content to NewSignState. *)
  Theorem C51_before : forall es s o, wrun s0 es = Ret (s, o) -> st_roundNumber s <= 1 ->
    exists s0', NewSignState rg now t ids secret shares (buffer message es) = Ret s0' /\ run sign_round s0' (calls es) = Ret (s, o).
  Proof.
    intros es s o E H. pose proof (winv_run es s o E) as [[W1 W2] W3 W4 W5 _ _]. exists (remsg_state (buffer message es) s0). split; [apply new_with|].
    rewrite W5 by lia. do 2 f_equal. destruct (st_done s) eqn:D; auto. rewrite <- W3. apply remsg_same.
  Qed.
  (** Once the State is done, writes have no effect. *)
  Theorem C51_after : forall es s o b, wrun s0 es = Ret (s, o) -> st_done s = true -> wrun s0 (es ++ [WWrite b]) = Ret (s, o).
  Proof.
    intros es s o b E D. pose proof (winv_run es s o E) as [_ W3 _ _ _ _]. rewrite D in W3. rewrite wrun_app, E. cbn [obind fst snd wrun wstep]. rewrite W3, !app_nil_r.
    destruct b; [|reflexivity]. cbn. do 2 f_equal. rewrite <- W3. apply remsg_same.
  Qed.

  (** The last call, for the content of the buffer and for any other content [m]. *)
  Lemma final_step s e s' o : step sign_round s e = Ret (s', o) -> st_done s = false -> st_done s' = true -> st_err s' = None -> sr_no (st_round s) = 2%nat -> st_closed s = O ->
    exists sig, sr_out (st_round s') = Some sig /\ Verify (sr_GroupKey (st_round s)) (sr_Message (st_round s)) sig = true /\
      forall m, exists s'', step sign_round (remsg_state m s) e = Ret (s'', o) /\ st_done s'' = true /\
        if Verify (sr_GroupKey (st_round s)) m sig then s'' = s' else st_err s'' = Some (mkPError 0 (st_roundNumber s) "full signature is invalid").
  Proof.
    intros E D D' HE Hno HC. destruct e as [tm x|a b|tm|]; cbn [step] in *.
    - exfalso. apply Ret_inj in E. inversion E; subst. destruct (handle_cases sign_round tm s x) as [X|(_ & _ & _ & _ & _ & _ & ct & tl & _ & [[_ X]|(_ & _ & X)])]; rewrite X in D'; cbn in D'; congruence.
    - pose proof (process_cases sign_round _ _ _ _ _ E) as PC. unfold ProcessAll in E |- *. destruct PC as [-> _ _|r1 c tx _ HS EP ER _|r1 r' c tx _ HS EP EG ER _|r1 r' ct tl rcv q _ HS EP EG EA EQ EN].
      + congruence.
      + exfalso. unfold reportError in ER. cbn [set_round st_done] in ER. rewrite D in ER. apply finish_ret in ER as (r2 & _ & _ & ->); [|reflexivity]. cbn in HE. destruct (st_err s); discriminate.
      + exfalso. unfold reportError in ER. cbn [set_round st_done] in ER. rewrite D in ER. apply finish_ret in ER as (r2 & _ & _ & ->); [|reflexivity]. cbn in HE. destruct (st_err s); discriminate.
      + clear E. destruct (loop_no _ _ _ r1 (or_introl (ex_intro _ tt EP))) as [A B].
        assert (sr_GroupKey r1 = sr_GroupKey (st_round s)) as HG.
        { clear - EP. revert EP. generalize (st_round s) as k. induction (map_keys a (st_received s)) as [|i l IH]; intros k; cbn [process_loop]; [now intros [= ->]|].
          destruct (r_process sign_round k (default None (st_received s !! i))) as [k1 u1|k1 c1 t1|w] eqn:E1; [|discriminate|discriminate]. intros X. rewrite (IH _ X). clear - E1. revert E1.
          cbn [sign_round r_process]. destruct (sr_no k) as [|[|n]]; [now intros [= ->]| |].
          - unfold sg1_process. destruct (default None _) as [x|]; [|discriminate]. destruct (m_Sign1 x); [|discriminate]. cbv zeta. destruct (_ || _); [discriminate|]. destruct (sr_Parties k !! m_From x); [|discriminate]. now intros [= <- _].
          - unfold sg2_process. destruct (default None _) as [x|]; [|discriminate]. cbv zeta. destruct (sr_Parties k !! m_From x); [|discriminate]. destruct (m_Sign2 x); [|discriminate]. destruct (negb _); [discriminate|]. now intros [= <- _]. }
        pose proof EG as EG'. cbn [sign_round r_generate] in EG. rewrite A, Hno in EG. unfold sg2_generate in EG. cbv zeta in EG.
        set (sig := mkSig (sr_R r1) (sum_Z (sr_Parties r1) (map_keys b (sr_Parties r1)))) in EG. destruct (Verify (sr_GroupKey r1) (sr_Message r1) sig) eqn:EV; [|discriminate]. cbn [negb] in EG.
        destruct (sr_outp r1) eqn:EO; [|discriminate]. inversion EG; subst r' o. clear EG. cbn [sign_round r_next sr_no] in EN. rewrite A, Hno in EN.
        apply finish_ret in EN as (r2 & E2 & _ & ->); [|exact D]. cbn [st_round r_reset sign_round sg_Reset] in E2. apply Ret_inj in E2. subst r2. cbn [st_round sr_out].
        exists sig. split; [reflexivity|]. rewrite HG, B in EV. split; [exact EV|]. intros m. cbn [remsg_state set_round st_done st_received st_round st_accepted st_queue st_timer st_roundNumber st_closed st_err]. rewrite D.
        change (r_ids sign_round (remsg m (st_round s))) with (r_ids sign_round (st_round s)). rewrite HS, Z.eqb_refl. cbn [negb]. rewrite loop_remsg, EP. cbn [rmap sign_round r_generate]. change (sr_no (remsg m r1)) with (sr_no r1). rewrite A, Hno.
        unfold sg2_generate. cbv zeta. cbn [remsg sr_R sr_Parties sr_GroupKey sr_Message sr_outp]. fold sig. rewrite HG. destruct (Verify (sr_GroupKey (st_round s)) m sig); cbn [negb].
        * rewrite EO, EA. destruct tl as [|ct' tl]; inversion EQ; subst rcv q; cbn [sign_round r_next sr_no remsg take_queue]; rewrite A, Hno; unfold finish; cbn [st_done st_round r_reset sg_Reset obind st_closed]; rewrite HC; cbn [obind];
            (eexists; split; [reflexivity|split; [reflexivity|]]); rewrite ?HG, ?Hno; reflexivity.
        * unfold reportError. cbn [set_round st_done]. unfold finish. cbn [st_done st_round r_reset sg_Reset obind st_closed set_round]. rewrite HC. cbn [obind]. eexists. split; [reflexivity|]. split; [reflexivity|]. cbn. cbn in HE. now rewrite HE.
    - exfalso. apply Ret_inj in E. inversion E; subst. unfold timerExpire in D'. destruct (tm_deadline _); [destruct (_ <=? _)|]; cbn in D'; congruence.
    - exfalso. apply obind_ret in E as (s3 & E3 & E4). apply Ret_inj in E4. inversion E4; subst. unfold timerCallback in E3. destruct (tm_pending _); [apply Ret_inj in E3; subst; congruence|].
      unfold reportError in E3. cbn [st_done] in E3. rewrite D in E3. apply finish_ret in E3 as (r2 & _ & _ & ->); [|reflexivity]. cbn in HE. destruct (st_err s); discriminate.
  Qed.

  (** The state just before the last call. *)
  Lemma late_fields m1 es s o : run sign_round (remsg_state m1 s0) es = Ret (remsg_state m1 s, o) -> st_done s = false -> sr_GroupKey (st_round s) = pub_GroupKey shares /\ st_closed s = O.
  Proof.
    intros E D. pose proof (new_with m1) as N1. destruct (NewSignState_round _ _ _ _ _ _ _ _ N1) as (r0 & E1 & Er). rewrite Er in E. destruct (NewRound_fields _ _ _ _ _ _ E1) as (A1 & A2 & A3 & A4 & A5 & _).
    pose proof (output_run r0 (conj A1 (conj A2 A3)) _ _ _ _ _ E) as HL. destruct (li_P _ _ _ _ _ _ _ HL D) as (n & _ & _ & HP). split.
    - destruct HP as (_ & _ & HP & _). cbn in HP. congruence.
    - pose proof (inv_closed _ _ (li_inv _ _ _ _ _ _ _ HL)) as X. cbn [remsg_state set_round st_closed st_done] in X. now rewrite D in X.
  Qed.

  (** The output is a signature of what the buffer contains when the State finishes. *)
  Theorem C51_output : forall es s o, wrun s0 es = Ret (s, o) -> st_done s = true -> st_err s = None ->
    exists es1 e es2 sig, es = es1 ++ WCall e :: es2 /\ (exists s1 o1 s2 o2, wrun s0 es1 = Ret (s1, o1) /\ st_done s1 = false /\ wrun s0 (es1 ++ [WCall e]) = Ret (s2, o2) /\ st_done s2 = true) /\
      sg_output s = Some sig /\ Verify (pub_GroupKey shares) (buffer message es1) sig = true.
  Proof.
    intros es s o E D HE. destruct (wi_end es s o (winv_run es s o E) D HE) as (es1 & e1 & es2 & e2 & es3 & s2 & o2 & s3 & o3 & -> & H1 & H2 & H3 & H4 & H5 & H6 & H7 & H8 & H9 & H10 & H11 & H12).
    destruct (late_fields _ _ _ _ H1 H5) as [HG HC]. destruct (final_step s2 e2 s3 o3 H8 H5 H9 H10 H6 HC) as (sig & X1 & X2 & _).
    exists (es1 ++ WCall e1 :: es2), e2, es3, sig. split; [now rewrite <- app_assoc|]. split.
    - exists s2, o2, s3, (o2 ++ o3). split; auto. split; auto. split; auto. rewrite wrun_app, H4. cbn [obind fst snd wrun wstep]. rewrite H8. cbn [obind fst snd]. now rewrite app_nil_r.
    - split; [unfold sg_output; congruence|]. now rewrite <- HG, <- H7.
  Qed.
End Alias.

Section Changed.
  Context `{L : group_laws} `{Hf : hash_fn} (HH : hash_ok Hf).
  (** If the shares fit together, a State whose buffer changed after it sent its share does not sign the new content: should it finish without error,
      its output is what a State for the old content [m1] outputs, which is valid for [m1]; and it is valid for the new content [m2] too, so that the group key
      is the identity or the challenges of the two contents are equal. *)
  Theorem C51_changed : forall rg now t ids secret shares message s0 es s o A,
    NewSignState rg now t ids secret shares message = Ret s0 -> List.NoDup ids -> Forall is_u16 ids ->
    pub_Shares shares !! sh_ID secret = Some A -> geq (gbmul (sh_Secret secret)) A -> geq (Gsum (map (weighted ids shares) ids)) (pub_GroupKey shares) ->
    wrun s0 es = Ret (s, o) -> st_done s = true -> st_err s = None ->
    exists es1 e1 es2 e2 es3 sig, es = es1 ++ WCall e1 :: es2 ++ WCall e2 :: es3 /\
      (exists s1 o1 s2 o2, wrun s0 es1 = Ret (s1, o1) /\ st_roundNumber s1 = 1 /\ wrun s0 (es1 ++ [WCall e1]) = Ret (s2, o2) /\ st_roundNumber s2 = 2) /\
      let m1 := buffer message es1 in let m2 := buffer message (es1 ++ WCall e1 :: es2) in
      sg_output s = Some sig /\ Verify (pub_GroupKey shares) m2 sig = true /\
      (exists s0' s', NewSignState rg now t ids secret shares m1 = Ret s0' /\ run sign_round s0' (calls es) = Ret (s', o) /\ st_done s' = true /\ st_err s' = None /\ sg_output s' = Some sig) /\
      Verify (pub_GroupKey shares) m1 sig = true /\
      (geq (pub_GroupKey shares) gid \/ chal (sig_R sig) (pub_GroupKey shares) m1 = chal (sig_R sig) (pub_GroupKey shares) m2).
  Proof.
    intros rg now t ids secret shares message s0 es s o A NEW ND HU EA Hc Hk E D HE.
    destruct (wi_end _ _ _ _ _ (winv_run rg now t ids secret shares message s0 NEW es s o E) D HE) as (es1 & e1 & es2 & e2 & es3 & s2 & o2 & s3 & o3 & -> & H1 & H2 & H3 & H4 & H5 & H6 & H7 & H8 & H9 & H10 & H11 & H12).
    destruct (late_fields rg now t ids secret shares message s0 NEW _ _ _ _ H1 H5) as [HG HC]. destruct (final_step s2 e2 s3 o3 H8 H5 H9 H10 H6 HC) as (sig & X1 & X2 & X3).
    exists es1, e1, es2, e2, es3, sig. split; auto. split. { destruct H2 as (s1 & o1 & A1 & A2 & A3), H3 as (s4 & o4 & B1 & B2). exists s1, o1, s4, o4. auto. }
    cbv zeta. set (m1 := buffer message es1) in *. set (m2 := buffer message (es1 ++ WCall e1 :: es2)) in *. rewrite HG, H7 in X2.
    pose proof (new_with rg now t ids secret shares message s0 NEW m1) as N1.
    destruct (X3 m1) as (s4 & Y1 & Y2 & Y3). rewrite HG in Y3. 
    assert (run sign_round (remsg_state m1 s0) (calls (es1 ++ WCall e1 :: es2) ++ [e2]) = Ret (s4, o2 ++ o3)) as R1 by (eapply run_snoc'; [exact H1|exact Y1]).
    assert (Verify (pub_GroupKey shares) m1 sig = true) as V1.
    { destruct (Verify (pub_GroupKey shares) m1 sig) eqn:EV; auto. exfalso.
      pose proof (C10_complete HH rg now t ids secret shares m1 _ N1 ND HU _ _ _ R1 _ A Y3 eq_refl EA Hc Hk) as X. discriminate X. }
    rewrite V1 in Y3. subst s4.
    assert (sg_output s = Some sig) as OS by (unfold sg_output; congruence). split; auto. split; auto. split.
    - destruct (C13_final sign_round s3 (calls es3) H9) as (s5 & Z1 & Z2 & Z3 & Z4 & _). exists (remsg_state m1 s0), s5. split; auto.
      split; [|split; auto; split; [congruence|unfold sg_output; congruence]].
      assert (calls (es1 ++ WCall e1 :: es2 ++ WCall e2 :: es3) = (calls (es1 ++ WCall e1 :: es2) ++ [e2]) ++ calls es3) as ->.
      { rewrite !calls_app. cbn [calls]. rewrite calls_app. cbn [calls]. rewrite <- !app_assoc. reflexivity. }
      rewrite run_app, R1. cbn [obind fst snd]. rewrite Z1. cbn [obind fst snd]. do 2 f_equal. now rewrite app_nil_r.
    - split; auto. apply Verify_iff in V1; auto. apply Verify_iff in X2; auto. unfold schnorr_valid in V1, X2.
      rewrite V1 in X2. apply gadd_cancel_l in X2. revert X2. generalize (chal (sig_R sig) (pub_GroupKey shares) m1), (chal (sig_R sig) (pub_GroupKey shares) m2). intros c1 c2.
      glog (pub_GroupKey shares). rewrite Elg. gcollapse. rewrite gb_inj. intros X. assert (((c1 - c2) * lg)%Fq = 0%Fq) as Y. { transitivity (c1 * lg - c2 * lg)%Fq; [ring|]. rewrite X. ring. }
      apply Fq_integral in Y as [Y|Y].
      + right. transitivity (c1 - c2 + c2)%Fq; [ring|]. rewrite Y. ring.
      + left. rewrite Y. reflexivity.
  Qed.
End Changed.

(** ** What the property asks for and the code does not give *)
Definition t_other : list byte := [x6f; x6b].
Definition tw_run (s : outcome tsstate) (es : list (@wevent toy_group)) : outcome (tsstate * list tmsg) := obind s (fun s => @wrun toy_group toy_hash s es).
Definition wc (es : list (@event toy_group)) : list (@wevent toy_group) := map (@WCall toy_group) es.
(** The shares of party [i] when its buffer is overwritten after its first message. *)
Definition sg2_other (i : Z) : list tmsg := skipn 1 (ts_out (tw_run (ts_new s13 i 0) (wc (prc :: hnd (concat (map sg1_of s13))) ++ WWrite t_other :: wc [prc]))).
Definition verifies (r : outcome (tsstate * list tmsg)) (m : list byte) : bool :=
  match r with Ret (s, _) => match sg_output s with Some sig => @Verify toy_group toy_hash (qof 5) m sig | None => false end | _ => false end.
(** The State given "hi" signs "ok". *)
Theorem C51_given_refuted : exists es : list (@wevent toy_group),
  let r := tw_run (ts_new s13 1 0) es in
  (fst (fst (ts_view r)), snd (fst (ts_view r)), verifies r t_message, verifies r t_other) = ((true, 2), None, false, true).
Proof.
  exists (wc (prc :: hnd (concat (map sg1_of s13))) ++ WWrite t_other :: wc (prc :: hnd (concat (map sg2_other s13)) ++ [prc])). vm_compute. reflexivity.
Qed.
Lemma hnd_in (A : list tmsg) e m : In (@EHandle toy_group e m) (hnd A) -> In m A.
Proof. intros H. unfold hnd in H. apply in_map_iff in H as (x & E & Hx). now inversion E; subst. Qed.
Lemma hnd_in_wc (A : list (@event toy_group)) e : In (WCall e) (wc A) -> In e A.
Proof. unfold wc. intros H. apply in_map_iff in H as (x & E & Hx). now inversion E; subst. Qed.
Lemma hist_in (A B : list tmsg) b e m : In (WCall (@EHandle toy_group e m)) (wc (prc :: hnd A) ++ WWrite b :: wc (prc :: hnd B ++ [prc])) -> In m (A ++ B).
Proof.
  intros H. apply in_app_iff in H as [H|[H|H]]; [|discriminate|]; apply hnd_in_wc in H; destruct H as [H|H]; try discriminate; apply in_app_iff.
  - left. now apply hnd_in in H.
  - right. apply in_app_iff in H as [H|[H|[]]]; [|discriminate]. now apply hnd_in in H.
Qed.
Lemma hist_in' (A : list tmsg) e m : In (@EHandle toy_group e m) (prc :: hnd A) -> In m A.
Proof. intros [H|H]; [discriminate|]. now apply hnd_in in H. Qed.
(** Overwriting party 1's buffer (after signing was started by both for "hi") makes it blame party 3, whose messages are all honest. *)
Theorem C51_blame_refuted : exists es : list (@wevent toy_group),
  (forall e m, In (WCall (@EHandle toy_group e m)) es -> In m (sg1_of 3 ++ sg2_of 3)) /\
  ts_view (tw_run (ts_new s13 1 0) es) = (true, 2, Some (3, "signature share is invalid"%string), false).
Proof.
  exists (wc (prc :: hnd (sg1_of 3)) ++ WWrite t_other :: wc (prc :: hnd (sg2_of 3) ++ [prc])). split; [exact (hist_in (sg1_of 3) (sg2_of 3) t_other)|vm_compute; reflexivity].
Qed.
(** Overwriting the slice of party IDs (with another sorted list) crashes a State that is otherwise fed by honest parties only. *)
Theorem C51_ids_refuted : exists es : list (@event toy_group), (forall e m, In (@EHandle toy_group e m) es -> In m (sg1_of 3)) /\
  match ts_run (ts_new s13 1 0) es with
  | Ret (s, _) => (match ts_run (Ret s) [prc] with Ret _ => true | _ => false end, match ts_run (Ret (sg_reids [1; 4] s)) [prc] with Panics w => w | _ => ""%string end)
  | _ => (false, ""%string) end = (true, "nil signer"%string).
Proof.
  exists (prc :: hnd (sg1_of 3)). split; [exact (hist_in' (sg1_of 3))|vm_compute; reflexivity].
Qed.
(** Cases of the theorems: a write before the share is sent, as in C51_given_refuted, meets the hypotheses of C51_before and C51_output; here the
    hypotheses of C51_changed with a write of the same content between the two readings. *)
Example C51_example : let es := wc (prc :: hnd (concat (map sg1_of s13)) ++ [prc]) ++ WWrite t_message :: wc (hnd (concat (map sg2_of s13)) ++ [prc]) in
  let r := tw_run (ts_new s13 1 0) es in (ts_view r, buffer t_message es) = ((true, 2, None, true), t_message).
Proof. vm_compute. reflexivity. Qed.

Print Assumptions C51_before.
Print Assumptions C51_after.
Print Assumptions C51_output.
Print Assumptions C51_changed.
Print Assumptions C51_given_refuted.
Print Assumptions C51_blame_refuted.
Print Assumptions C51_ids_refuted.
