(** C70: what a failing random source does to a party. *)
From Coq Require Import ZArith Lia List Bool String.
From Coq.Strings Require Import Byte.
From stdpp Require Import base gmap list fin_maps.
From Verif Require Import Spec_Poly PolyAlg PolyFacts ZField Primes Bytes Scalar Go Group ToyGroup Party Poly PolyFacts Zk Eddsa Messages State StateFacts Spec_State Lift Keygen Sign
  RoundFacts Properties_Keygen Properties_Sign Properties_Cmd ToyRuns RandFail.
Import ListNotations.
Local Open Scope Z_scope.

(** The same calls with a source that works. *)
Definition plain `{Gr : group_ops} (e : fevent) : event := match e with FProcess o o' _ => EProcess o o' | FOther e => e end.
(** No message handled is of type None; a message that was decoded never is (C21). *)
Definition typed `{Gr : group_ops} (e : fevent) : Prop := match e with FOther (EHandle _ m) => m_Type m <> MTNone | _ => True end.

Section Generic.
  Context `{Gr : group_ops} {R : Type} (I : RoundI R) (wr : rng -> R -> R) (failing : source -> R -> option R) (zero : R -> bool).
  (** What the theorems below need to know of the rounds: only round 0 ([zero]) reads, it processes nothing, and it comes first. *)
  Record reads_ok : Prop := {
    rk_Wself : forall rg r, r_self I (wr rg r) = r_self I r;
    rk_Wids : forall rg r, r_ids I (wr rg r) = r_ids I r;
    rk_WW : forall a b r, wr a (wr b r) = wr a r;
    rk_Wnz : forall a r, zero r = false -> wr a r = r;
    rk_Wzero : forall a r, zero (wr a r) = zero r;
    rk_Wown : forall r, exists rg, wr rg r = r;
    rk_Wreset : forall rg r, r_reset I (wr rg r) = obind (r_reset I r) (fun r' => Ret (wr rg r'));
    rk_Zproc : forall r m, zero r = true -> r_process I r m = ROk r tt;
    rk_Zgen : forall o r, zero r = true -> match r_generate I o r with ROk r' _ => r_next I r' <> None | RErr _ _ _ => False | RPanic _ => True end;
    rk_Znext : forall r r', r_next I r = Some r' -> zero r' = false;
    rk_Zreset : forall r r', r_reset I r = Ret r' -> zero r' = zero r /\ r_ids I r' = r_ids I r;
    rk_Zloop : forall rcv ks r r1, process_loop I r rcv ks = ROk r1 tt -> zero r1 = zero r;
    rk_Zfail : forall src r r', failing src r = Some r' -> zero r = true /\ zero r' = true /\ r_ids I r' = r_ids I r
  }.
  Context (OK : reads_ok).
  Let Wself := rk_Wself OK.
  Let Wids := rk_Wids OK.
  Let WW := rk_WW OK.
  Let Wnz := rk_Wnz OK.
  Let Wzero := rk_Wzero OK.
  Let Wown := rk_Wown OK.
  Let Wreset := rk_Wreset OK.
  Let Zproc := rk_Zproc OK.
  Let Zgen := rk_Zgen OK.
  Let Znext := rk_Znext OK.
  Let Zreset := rk_Zreset OK.
  Let Zloop := rk_Zloop OK.
  Let Zfail := rk_Zfail OK.
  Notation frun := (frun I wr failing).
  Notation fstep := (fstep I wr failing).

  Definition W (rg : rng) (s : State R) : State R := set_round s (wr rg (st_round s)).
  Lemma W_W a b s : W a (W b s) = W a s. Proof. unfold W, set_round. cbn. now rewrite WW. Qed.
  Lemma W_own s : exists rg, W rg s = s. Proof. destruct (Wown (st_round s)) as [rg E]. exists rg. unfold W. rewrite E. now destruct s. Qed.
  Lemma W_nz a s : zero (st_round s) = false -> W a s = s. Proof. intros H. unfold W. rewrite Wnz by exact H. now destruct s. Qed.

  Lemma finish_W rg s : finish I (W rg s) = obind (finish I s) (fun s' => Ret (W rg s')).
  Proof.
    unfold finish. cbn [W set_round st_done st_round st_closed st_accepted st_received st_queue st_timer st_roundNumber st_err]. destruct (st_done s) eqn:D; [reflexivity|].
    rewrite Wreset. destruct (r_reset I (st_round s)); cbn [obind]; auto. destruct (st_closed s); reflexivity.
  Qed.
  Lemma report_W rg s c t : reportError I (W rg s) c t = obind (reportError I s c t) (fun s' => Ret (W rg s')).
  Proof.
    unfold reportError. cbn [W set_round st_done st_round st_closed st_accepted st_received st_queue st_timer st_roundNumber st_err]. destruct (st_done s) eqn:D; [reflexivity|].
    rewrite <- finish_W. reflexivity.
  Qed.
  Lemma handle_W rg now s m : HandleMessage I now (W rg s) m = (W rg (fst (HandleMessage I now s m)), snd (HandleMessage I now s m)).
  Proof.
    unfold HandleMessage, wrapError, isAcceptedType. cbn [W set_round st_done st_round st_closed st_accepted st_received st_queue st_timer st_roundNumber st_err]. rewrite Wself, Wids.
    destruct (st_done s); [reflexivity|]. destruct (st_accepted s); [reflexivity|].
    repeat match goal with |- context [if ?c then _ else _] => destruct c; try reflexivity | |- context [match ?c with Some _ => _ | None => _ end] => destruct c; try reflexivity end.
  Qed.
  Definition not_process (e : event) : Prop := match e with EProcess _ _ => False | _ => True end.
  Lemma step_W rg s e : not_process e -> step I (W rg s) e = obind (step I s e) (fun r => Ret (W rg (fst r), snd r)).
  Proof.
    destruct e as [now m|o o'|now|]; intros H; [| destruct H| |]; cbn [step obind fst snd].
    - now rewrite handle_W.
    - unfold timerExpire. cbn [W set_round st_timer]. destruct (tm_deadline (st_timer s)); [|reflexivity]. destruct (_ <=? _); reflexivity.
    - unfold timerCallback. change (st_timer (W rg s)) with (st_timer s). destruct (tm_pending (st_timer s)); [reflexivity|].
      set (x := mkState (st_accepted s) (st_received s) (st_queue s) (mkTimer (tm_d (st_timer s)) (tm_deadline (st_timer s)) n) (st_roundNumber s) (st_round s) (st_closed s) (st_done s) (st_err s)).
      match goal with |- obind (reportError I ?y _ _) _ = _ => change y with (W rg x) end. rewrite report_W. destruct (reportError I x 0 "message timeout"); reflexivity.
  Qed.
  Lemma loop_zero rcv ks r : zero r = true -> process_loop I r rcv ks = ROk r tt.
  Proof. intros H. induction ks as [|k ks IH]; cbn [process_loop]; auto. now rewrite Zproc. Qed.
  Definition ready (s : State R) : bool := negb (st_done s) && (Z.of_nat (size (st_received s)) =? u16 (N_ids (r_ids I (st_round s)) - 1)).
  Lemma ready_W rg s : ready (W rg s) = ready s. Proof. unfold ready. cbn [W set_round st_done st_received st_round]. now rewrite Wids. Qed.
  Lemma process_idle o o' s : ready s = false -> ProcessAll I o o' s = Ret (s, []).
  Proof. unfold ready, ProcessAll. destruct (st_done s); auto. cbn [negb andb]. now intros ->. Qed.
  Lemma process_zero o o' s s' l : ready s = true -> zero (st_round s) = true -> ProcessAll I o o' s = Ret (s', l) -> zero (st_round s') = false.
  Proof.
    intros HR HZ E. apply process_cases in E. unfold ready in HR. apply andb_true_iff in HR as [D HR]. apply negb_true_iff in D. apply Z.eqb_eq in HR.
    destruct E as [_ _ [X|X]|r c t _ _ EP|r r' c t _ _ EP EG|r r' ct tl rcv q _ _ EP EG EA EQ EN]; try congruence; rewrite (loop_zero _ _ _ HZ) in EP; try discriminate; injection EP as <-.
    - specialize (Zgen o' _ HZ). rewrite EG in Zgen. destruct Zgen.
    - specialize (Zgen o' _ HZ). rewrite EG in Zgen. destruct (r_next I r') as [nr|] eqn:EX; [|congruence]. subst s'. cbn. now apply (Znext r').
  Qed.
  Lemma process_phase o o' s s' l : zero (st_round s) = false \/ st_done s = true -> ProcessAll I o o' s = Ret (s', l) -> zero (st_round s') = false \/ st_done s' = true.
  Proof.
    intros HP E. apply process_cases in E. destruct E as [-> _ _|r c t D _ _ ER _|r r' c t D _ _ _ ER _|r r' ct tl rcv q D _ _ EG EA EQ EN]; auto.
    - right. unfold reportError in ER. cbn [set_round st_done] in ER. rewrite D in ER. apply finish_ret in ER as (r2 & _ & _ & ->); auto.
    - right. unfold reportError in ER. cbn [st_done] in ER. rewrite D in ER. apply finish_ret in ER as (r2 & _ & _ & ->); auto.
    - destruct (r_next I r') as [nr|] eqn:EX; [subst s'; left; cbn; now apply (Znext r')|]. right. apply finish_ret in EN as (r2 & _ & _ & ->); auto.
  Qed.
  Lemma step_phase s e s' l : not_process e -> step I s e = Ret (s', l) -> l = [] /\ (st_round s' = st_round s /\ st_done s' = st_done s \/ st_done s' = true /\ r_reset I (st_round s) = Ret (st_round s')).
  Proof.
    destruct e as [now m|o o'|now|]; intros H E; [|destruct H| |]; cbn [step] in E.
    - apply Ret_inj in E. inversion E; subst. split; auto. left. unfold HandleMessage. cbv zeta. destruct (st_done s) eqn:D; [auto|]. destruct (st_accepted s); [auto|].
      repeat match goal with |- context [if ?c then _ else _] => destruct c; [now auto|] | |- context [match ?c with Some _ => _ | None => _ end] => destruct c; [now auto|] end; auto.
    - apply Ret_inj in E. inversion E; subst. split; auto. left. unfold timerExpire. destruct (tm_deadline (st_timer s)); [|auto]. destruct (_ <=? _); auto.
    - apply obind_ret in E as (s1 & E & E1). apply Ret_inj in E1. inversion E1; subst. split; auto. unfold timerCallback in E. destruct (tm_pending (st_timer s)); [apply Ret_inj in E; subst; auto|].
      unfold reportError in E. cbn [st_done] in E. destruct (st_done s) eqn:D; [apply Ret_inj in E; subst; auto|].
      apply finish_ret in E as (r & E1' & _ & ->); [|reflexivity]. right. auto.
  Qed.

  (** Equal but for the values still to be read. *)
  Definition alike (s t : State R) : Prop := forall rg, W rg s = W rg t.
  Lemma alike_nz s t : alike s t -> zero (st_round t) = false -> s = t.
  Proof.
    intros H Z. destruct (W_own s) as [rg E]. specialize (H rg). rewrite E in H. rewrite H. now apply W_nz.
  Qed.
  Lemma alike_ready s t : alike s t -> ready s = ready t.
  Proof. intros H. rewrite <- (ready_W (fun _ => 0) s), (H (fun _ => 0)). apply ready_W. Qed.
  Lemma alike_step s t e s' l : alike s t -> not_process e -> step I t e = Ret (s', l) -> exists t', step I s e = Ret (t', l) /\ alike t' s'.
  Proof.
    intros H He E. destruct (step I s e) as [[t' l']|?|?] eqn:E'.
    - assert (forall rg, W rg t' = W rg s' /\ l' = l) as X.
      { intros rg. pose proof (step_W rg s e He) as A. pose proof (step_W rg t e He) as B. rewrite (H rg), B, E, E' in A. cbn [obind fst snd] in A. apply Ret_inj in A. inversion A. split; congruence. }
      destruct (X (fun _ => 0)) as [_ ->]. exists t'. split; auto. intros rg. apply X.
    - exfalso. pose proof (step_W (fun _ => 0) s e He) as A. pose proof (step_W (fun _ => 0) t e He) as B. rewrite (H _), B, E, E' in A. discriminate.
    - exfalso. pose proof (step_W (fun _ => 0) s e He) as A. pose proof (step_W (fun _ => 0) t e He) as B. rewrite (H _), B, E, E' in A. discriminate.
  Qed.
  (** The history so far, when no call has failed. *)
  Definition same_so_far (s0 : State R) (es : list fevent) (s : State R) (out : list Message) : Prop :=
    (zero (st_round s) = true /\ out = [] /\ forall rg, run I (W rg s0) (map plain es) = Ret (W rg s, [])) \/
    ((zero (st_round s) = false \/ st_done s = true) /\ exists rg t, run I (W rg s0) (map plain es) = Ret (t, out) /\ alike t s).
  Lemma run_end s es e s1 o1 s2 o2 : run I s es = Ret (s1, o1) -> step I s1 e = Ret (s2, o2) -> run I s (es ++ [e]) = Ret (s2, o1 ++ o2).
  Proof. intros E1 E2. rewrite run_app, E1. cbn [obind fst snd run]. rewrite E2. cbn. now rewrite app_nil_r. Qed.
  Lemma run_end' s es e s1 o1 s2 : run I s es = Ret (s1, o1) -> step I s1 e = Ret (s2, []) -> run I s (es ++ [e]) = Ret (s2, o1).
  Proof. intros E1 E2. rewrite <- (app_nil_r o1). now apply (run_end s es e s1). Qed.
  Lemma process_so_far s0 es s out o o' rg0 s' l : same_so_far s0 es s out -> ProcessAll I o o' (W rg0 s) = Ret (s', l) ->
    forall e, plain e = EProcess o o' -> same_so_far s0 (es ++ [e]) s' (out ++ l).
  Proof.
    intros HJ E e He. unfold same_so_far. rewrite map_app. cbn [map]. rewrite He.
    destruct (ready s) eqn:HR.
    - destruct HJ as [(HZ & -> & HA)|(HP & rg & t & HA & HT)].
      + right. pose proof (process_zero o o' (W rg0 s) s' l ltac:(now rewrite ready_W) ltac:(cbn; now rewrite Wzero) E) as NZ. split; auto.
        exists rg0, s'. split; [|intros ?; reflexivity]. eapply (run_end _ _ _ _ []); [apply HA|exact E].
      + assert (zero (st_round s) = false) as NZ. { destruct HP as [|D]; auto. unfold ready in HR. rewrite D in HR. discriminate. }
        rewrite (W_nz rg0 s NZ) in E. pose proof (process_phase o o' s s' l HP E) as HP'. right. split; auto. rewrite (alike_nz t s HT NZ) in HA.
        exists rg, s'. split; [|intros ?; reflexivity]. eapply run_end; [exact HA|exact E].
    - assert (forall rg, ProcessAll I o o' (W rg s) = Ret (W rg s, [])) as HI by (intros rg; apply process_idle; now rewrite ready_W).
      rewrite HI in E. apply Ret_inj in E. inversion E; subst s' l. rewrite app_nil_r.
      destruct HJ as [(HZ & -> & HA)|(HP & rg & t & HA & HT)].
      + left. cbn [W set_round st_round]. rewrite Wzero. split; auto. split; auto. intros rg. fold (W rg0 s). rewrite W_W.
        eapply run_end'; [apply HA|apply HI].
      + right. cbn [W set_round st_round st_done]. rewrite Wzero. split; auto. exists rg, t. split.
        * eapply run_end'; [exact HA|]. apply process_idle. now rewrite (alike_ready t s HT).
        * intros a. fold (W rg0 s). now rewrite W_W.
  Qed.
  Lemma step_so_far s0 es s out e s' l : same_so_far s0 es s out -> fstep s e = Ret (s', Some l) -> same_so_far s0 (es ++ [e]) s' (out ++ l).
  Proof.
    intros HJ E. destruct e as [o o' src|e]; cbn [RandFail.fstep] in E.
    - unfold ProcessAll_src in E. destruct (broken_round I failing o src s); [discriminate|]. apply obind_ret in E as ([s1 l1] & E & E1). apply Ret_inj in E1. inversion E1; subst.
      eapply process_so_far; [exact HJ|exact E|reflexivity].
    - apply obind_ret in E as ([s1 l1] & E & E1). apply Ret_inj in E1. inversion E1; subst. cbn [fst snd] in *.
      destruct e as [now m|o o'|now|].
      2:{ destruct (W_own s) as [rg Erg]. eapply (process_so_far s0 es s out o o' rg); [exact HJ|rewrite Erg; exact E|reflexivity]. }
      all: match type of E with step I _ ?ev = _ => destruct (step_phase s ev s' l Logic.I E) as [-> HS]; rewrite app_nil_r; unfold same_so_far; rewrite map_app; cbn [map plain];
        destruct HJ as [(HZ & -> & HA)|(HP & rg & t & HA & HT)];
        [left; split; [destruct HS as [[-> _]|[_ HS]]; [exact HZ|apply Zreset in HS as [-> _]; exact HZ]|]; split; auto; intros rg;
          eapply run_end'; [apply HA|rewrite step_W by exact Logic.I; rewrite E; reflexivity]
        |right; split; [destruct HS as [[-> ->]|[HS _]]; auto|]; destruct (alike_step t s ev s' [] HT Logic.I E) as (t' & E' & HT'); exists rg, t'; split; [eapply run_end'; [exact HA|exact E']|exact HT']] end.
  Qed.
  Lemma frun_app es es' : forall s, frun s (es ++ es') = obind (frun s es) (fun r1 => obind (frun (fst (fst r1)) es') (fun r2 =>
    Ret (fst (fst r2), snd (fst r1) ++ snd (fst r2), snd r1 || snd r2))).
  Proof.
    induction es as [|e es IH]; intros s; cbn [app RandFail.frun obind fst snd].
    - destruct (frun s es') as [[[a b] c]|?|?]; reflexivity.
    - destruct (fstep s e) as [[s1 o1]|?|?]; cbn [obind fst snd]; auto. rewrite IH. destruct (frun s1 es) as [[[a b] c]|?|?]; cbn [obind fst snd]; auto.
      destruct (frun a es') as [[[a' b'] c']|?|?]; cbn [obind fst snd]; auto. rewrite app_assoc. destruct o1, c; reflexivity.
  Qed.
  Lemma frun_so_far s0 es : forall s out, frun s0 es = Ret (s, out, false) -> same_so_far s0 es s out.
  Proof.
    induction es as [|e es IH] using rev_ind; intros s out E.
    - cbn in E. apply Ret_inj in E. inversion E; subst. destruct (zero (st_round s)) eqn:Z; [left|right].
      + split; auto.
      + split; auto. destruct (W_own s) as [rg Erg]. exists rg, s. rewrite Erg. split; [reflexivity|intros ?; reflexivity].
    - rewrite frun_app in E. apply obind_ret in E as ([[s1 o1] b1] & E1 & E). cbn [fst snd] in E. apply obind_ret in E as ([[s2 o2] b2] & E2 & E). cbn [fst snd] in E.
      apply Ret_inj in E. inversion E; subst. apply orb_false_iff in H2 as [-> ->]. specialize (IH _ _ E1). cbn [RandFail.frun] in E2.
      apply obind_ret in E2 as ([s3 o3] & E2 & E3). cbn [obind fst snd] in E3. apply Ret_inj in E3. inversion E3; subst. destruct o3 as [l|]; [|discriminate]. cbn [default]. rewrite app_nil_r.
      eapply step_so_far; eauto.
  Qed.
  Lemma frun_refines s0 es s out : frun s0 es = Ret (s, out, false) ->
    exists rg t, run I (W rg s0) (map plain es) = Ret (t, out) /\ alike t s.
  Proof.
    intros E. apply frun_so_far in E as [(_ & -> & H)|(_ & rg & t & H & HT)]; eauto. exists (fun _ => 0). eexists. split; [apply H|]. intros a. apply W_W.
  Qed.

  (** *** After a failure *)
  Record fresh (s0 s : State R) : Prop := { fr_acc : st_accepted s = st_accepted s0; fr_round : exists rg, st_round s = wr rg (st_round s0);
    fr_no : st_roundNumber s = st_roundNumber s0; fr_closed : st_closed s = st_closed s0; fr_err : st_err s = st_err s0 }.
  Lemma fresh_W s0 s rg : fresh s0 s -> fresh s0 (W rg s).
  Proof. intros [A [a B] C D E]. split; auto. exists rg. cbn. now rewrite B, WW. Qed.
  Lemma other_cases s e s' l : not_process e -> step I s e = Ret (s', l) ->
    l = [] /\ (s' = mkState (st_accepted s) (st_received s') (st_queue s') (st_timer s') (st_roundNumber s) (st_round s) (st_closed s) (st_done s) (st_err s) \/
      st_done s = false /\ st_done s' = true /\ r_reset I (st_round s) = Ret (st_round s') /\ st_closed s' = 1%nat /\ st_accepted s' = st_accepted s /\ st_received s' = st_received s /\
        st_roundNumber s' = st_roundNumber s /\ st_err s' = match st_err s with None => Some (mkPError 0 (st_roundNumber s) "message timeout") | Some x => Some x end).
  Proof.
    assert (forall t : State R, t = mkState (st_accepted t) (st_received t) (st_queue t) (st_timer t) (st_roundNumber t) (st_round t) (st_closed t) (st_done t) (st_err t)) as Eta by now intros [].
    destruct e as [now m|o o'|now|]; intros H E; [|destruct H| |]; cbn [step] in E.
    - apply Ret_inj in E. inversion E; subst. split; auto. left. unfold HandleMessage. cbv zeta. destruct (st_done s) eqn:D; [rewrite <- D; apply Eta|]. destruct (st_accepted s) eqn:EA; [rewrite <- D, <- EA; apply Eta|].
      repeat match goal with |- context [if ?c then _ else _] => destruct c; [rewrite <- ?D, <- ?EA; (apply Eta || reflexivity)|] | |- context [match ?c with Some _ => _ | None => _ end] => destruct c; [rewrite <- ?D, <- ?EA; apply Eta|] end; rewrite <- ?D, <- ?EA; reflexivity || apply Eta.
    - apply Ret_inj in E. inversion E; subst. split; auto. left. unfold timerExpire. destruct (tm_deadline (st_timer s)); [|apply Eta]. destruct (_ <=? _); [reflexivity|apply Eta].
    - apply obind_ret in E as (s1 & E & E1). apply Ret_inj in E1. inversion E1; subst. split; auto. unfold timerCallback in E. destruct (tm_pending (st_timer s)); [apply Ret_inj in E; subst; left; apply Eta|].
      unfold reportError in E. cbn [st_done] in E. destruct (st_done s) eqn:D; [apply Ret_inj in E; subst; left; reflexivity|].
      apply finish_ret in E as (r & E1' & _ & ->); [|reflexivity]. right. cbn [st_done st_round st_closed st_accepted st_received st_roundNumber st_err]. destruct (st_err s); auto 10.
  Qed.
  Definition young (s0 s : State R) : Prop := zero (st_round s) = true -> st_done s = false -> fresh s0 s.
  Lemma young_process s0 s o o' s' l : (zero (st_round s) = false \/ st_done s = true \/ fresh s0 s) -> ProcessAll I o o' s = Ret (s', l) -> young s0 s'.
  Proof.
    intros H E HZ D. destruct (ready s) eqn:HR.
    - assert (zero (st_round s) = true -> False) as NZ by (intros X; rewrite (process_zero o o' s s' l HR X E) in HZ; discriminate).
      exfalso. destruct (zero (st_round s)) eqn:Z; [auto|]. destruct (process_phase o o' s s' l (or_introl Z) E); congruence.
    - rewrite (process_idle o o' s HR) in E. apply Ret_inj in E. inversion E; subst. destruct H as [X|[X|X]]; auto; congruence.
  Qed.
  Lemma young_step s0 s e s' l : young s0 s -> fstep s e = Ret (s', Some l) -> young s0 s'.
  Proof.
    intros HY E. assert (zero (st_round s) = false \/ st_done s = true \/ fresh s0 s) as HC.
    { destruct (zero (st_round s)) eqn:Z; auto. destruct (st_done s) eqn:D; auto. }
    destruct e as [o o' src|e]; cbn [RandFail.fstep] in E.
    - unfold ProcessAll_src in E. destruct (broken_round I failing o src s); [discriminate|]. apply obind_ret in E as ([s1 l1] & E & E1). apply Ret_inj in E1. inversion E1; subst. cbn [fst] in *.
      eapply young_process; [|exact E]. destruct HC as [X|[X|X]]; [left; cbn; now rewrite Wzero|auto|right; right; now apply fresh_W].
    - apply obind_ret in E as ([s1 l1] & E & E1). apply Ret_inj in E1. inversion E1; subst. cbn [fst snd] in *.
      assert (not_process e -> young s0 s') as X.
      { intros He HZ D. destruct (other_cases s e s' l He E) as [_ [Es|(_ & X & _)]]; [|congruence]. rewrite Es in HZ, D. cbn in HZ, D. destruct (HY HZ D) as [A [a B] C F G]. rewrite Es. split; cbn; eauto. }
      destruct e as [now m|o o'|now|]; try (apply X; exact Logic.I). eapply young_process; [exact HC|exact E].
  Qed.
  Lemma frun_young s0 es : forall s out, frun s0 es = Ret (s, out, false) -> young s0 s.
  Proof.
    induction es as [|e es IH] using rev_ind; intros s out E.
    - cbn in E. apply Ret_inj in E. inversion E; subst. intros _ _. split; auto. destruct (Wown (st_round s)) as [rg X]. exists rg. congruence.
    - rewrite frun_app in E. apply obind_ret in E as ([[s1 o1] b1] & E1 & E). cbn [fst snd] in E. apply obind_ret in E as ([[s2 o2] b2] & E2 & E). cbn [fst snd] in E.
      apply Ret_inj in E. inversion E; subst. apply orb_false_iff in H2 as [-> ->]. specialize (IH _ _ E1). cbn [RandFail.frun] in E2.
      apply obind_ret in E2 as ([s3 o3] & E2 & E3). cbn [obind fst snd] in E3. apply Ret_inj in E3. inversion E3; subst. destruct o3 as [l|]; [|discriminate].
      eapply young_step; eauto.
  Qed.

  (** A State whose GenerateMessages panicked in round 0: no messages received, and its round has not begun. *)
  Record stuck (s : State R) : Prop := { sk_received : st_received s = ∅; sk_acc : exists tl, st_accepted s = MTNone :: tl;
    sk_many : u16 (N_ids (r_ids I (st_round s)) - 1) <> 0; sk_zero : zero (st_round s) = true; sk_closed : st_closed s = if st_done s then 1%nat else 0%nat }.
  Definition timed_out (s s' : State R) : Prop := r_reset I (st_round s) = Ret (st_round s') /\
    st_err s' = match st_err s with None => Some (mkPError 0 (st_roundNumber s) "message timeout") | Some x => Some x end.
  Lemma stuck_ready s : stuck s -> ready s = false.
  Proof. intros [A _ B _ _]. unfold ready. rewrite A, map_size_empty. apply andb_false_iff. right. apply Z.eqb_neq. cbn. auto. Qed.
  Lemma stuck_W rg s : stuck s -> stuck (W rg s).
  Proof. intros [A B C D E]. split; cbn; auto; [now rewrite Wids|now rewrite Wzero]. Qed.
  Lemma broken_idle o src s : ready s = false -> broken_round I failing o src s = None.
  Proof. unfold ready, broken_round. destruct (st_done s); auto. cbn [negb andb]. now intros ->. Qed.
  Lemma stuck_step s e s' l : stuck s -> typed e -> fstep s e = Ret (s', l) ->
    stuck s' /\ l = Some [] /\ st_roundNumber s' = st_roundNumber s /\
    ((st_done s' = st_done s /\ st_err s' = st_err s /\ exists rg, st_round s' = wr rg (st_round s)) \/ (st_done s = false /\ st_done s' = true /\ timed_out s s')).
  Proof.
    intros HS HT E. pose proof (stuck_ready s HS) as HR. destruct e as [o o' src|e]; cbn [RandFail.fstep] in E.
    - unfold ProcessAll_src in E. rewrite (broken_idle o src s HR) in E. fold (W (reads src) s) in E. rewrite process_idle in E by (now rewrite ready_W). cbn [obind fst snd] in E.
      apply Ret_inj in E. inversion E; subst. split; [now apply stuck_W|]. split; auto. split; auto. left. cbn. eauto.
    - apply obind_ret in E as ([s1 l1] & E & E1). apply Ret_inj in E1. inversion E1; subst. cbn [fst snd] in *. destruct (Wown (st_round s)) as [rg Erg].
      destruct e as [now m|o o'|now|].
      2:{ cbn [step] in E. rewrite process_idle in E by exact HR. apply Ret_inj in E. inversion E; subst. split; auto. split; auto. split; auto. left. eauto. }
      all: match type of E with step I _ ?ev = _ => destruct (other_cases s ev s' l1 Logic.I E) as [-> [Es|(A1 & A2 & A3 & A4 & A5 & A6 & A7 & A8)]] end.
      2,4,6: split; [split; [rewrite A6; apply HS|rewrite A5; apply HS|rewrite (proj2 (Zreset _ _ A3)); apply HS|rewrite (proj1 (Zreset _ _ A3)); apply HS|now rewrite A2, A4]|]; split; auto; split; auto; right; split; auto; split; auto; now split.
      all: assert (st_received s' = ∅) as ER.
      1:{ cbn [step] in E. apply Ret_inj in E. inversion E; subst. destruct HS as [S1 [tl S2] _ _ _]. cbn [typed] in HT. unfold HandleMessage. cbv zeta. rewrite S1, S2.
          destruct (st_done s); [exact S1|]. destruct (_ =? _); [exact S1|]. destruct (_ && _); [exact S1|]. destruct (negb _); [exact S1|]. rewrite lookup_empty. destruct (negb _); [exact S1|].
          rewrite (proj2 (Z.eqb_neq _ _) HT). reflexivity. }
      1:{ rewrite Es. cbn. destruct HS as [S1 S2 S3 S4 S5]. split; [split; auto|]. split; auto. split; auto. left. split; auto. split; auto. exists rg. auto. }
      1:{ cbn [step] in E. apply Ret_inj in E. inversion E; subst. unfold timerExpire. destruct HS as [S1 _ _ _ _]. destruct (tm_deadline (st_timer s)); [|exact S1]. destruct (_ <=? _); exact S1. }
      1:{ rewrite Es. cbn. destruct HS as [S1 S2 S3 S4 S5]. split; [split; auto|]. split; auto. split; auto. left. split; auto. split; auto. exists rg. auto. }
      2:{ rewrite Es. cbn. destruct HS as [S1 S2 S3 S4 S5]. split; [split; auto|]. split; auto. split; auto. left. split; auto. split; auto. exists rg. auto. }
      cbn [step] in E. apply obind_ret in E as (s1 & E & E2). apply Ret_inj in E2. inversion E2; subst. unfold timerCallback in E. destruct HS as [S1 _ _ _ _].
      destruct (tm_pending (st_timer s)); [apply Ret_inj in E; now subst|]. unfold reportError in E. cbn [st_done] in E. destruct (st_done s) eqn:D; [apply Ret_inj in E; subst; exact S1|].
      apply finish_ret in E as (r & E1' & _ & ->); [exact S1|reflexivity].
  Qed.
  Lemma stuck_run es : forall s s' out b, stuck s -> Forall typed es -> frun s es = Ret (s', out, b) ->
    stuck s' /\ out = [] /\ b = false /\ st_roundNumber s' = st_roundNumber s /\
    ((st_done s' = st_done s /\ st_err s' = st_err s /\ exists rg, st_round s' = wr rg (st_round s)) \/ (st_done s = false /\ st_done s' = true /\ exists rg rg' t, timed_out (W rg s) t /\ st_err s' = st_err t /\ st_round s' = wr rg' (st_round t))).
  Proof.
    induction es as [|e es IH]; intros s s' out b HS HF E; cbn [RandFail.frun] in E.
    - apply Ret_inj in E. inversion E; subst. split; auto. split; auto. split; auto. split; auto. left. destruct (Wown (st_round s')) as [rg Erg]. eauto 10.
    - apply obind_ret in E as ([s1 l1] & E1 & E). cbn [fst snd] in E. apply obind_ret in E as ([[s2 o2] b2] & E2 & E). cbn [fst snd] in E. apply Ret_inj in E. inversion E; subst. inversion HF as [|? ? He HF']; subst.
      destruct (stuck_step s e s1 l1 HS He E1) as (HS1 & -> & HN & HC). destruct (IH s1 s' o2 b2 HS1 HF' E2) as (HS2 & -> & -> & HN2 & HC2). cbn [default]. split; auto. split; auto. split; auto. split; [congruence|].
      destruct HC as [(D1 & R1 & rg & Q1)|(D1 & D2 & T1)].
      + destruct HC2 as [(D3 & R3 & rg' & Q3)|(D3 & D4 & rg' & rg'' & t & [T1 T2] & T3 & T4)].
        * left. split; [congruence|]. split; [congruence|]. exists rg'. now rewrite Q3, Q1, WW.
        * right. split; [congruence|]. split; auto. exists rg', rg'', t. split; [|auto]. unfold timed_out in *. cbn [W set_round st_round st_err st_roundNumber] in *. rewrite Q1, WW in T1. rewrite R1, HN in T2. auto.
      + destruct HC2 as [(D3 & R3 & rg' & Q3)|(D3 & _)]; [|congruence]. right. split; auto. split; [congruence|]. destruct (W_own s) as [rg Erg]. exists rg, rg', s1. rewrite Erg. auto.
  Qed.
  (** A State whose rounds can be reset never crashes once it is stuck. *)
  Lemma stuck_total s e : stuck s -> typed e -> (forall rg, exists r, r_reset I (wr rg (st_round s)) = Ret r) -> exists s', fstep s e = Ret (s', Some []).
  Proof.
    intros HS HT HR. assert (exists s' l, fstep s e = Ret (s', l)) as (s' & l & E).
    { destruct e as [o o' src|e]; cbn [RandFail.fstep].
      - unfold ProcessAll_src. rewrite (broken_idle o src s (stuck_ready s HS)). fold (W (reads src) s). rewrite process_idle by (rewrite ready_W; now apply stuck_ready). cbn. eauto.
      - destruct e as [now m|o o'|now|]; cbn [step obind]; eauto.
        + rewrite process_idle by now apply stuck_ready. cbn. eauto.
        + unfold timerCallback. destruct (tm_pending (st_timer s)); [cbn; eauto|]. unfold reportError. cbn [st_done]. destruct (st_done s) eqn:D; [cbn; eauto|].
          unfold finish. cbn [st_done st_round st_closed]. destruct (Wown (st_round s)) as [rg Erg]. destruct (HR rg) as [r Er]. rewrite Erg in Er. rewrite Er. cbn [obind]. rewrite (sk_closed s HS), D. cbn. eauto. }
    destruct (stuck_step s e s' l HS HT E) as (_ & -> & _). eauto.
  Qed.
  Lemma fail_stuck s0 s o o' src s' tl : young s0 s -> st_accepted s0 = MTNone :: tl -> st_closed s0 = 0%nat -> u16 (N_ids (r_ids I (st_round s0)) - 1) <> 0 ->
    fstep s (FProcess o o' src) = Ret (s', None) -> zero (st_round s) = true /\ st_done s = false /\ stuck s' /\ st_done s' = false /\ st_err s' = st_err s /\ st_roundNumber s' = st_roundNumber s /\
      fresh s0 s /\ failing src (st_round s) = Some (st_round s').
  Proof.
    intros HY HA HC HN E. cbn [RandFail.fstep] in E. unfold ProcessAll_src in E. destruct (broken_round I failing o src s) as [r|] eqn:EB.
    2:{ apply obind_ret in E as (? & _ & E). apply Ret_inj in E. discriminate. }
    apply Ret_inj in E. inversion E; subst s'. cbn [st_done st_err st_round st_roundNumber]. unfold broken_round in EB. destruct (st_done s) eqn:D; [discriminate|]. destruct (negb _); [discriminate|].
    destruct (process_loop I (st_round s) (st_received s) (map_keys o (st_received s))) as [r1 u|?|?] eqn:EP; try discriminate.
    assert (zero (st_round s) = true) as HZ.
    { destruct u. rewrite <- (Zloop _ _ _ _ EP). now apply Zfail in EB. }
    rewrite (loop_zero _ _ _ HZ) in EP. injection EP as <- _. destruct (Zfail _ _ _ EB) as (Z1 & Z2 & Z3). pose proof (HY HZ D) as HF. split; auto. split; auto.
    split; [|auto 10]. destruct HF as [F1 [rg F2] F3 F4 F5]. split; cbn; [reflexivity|rewrite F1; eauto|rewrite Z3, F2, Wids; exact HN|exact Z2|rewrite ?D, F4; exact HC].
  Qed.

  (** The first call that fails. *)
  Lemma first_failure es : forall s0 s out, frun s0 es = Ret (s, out, true) -> exists es1 o o' src es2 s1 s2 o1 o2 b,
    es = es1 ++ FProcess o o' src :: es2 /\ frun s0 es1 = Ret (s1, o1, false) /\ fstep s1 (FProcess o o' src) = Ret (s2, None) /\ frun s2 es2 = Ret (s, o2, b) /\ out = o1 ++ o2.
  Proof.
    induction es as [|e es IH]; intros s0 s out E; cbn [RandFail.frun] in E; [apply Ret_inj in E; discriminate|].
    apply obind_ret in E as ([s1 l1] & E1 & E). cbn [fst snd] in E. apply obind_ret in E as ([[s2 o2] b2] & E2 & E). cbn [fst snd] in E. apply Ret_inj in E. inversion E; subst. destruct l1 as [l|].
    - rewrite H2 in E2. destruct (IH s1 s o2 E2) as (es1 & o & o' & src & es2 & s3 & s4 & o3 & o4 & b & -> & A & B & C & ->).
      exists (e :: es1), o, o', src, es2, s3, s4, (l ++ o3), o4, b. split; auto. split; [cbn [RandFail.frun]; rewrite E1; cbn [obind fst snd]; rewrite A; reflexivity|]. split; auto. split; auto. cbn [default]. now rewrite app_assoc.
    - destruct e as [o o' src|e].
      + exists [], o, o', src, es, s0, s1, [], o2, b2. repeat split; auto.
      + cbn [RandFail.fstep] in E1. apply obind_ret in E1 as (? & _ & E1). apply Ret_inj in E1. discriminate.
  Qed.
  Lemma failure_at s0 tl es1 o o' src es2 s1 s2 o1 s o2 b : st_accepted s0 = MTNone :: tl -> st_closed s0 = 0%nat -> u16 (N_ids (r_ids I (st_round s0)) - 1) <> 0 -> Forall typed es2 ->
    frun s0 es1 = Ret (s1, o1, false) -> fstep s1 (FProcess o o' src) = Ret (s2, None) -> frun s2 es2 = Ret (s, o2, b) ->
    o1 = [] /\ o2 = [] /\ stuck s /\ st_roundNumber s = st_roundNumber s0 /\ exists rg r',
      failing src (wr rg (st_round s0)) = Some r' /\
      ((st_done s = false /\ st_err s = st_err s0 /\ exists rg', st_round s = wr rg' r') \/
       (st_done s = true /\ st_err s = Some (match st_err s0 with None => mkPError 0 (st_roundNumber s0) "message timeout" | Some x => x end) /\
        exists rg1 rg2 r2, r_reset I (wr rg1 r') = Ret r2 /\ st_round s = wr rg2 r2)).
  Proof.
    intros HA HC HN HT3 E1 E2 E3. pose proof (frun_young s0 es1 s1 o1 E1) as HY.
    destruct (fail_stuck s0 s1 o o' src s2 tl HY HA HC HN E2) as (HZ & D & HS & D2 & Er2 & N2 & HF & EF).
    assert (o1 = []) as ->. { destruct (frun_so_far s0 es1 s1 o1 E1) as [(_ & X & _)|([X|X] & _)]; [exact X|congruence|congruence]. }
    destruct (stuck_run es2 s2 s o2 b HS HT3 E3) as (HS' & -> & -> & N3 & HC3). split; auto. split; auto. split; auto. destruct HF as [F1 [rg F2] F3 F4 F5].
    split; [congruence|]. exists rg, (st_round s2). split; [now rewrite <- F2|]. destruct HC3 as [(A1 & A2 & rg' & A3)|(A1 & A2 & rg1 & rg2 & t & [A3 A4] & A5 & A6)].
    - left. split; [congruence|]. split; [congruence|]. eauto.
    - right. split; auto. split.
      + rewrite A5, A4. cbn [W set_round st_err st_roundNumber]. rewrite Er2, F5, N2, F3. destruct (st_err s0); reflexivity.
      + exists rg1, rg2, (st_round t). auto.
  Qed.
  Lemma failure_shape s0 tl es s out : st_accepted s0 = MTNone :: tl -> st_closed s0 = 0%nat -> u16 (N_ids (r_ids I (st_round s0)) - 1) <> 0 -> Forall typed es ->
    frun s0 es = Ret (s, out, true) ->
    out = [] /\ stuck s /\ st_roundNumber s = st_roundNumber s0 /\ exists rg src r',
      failing src (wr rg (st_round s0)) = Some r' /\
      ((st_done s = false /\ st_err s = st_err s0 /\ exists rg', st_round s = wr rg' r') \/
       (st_done s = true /\ st_err s = Some (match st_err s0 with None => mkPError 0 (st_roundNumber s0) "message timeout" | Some x => x end) /\
        exists rg1 rg2 r2, r_reset I (wr rg1 r') = Ret r2 /\ st_round s = wr rg2 r2)).
  Proof.
    intros HA HC HN HT E. destruct (first_failure es s0 s out E) as (es1 & o & o' & src & es2 & s1 & s2 & o1 & o2 & b & -> & E1 & E2 & E3 & ->).
    apply Forall_app in HT as [HT1 HT2]. inversion HT2 as [|? ? _ HT3]; subst.
    destruct (failure_at s0 tl es1 o o' src es2 s1 s2 o1 s o2 b HA HC HN HT3 E1 E2 E3) as (-> & -> & HS & EN & rg & r' & HF & HC'). split; auto. split; auto. split; auto. exists rg, src, r'. auto.
  Qed.
  Lemma stuck_done_ok es : forall s, stuck s -> Forall typed es -> st_done s = true -> exists s', frun s es = Ret (s', [], false).
  Proof.
    induction es as [|e es IH]; intros s HS HT D; [cbn; eauto|]. inversion HT as [|? ? He HT2]; subst.
    assert (exists s' l, fstep s e = Ret (s', l)) as (s' & l & E).
    { destruct e as [o o' src|e]; cbn [RandFail.fstep].
      - unfold ProcessAll_src. rewrite (broken_idle o src s (stuck_ready s HS)). fold (W (reads src) s). rewrite process_idle by (rewrite ready_W; now apply stuck_ready). cbn. eauto.
      - destruct e as [now m|o o'|now|]; cbn [step obind]; eauto.
        + rewrite process_idle by now apply stuck_ready. cbn. eauto.
        + unfold timerCallback. destruct (tm_pending (st_timer s)); [cbn; eauto|]. unfold reportError. cbn [st_done]. rewrite D. cbn. eauto. }
    destruct (stuck_step s e s' l HS He E) as (HS' & -> & _ & HC). destruct (IH s' HS' HT2) as (s2 & E2). { destruct HC as [(X & _)|(X & _)]; congruence. }
    exists s2. cbn [RandFail.frun]. rewrite E. cbn [obind fst snd]. rewrite E2. reflexivity.
  Qed.
  Lemma stuck_ok es : forall s, stuck s -> Forall typed es -> (forall r, wr (fun _ => 0) r = wr (fun _ => 0) (st_round s) -> exists r', r_reset I r = Ret r') ->
    exists s', frun s es = Ret (s', [], false).
  Proof.
    induction es as [|e es IH]; intros s HS HT HR; [cbn; eauto|]. inversion HT as [|? ? He HT']; subst.
    destruct (stuck_total s e HS He ltac:(intros rg; apply HR; apply WW)) as (s1 & E1). destruct (stuck_step s e s1 _ HS He E1) as (HS1 & _ & _ & HC).
    assert (exists s2, frun s1 es = Ret (s2, [], false)) as (s2 & E2).
    { destruct HC as [(_ & _ & rg & Er)|(_ & D & _)].
      - apply IH; auto. intros r X. apply HR. rewrite X, Er. apply WW.
      - now apply stuck_done_ok. }
    exists s2. cbn [RandFail.frun]. rewrite E1. cbn [obind fst snd]. rewrite E2. reflexivity.
  Qed.
End Generic.

Section Protocols.
  Context `{Gr : group_ops} `{Hf : hash_fn}.
  Definition kg_zero (k : kround) : bool := Nat.eqb (kr_no k) 0.
  Definition sg_zero (s : sround) : bool := Nat.eqb (sr_no s) 0.

  Lemma sign_reads_ok : reads_ok sign_round sg_with_reads sg_failing sg_zero.
  Proof.
    assert (forall rg r, sg_with_reads rg r = r \/ sr_no r = 0%nat) as X by (intros rg r; unfold sg_with_reads; destruct (Nat.eqb_spec (sr_no r) 0); auto).
    split; unfold sg_zero.
    - intros rg r. cbn. unfold sg_with_reads. now destruct (Nat.eqb _ _).
    - intros rg r. cbn. unfold sg_with_reads. now destruct (Nat.eqb _ _).
    - intros a b r. unfold sg_with_reads. destruct (Nat.eqb (sr_no r) 0) eqn:E; cbn [sr_no]; rewrite E; reflexivity.
    - intros a r E. unfold sg_with_reads. now rewrite E.
    - intros a r. unfold sg_with_reads. destruct (Nat.eqb (sr_no r) 0) eqn:E; cbn [sr_no]; now rewrite E.
    - intros r. exists (sr_rng r). unfold sg_with_reads. destruct (Nat.eqb _ _); [now destruct r|reflexivity].
    - intros rg r. cbn. unfold sg_Reset, sg_with_reads. destruct (Nat.eqb (sr_no r) 0) eqn:E; cbn [obind sr_no]; rewrite ?E; reflexivity.
    - intros r m E. cbn. apply Nat.eqb_eq in E. now rewrite E.
    - intros o r E. cbn. apply Nat.eqb_eq in E. rewrite E. unfold sg0_generate. destruct (sr_Parties r !! sr_self r); [|exact Logic.I]. cbn [sr_no]. rewrite E. discriminate.
    - intros r r'. cbn. destruct (sr_no r) as [|[|n]]; intros [= <-]; reflexivity.
    - intros r r' E. cbn in E. unfold sg_Reset in E. apply Ret_inj in E. subst r'. auto.
    - intros rcv ks r r1 E. f_equal. now apply sg_loop_no in E.
    - intros src r r' E. unfold sg_failing in E. destruct (sr_no r) eqn:En; [|discriminate]. destruct (sr_Parties r !! sr_self r); [|discriminate].
      destruct (negb _); [injection E as <-; rewrite En; auto|]. destruct (negb _); [|discriminate]. injection E as <-. cbn. auto.
  Qed.
  Lemma keygen_reads_ok : reads_ok keygen_round kg_with_reads kg_failing kg_zero.
  Proof.
    split; unfold kg_zero.
    - intros rg r. cbn. unfold kg_with_reads. now destruct (Nat.eqb _ _).
    - intros rg r. cbn. unfold kg_with_reads. now destruct (Nat.eqb _ _).
    - intros a b r. unfold kg_with_reads. destruct (Nat.eqb (kr_no r) 0) eqn:E; cbn [kr_no]; rewrite E; reflexivity.
    - intros a r E. unfold kg_with_reads. now rewrite E.
    - intros a r. unfold kg_with_reads. destruct (Nat.eqb (kr_no r) 0) eqn:E; cbn [kr_no]; now rewrite E.
    - intros r. exists (kr_rng r). unfold kg_with_reads. destruct (Nat.eqb _ _); [now destruct r|reflexivity].
    - intros rg r. cbn. unfold kg_Reset, kg_with_reads. destruct (Nat.eqb (kr_no r) 0) eqn:E; cbn [kr_no kr_Polynomial kr_CommitmentsSum];
        destruct (kr_Polynomial r), (kr_CommitmentsSum r); cbn [obind kr_no]; rewrite ?E; reflexivity.
    - intros r m E. cbn. apply Nat.eqb_eq in E. now rewrite E.
    - intros o r E. cbn. apply Nat.eqb_eq in E. rewrite E. unfold kg0_generate. cbv zeta.
      repeat (match goal with |- context [lift_r ?x] => destruct x; cbn [lift_r]; [|exact Logic.I|exact Logic.I] end). cbn [kr_no]. rewrite E. discriminate.
    - intros r r'. cbn. destruct (kr_no r) as [|[|n]]; intros [= <-]; reflexivity.
    - intros r r' E. cbn in E. unfold kg_Reset in E. destruct (kr_Polynomial r), (kr_CommitmentsSum r); try discriminate. apply Ret_inj in E. subst r'. auto.
    - intros rcv ks r r1 E. f_equal. now apply kg_loop_no in E.
    - intros src r r' E. unfold kg_failing in E. destruct (kr_no r) eqn:En; [|discriminate]. destruct (negb _); [injection E as <-; rewrite En; auto|].
      destruct (NewPolynomial _ _ _ _); try discriminate. destruct (negb _); [injection E as <-; cbn; auto|]. destruct (negb _); [|discriminate]. injection E as <-. cbn. auto.
  Qed.

  (** Equal but for the values round 0 has yet to read. *)
  Notation sg_alike := (alike sg_with_reads).
  Notation kg_alike := (alike kg_with_reads).

  Lemma sign_new_reads rg rg' now t ids secret shares message s0 : NewSignState rg now t ids secret shares message = Ret s0 ->
    NewSignState rg' now t ids secret shares message = Ret (W sg_with_reads rg' s0).
  Proof.
    unfold NewSignState, sg_NewRound. do 2 (destruct (negb _); [discriminate|]).
    destruct (sg_setup shares ids); cbn [obind]; try discriminate. destruct (Lagrange _ _); cbn [obind]; try discriminate. intros E. apply Ret_inj in E. subst s0. reflexivity.
  Qed.
  Lemma keygen_new_reads rg rg' now t self ids thr s0 : NewKeygenState rg now t self ids thr = Ret s0 ->
    NewKeygenState rg' now t self ids thr = Ret (W kg_with_reads rg' s0).
  Proof.
    unfold NewKeygenState, kg_NewRound. destruct (_ =? _); [discriminate|]. destruct (_ <? _); [discriminate|]. destruct (NewBaseRound self ids); cbn [obind]; try discriminate.
    intros E. apply Ret_inj in E. subst s0. reflexivity.
  Qed.

  (** As long as no read fails, a party behaves as one with some stream of random values; so every theorem about such parties holds for it. *)
  Theorem C70_sign_refines : forall rg now t ids secret shares message s0 es s out, NewSignState rg now t ids secret shares message = Ret s0 ->
    sign_frun s0 es = Ret (s, out, false) ->
    exists rg' s0' s', NewSignState rg' now t ids secret shares message = Ret s0' /\ run sign_round s0' (map plain es) = Ret (s', out) /\ sg_alike s' s.
  Proof.
    intros rg now t ids secret shares message s0 es s out NEW E. destruct (frun_refines _ _ _ _ sign_reads_ok s0 es s out E) as (rg' & s' & E' & HA).
    exists rg', (W sg_with_reads rg' s0), s'. split; [eapply sign_new_reads; exact NEW|auto].
  Qed.
  Theorem C70_keygen_refines : forall rg now t self ids thr s0 es s out, NewKeygenState rg now t self ids thr = Ret s0 ->
    keygen_frun s0 es = Ret (s, out, false) ->
    exists rg' s0' s', NewKeygenState rg' now t self ids thr = Ret s0' /\ run keygen_round s0' (map plain es) = Ret (s', out) /\ kg_alike s' s.
  Proof.
    intros rg now t self ids thr s0 es s out NEW E. destruct (frun_refines _ _ _ _ keygen_reads_ok s0 es s out E) as (rg' & s' & E' & HA).
    exists rg', (W kg_with_reads rg' s0), s'. split; [eapply keygen_new_reads; exact NEW|auto].
  Qed.

  Lemma many_ids (ids : list Z) : 2 <= Z.of_nat (List.length ids) <= 65536 -> u16 (N_ids ids - 1) <> 0.
  Proof.
    intros H. unfold N_ids, u16. rewrite Zminus_mod_idemp_l. rewrite Z.mod_small; lia.
  Qed.
  Lemma sg_failing_fields src r r' : sg_failing src r = Some r' -> sr_out r' = sr_out r /\ sr_SecretKeyShare r' = sr_SecretKeyShare r /\ sr_e r' = sr_e r.
  Proof.
    intros E. unfold sg_failing in E. destruct (sr_no r); [|discriminate]. destruct (sr_Parties r !! sr_self r); [|discriminate].
    destruct (negb _); [injection E as <-; auto|]. destruct (negb _); [|discriminate]. injection E as <-. cbn. auto.
  Qed.
  Lemma sg_wr_fields rg r : sr_out (sg_with_reads rg r) = sr_out r /\ sr_SecretKeyShare (sg_with_reads rg r) = sr_SecretKeyShare r /\ sr_e (sg_with_reads rg r) = sr_e r /\ sr_d (sg_with_reads rg r) = sr_d r.
  Proof. unfold sg_with_reads. destruct (Nat.eqb _ _); auto. Qed.

  (** A signer whose source failed once never sends anything and has no signature, whatever happens afterwards; no call of it crashes; and it ends,
      if it has a timeout, with that error and its secrets erased. *)
  Theorem C70_sign_silent : forall rg now t ids secret shares message s0 es s out, NewSignState rg now t ids secret shares message = Ret s0 ->
    2 <= Z.of_nat (List.length ids) <= 65536 -> Forall typed es -> sign_frun s0 es = Ret (s, out, true) ->
    out = [] /\ st_roundNumber s = 0 /\ sg_output s = None /\
    (if st_done s then st_err s = Some (mkPError 0 0 "message timeout") /\ sr_SecretKeyShare (st_round s) = f0 /\ sr_d (st_round s) = f0 /\ sr_e (st_round s) = f0 else st_err s = None) /\
    forall es', Forall typed es' -> exists s', sign_frun s es' = Ret (s', [], false).
  Proof.
    intros rg now t ids secret shares message s0 es s out NEW HN HT E. destruct (NewSignState_round _ _ _ _ _ _ _ _ NEW) as (r0 & E0 & ->).
    pose proof (NewRound_fields _ _ _ _ _ _ E0) as NF.
    destruct NF as (_ & _ & Eo & _ & _ & _ & Ei).
    destruct (failure_shape _ _ _ _ sign_reads_ok (NewBaseState sign_round now t r0) [MTSign1; MTSign2] es s out eq_refl eq_refl) as (-> & HS & EN & rg1 & src & r' & EF & HC); auto.
    { cbn [NewBaseState st_round sign_round r_ids]. rewrite Ei. now apply many_ids. }
    apply sg_failing_fields in EF as (F1 & F2 & F3). cbn [NewBaseState st_round] in F1, F2, F3. destruct (sg_wr_fields rg1 r0) as (W1 & W2 & W3 & W4). rewrite W1, Eo in F1.
    split; auto. split; [exact EN|]. unfold sg_output.
    assert (forall es', Forall typed es' -> exists s', sign_frun s es' = Ret (s', [], false)) as HG.
    { intros es' HT'. apply (stuck_ok _ _ _ _ sign_reads_ok es' s HS HT'). intros r _. cbn. unfold sg_Reset. eauto. }
    destruct HC as [(D & Er & rg' & Es)|(D & Er & rg2 & rg3 & r2 & ER & Es)]; rewrite D, Es.
    - destruct (sg_wr_fields rg' r') as (X1 & _). rewrite X1, F1. split; auto.
    - cbn in ER. unfold sg_Reset in ER. apply Ret_inj in ER. subst r2. destruct (sg_wr_fields rg2 r') as (X1 & _). destruct (sg_wr_fields rg3 (mkSround (sr_no (sg_with_reads rg2 r')) (sr_self (sg_with_reads rg2 r')) (sr_ids (sg_with_reads rg2 r')) [] ∅
        (sr_GroupKey (sg_with_reads rg2 r')) f0 f0 f0 f0 gid false (sr_out (sg_with_reads rg2 r')) (sr_rng (sg_with_reads rg2 r')))) as (Y1 & Y2 & Y3 & Y4).
      rewrite Y1, Y2, Y3, Y4. cbn [sr_out sr_SecretKeyShare sr_e sr_d]. rewrite X1, F1. auto 10.
  Qed.

  Lemma kg_wr_fields rg r : kr_out (kg_with_reads rg r) = kr_out r /\ kr_Polynomial (kg_with_reads rg r) = kr_Polynomial r /\ kr_CommitmentsSum (kg_with_reads rg r) = kr_CommitmentsSum r /\
    kr_Threshold (kg_with_reads rg r) = kr_Threshold r /\ kr_Secret (kg_with_reads rg r) = kr_Secret r /\ kr_no (kg_with_reads rg r) = kr_no r.
  Proof. unfold kg_with_reads. destruct (Nat.eqb _ _); auto 10. Qed.
  (** Some read before the nonce of the proof failed. *)
  Definition early (thr : Z) (src : source) : Prop := exists k, (k <= Z.to_nat thr)%nat /\ src k = None.
  Lemma ok_read_spec src k : ok_read src k = true <-> src k <> None.
  Proof. unfold ok_read. destruct (src k); split; congruence. Qed.
  Lemma kg_failing_fields src r r' : kg_failing src r = Some r' -> kr_Polynomial r = None -> kr_CommitmentsSum r = None ->
    kr_out r' = kr_out r /\ ((early (kr_Threshold r) src /\ kr_CommitmentsSum r' = None) \/ (~ early (kr_Threshold r) src /\ exists p c, kr_Polynomial r' = Some p /\ kr_CommitmentsSum r' = Some c)).
  Proof.
    intros E Hp Hc. unfold kg_failing in E. destruct (kr_no r); [|discriminate]. unfold early. destruct (ok_read src 0) eqn:E0; cbn [negb] in E.
    2:{ injection E as <-. split; auto. left. split; auto. exists 0%nat. split; [lia|]. unfold ok_read in E0. destruct (src 0%nat); congruence. }
    destruct (NewPolynomial _ _ _ _) as [poly|?|?]; try discriminate. destruct (forallb (ok_read src) (seq 1 (Z.to_nat (kr_Threshold r)))) eqn:EF; cbn [negb] in E.
    - destruct (ok_read src (S (Z.to_nat (kr_Threshold r)))); [discriminate|]. injection E as <-. cbn. split; auto. right. split; [|eauto].
      intros (k & Hk & Hn). destruct k as [|k]; [apply ok_read_spec in E0; congruence|]. rewrite forallb_forall in EF. specialize (EF (S k) ltac:(apply in_seq; lia)). apply ok_read_spec in EF. congruence.
    - injection E as <-. cbn. split; auto. left. split; auto.
      assert (exists k, In k (seq 1 (Z.to_nat (kr_Threshold r))) /\ ok_read src k = false) as (k & Hk & Hf').
      { clear - EF. induction (seq 1 _) as [|k l IH]; [discriminate|]. cbn in EF. destruct (ok_read src k) eqn:Ek; [|exists k; split; [left; auto|auto]]. destruct IH as (k' & A & B); auto. exists k'. split; [right; auto|auto]. }
      apply in_seq in Hk. exists k. split; [lia|]. unfold ok_read in Hf'. destruct (src k); congruence.
  Qed.

  Lemma keygen_new_facts rg now t self ids thr s0 : NewKeygenState rg now t self ids thr = Ret s0 -> is_u16 thr ->
    st_accepted s0 = [MTNone; MTKeyGen1; MTKeyGen2] /\ st_closed s0 = 0%nat /\ u16 (N_ids (r_ids keygen_round (st_round s0)) - 1) <> 0 /\ st_err s0 = None /\ st_roundNumber s0 = 0 /\
    kr_Polynomial (st_round s0) = None /\ kr_CommitmentsSum (st_round s0) = None /\ kr_out (st_round s0) = mkKOutput None None /\ kr_Threshold (st_round s0) = thr.
  Proof.
    unfold NewKeygenState, kg_NewRound. destruct (Z.eqb_spec thr 0); [discriminate|]. destruct (Z.ltb_spec (u16 (N_ids ids - 1)) thr); [discriminate|]. unfold NewBaseRound.
    destruct (negb _); [discriminate|]. cbn [obind]. intros E [H1 _]. apply Ret_inj in E. subst s0. cbn. repeat split; auto. lia.
  Qed.

  (** A party generating a key whose source failed once never sends anything and has no output, whatever happens afterwards. *)
  Theorem C70_keygen_silent : forall rg now t self ids thr s0 es s out, NewKeygenState rg now t self ids thr = Ret s0 -> is_u16 thr ->
    Forall typed es -> keygen_frun s0 es = Ret (s, out, true) ->
    out = [] /\ st_roundNumber s = 0 /\ kg_output s = mkKOutput None None /\
    (if st_done s then st_err s = Some (mkPError 0 0 "message timeout") else st_err s = None).
  Proof.
    intros rg now t self ids thr s0 es s out NEW HU HT E. destruct (keygen_new_facts _ _ _ _ _ _ _ NEW HU) as (A1 & A2 & A3 & A4 & A5 & A6 & A7 & A8 & A9).
    destruct (failure_shape _ _ _ _ keygen_reads_ok s0 _ es s out A1 A2 A3 HT E) as (-> & HS & EN & rg1 & src & r' & EF & HC).
    destruct (kg_wr_fields rg1 (st_round s0)) as (W1 & W2 & W3 & W4 & _). apply kg_failing_fields in EF as (F1 & _); [|congruence|congruence].
    split; auto. split; [congruence|]. unfold kg_output. destruct HC as [(D & Er & rg' & Es)|(D & Er & rg2 & rg3 & r2 & ER & Es)]; rewrite D, Es.
    - destruct (kg_wr_fields rg' r') as (X1 & _). split; congruence.
    - destruct (kg_wr_fields rg3 r2) as (X1 & _). destruct (kg_wr_fields rg2 r') as (Y1 & _). rewrite A4, A5 in Er. split; auto. rewrite X1.
      cbn in ER. unfold kg_Reset in ER. destruct (kr_Polynomial (kg_with_reads rg2 r')), (kr_CommitmentsSum (kg_with_reads rg2 r')); try discriminate. apply Ret_inj in ER. subst r2. cbn [kr_out]. congruence.
  Qed.

  (** If a read before that of the proof's nonce failed, there is no polynomial to reset: the party cannot end by a timeout, and the callback of
      its timer crashes the process.  If only the read of the nonce failed, nothing crashes, and a timeout erases the secrets. *)
  Theorem C70_keygen_timeout : forall rg now t self ids thr s0 es1 o1 s1 o o' src s2 es2 o2 b s, NewKeygenState rg now t self ids thr = Ret s0 -> is_u16 thr ->
    Forall typed es2 -> keygen_frun s0 es1 = Ret (s1, o1, false) ->
    ProcessAll_src keygen_round kg_with_reads kg_failing o o' src s1 = Ret (s2, None) -> keygen_frun s2 es2 = Ret (s, o2, b) ->
    (early thr src -> st_done s = false /\ (tm_pending (st_timer s) <> 0%nat -> exists w, timerCallback keygen_round s = Panics w)) /\
    (~ early thr src -> (forall es', Forall typed es' -> exists s', keygen_frun s es' = Ret (s', [], false)) /\
      (st_done s = true -> kr_Secret (st_round s) = f0 /\ exists p, kr_Polynomial (st_round s) = Some p /\ Forall (fun c => c = f0) p)).
  Proof.
    intros rg now t self ids thr s0 es1 o1 s1 o o' src s2 es2 o2 b s NEW HU HT E1 E2 E3. destruct (keygen_new_facts _ _ _ _ _ _ _ NEW HU) as (A1 & A2 & A3 & A4 & A5 & A6 & A7 & A8 & A9).
    destruct (failure_at _ _ _ _ keygen_reads_ok s0 _ es1 o o' src es2 s1 s2 o1 s o2 b A1 A2 A3 HT E1 E2 E3) as (-> & -> & HS & EN & rg1 & r' & EF & HC).
    destruct (kg_wr_fields rg1 (st_round s0)) as (W1 & W2 & W3 & W4 & _). apply kg_failing_fields in EF as (F1 & F2); [|congruence|congruence]. rewrite W4, A9 in F2.
    split; intros HE.
    - destruct F2 as [(_ & F2)|(F2 & _)]; [|contradiction]. destruct HC as [(D & Er & rg' & Es)|(D & Er & rg2 & rg3 & r2 & ER & Es)].
      + split; auto. intros Ht. unfold timerCallback. destruct (tm_pending (st_timer s)); [congruence|]. unfold reportError, finish. cbn [st_done st_round]. rewrite D. cbn [st_done].
        rewrite Es. cbn [keygen_round r_reset]. unfold kg_Reset. destruct (kg_wr_fields rg' r') as (_ & _ & X3 & _). rewrite X3, F2. destruct (kr_Polynomial (kg_with_reads rg' r')); cbn [obind]; eauto.
      + exfalso. cbn in ER. unfold kg_Reset in ER. destruct (kg_wr_fields rg2 r') as (_ & _ & X3 & _). rewrite X3, F2 in ER. destruct (kr_Polynomial (kg_with_reads rg2 r')); discriminate.
    - destruct F2 as [(F2 & _)|(_ & p & c & F2 & F3)]; [contradiction|]. split.
      + intros es' HT'. destruct (st_done s) eqn:D.
        * now apply (stuck_done_ok _ _ _ _ keygen_reads_ok).
        * apply (stuck_ok _ _ _ _ keygen_reads_ok es' s HS HT'). intros r X. destruct HC as [(_ & _ & rg' & Es)|(D' & _)]; [|congruence].
          destruct (kg_wr_fields (fun _ => 0) r) as (_ & X2 & X3 & _). destruct (kg_wr_fields (fun _ => 0) (st_round s)) as (_ & Y2 & Y3 & _). destruct (kg_wr_fields rg' r') as (_ & Z2 & Z3 & _).
          cbn. unfold kg_Reset. rewrite <- X2, <- X3, X, Y2, Y3, Es, Z2, Z3, F2, F3. eauto.
      + intros D. destruct HC as [(D' & _)|(_ & Er & rg2 & rg3 & r2 & ER & Es)]; [congruence|]. rewrite Es. destruct (kg_wr_fields rg3 r2) as (_ & X2 & _ & _ & X5 & _). rewrite X2, X5.
        cbn in ER. unfold kg_Reset in ER. destruct (kg_wr_fields rg2 r') as (_ & Y2 & Y3 & _). rewrite Y2, Y3, F2, F3 in ER. apply Ret_inj in ER. subst r2. cbn [kr_Secret kr_Polynomial].
        split; auto. exists (poly_reset p). split; auto. unfold poly_reset. clear. induction p; cbn; auto.
  Qed.

  (** Which calls fail: the one that opens the protocol, if one of its first T+2 (key generation) or two (signing) reads does; no later one. *)
  Lemma kg_failing_iff src r : kr_no r = 0%nat -> u16 (kr_Threshold r + 1) <> 0 ->
    (kg_failing src r <> None <-> exists k, (k <= S (Z.to_nat (kr_Threshold r)))%nat /\ src k = None).
  Proof.
    intros E0 Hu. unfold kg_failing. rewrite E0. unfold NewPolynomial. apply Z.eqb_neq in Hu. rewrite Hu. set (t := Z.to_nat (kr_Threshold r)).
    destruct (ok_read src 0) eqn:R0; cbn [negb].
    2:{ split; [intros _|discriminate]. exists 0%nat. split; [lia|]. unfold ok_read in R0. destruct (src 0%nat); congruence. }
    destruct (forallb (ok_read src) (seq 1 t)) eqn:EF; cbn [negb].
    - destruct (ok_read src (S t)) eqn:RT; cbn [negb].
      + split; [congruence|]. intros (k & Hk & Hn). exfalso. assert (ok_read src k = true) as X; [|unfold ok_read in X; now rewrite Hn in X].
        destruct (Nat.eq_dec k 0%nat) as [->|]; auto. destruct (Nat.eq_dec k (S t)) as [->|]; auto. rewrite forallb_forall in EF. apply EF. apply in_seq. lia.
      + split; [intros _|discriminate]. exists (S t). split; [lia|]. unfold ok_read in RT. destruct (src (S t)); congruence.
    - split; [intros _|discriminate].
      assert (exists k, In k (seq 1 t) /\ ok_read src k = false) as (k & Hk & Hf').
      { clear - EF. induction (seq 1 t) as [|k l IH]; [discriminate|]. cbn in EF. destruct (ok_read src k) eqn:Ek; [|exists k; split; [left; auto|auto]]. destruct IH as (k' & A & B); auto. exists k'. split; [right; auto|auto]. }
      apply in_seq in Hk. exists k. split; [lia|]. unfold ok_read in Hf'. destruct (src k); congruence.
  Qed.
  Lemma sg_failing_iff src r : sr_no r = 0%nat -> sr_Parties r !! sr_self r <> None -> (sg_failing src r <> None <-> src 0%nat = None \/ src 1%nat = None).
  Proof.
    intros E0 HP. unfold sg_failing, ok_read. rewrite E0. destruct (sr_Parties r !! sr_self r); [|congruence]. destruct (src 0%nat), (src 1%nat); cbn [negb]; split; auto; try congruence; intros [|]; congruence.
  Qed.
  Lemma src_none {R} (I : RoundI R) wr failing o o' src s s' r : ProcessAll_src I wr failing o o' src s = Ret (s', r) -> (r = None <-> broken_round I failing o src s <> None).
  Proof.
    unfold ProcessAll_src. destruct (broken_round I failing o src s); intros E.
    - apply Ret_inj in E. inversion E; subst. split; [discriminate|auto].
    - apply obind_ret in E as (x & _ & E). apply Ret_inj in E. inversion E; subst. split; [discriminate|congruence].
  Qed.
  Theorem C70_keygen_when : forall o o' src s s' r, ProcessAll_src keygen_round kg_with_reads kg_failing o o' src s = Ret (s', r) ->
    (r = None <-> st_done s = false /\ Z.of_nat (size (st_received s)) = u16 (N_ids (kr_ids (st_round s)) - 1) /\ kr_no (st_round s) = 0%nat /\
                  exists k, (k <= S (Z.to_nat (kr_Threshold (st_round s))))%nat /\ src k = None).
  Proof.
    intros o o' src s s' r E. rewrite (src_none _ _ _ _ _ _ _ _ _ E). unfold broken_round. cbn [keygen_round r_ids]. destruct (st_done s) eqn:D; [split; [congruence|intros (X & _); discriminate]|].
    destruct (Z.eqb_spec (Z.of_nat (size (st_received s))) (u16 (N_ids (kr_ids (st_round s)) - 1))) as [HN|HN]; cbn [negb]; [|split; [congruence|intros (_ & X & _); congruence]].
    destruct (kr_no (st_round s)) eqn:E0.
    - rewrite (loop_zero _ _ _ _ keygen_reads_ok) by (unfold kg_zero; now rewrite E0). destruct (Z.eq_dec (u16 (kr_Threshold (st_round s) + 1)) 0) as [Hu|Hu].
      + (* the call cannot return: NewPolynomial panics *)
        assert (kg_failing src (st_round s) = None \/ kg_failing src (st_round s) = Some (st_round s) /\ ok_read src 0 = false) as HX.
        { unfold kg_failing. rewrite E0. destruct (ok_read src 0); cbn [negb]; auto. unfold NewPolynomial. apply Z.eqb_eq in Hu. rewrite Hu. auto. }
        destruct HX as [HX|[HX R0]]; rewrite HX.
        * exfalso. unfold ProcessAll_src, broken_round in E. cbn [keygen_round r_ids] in E. apply Z.eqb_eq in HN. rewrite D, HN in E. cbn [negb] in E. rewrite (loop_zero _ _ _ _ keygen_reads_ok) in E by (unfold kg_zero; now rewrite E0).
          rewrite HX in E. unfold ProcessAll in E. cbn [set_round st_done st_received st_round keygen_round r_ids r_generate] in E. rewrite D in E. unfold kg_with_reads in E. rewrite E0 in E. cbn [Nat.eqb kr_ids] in E. rewrite HN in E. cbn [negb] in E.
          rewrite (loop_zero _ _ _ _ keygen_reads_ok) in E by reflexivity. cbn [kr_no] in E. unfold kg0_generate in E. cbn [kr_Threshold kr_rng] in E. unfold NewPolynomial in E. apply Z.eqb_eq in Hu. rewrite Hu in E. discriminate.
        * split; [intros _|discriminate]. repeat split; auto. exists 0%nat. split; [lia|]. unfold ok_read in R0. destruct (src 0%nat); congruence.
      + rewrite (kg_failing_iff src _ E0 Hu). tauto.
    - split; [|intros (_ & _ & X & _); discriminate]. destruct (process_loop _ _ _ _) as [r1 []|?|?] eqn:EL; try congruence. apply kg_loop_no in EL. unfold kg_failing. rewrite EL, E0. congruence.
  Qed.
  Theorem C70_sign_when : forall o o' src s s' r, ProcessAll_src sign_round sg_with_reads sg_failing o o' src s = Ret (s', r) ->
    (r = None <-> st_done s = false /\ Z.of_nat (size (st_received s)) = u16 (N_ids (sr_ids (st_round s)) - 1) /\ sr_no (st_round s) = 0%nat /\ (src 0%nat = None \/ src 1%nat = None)).
  Proof.
    intros o o' src s s' r E. rewrite (src_none _ _ _ _ _ _ _ _ _ E). unfold broken_round. cbn [sign_round r_ids]. destruct (st_done s) eqn:D; [split; [congruence|intros (X & _); discriminate]|].
    destruct (Z.eqb_spec (Z.of_nat (size (st_received s))) (u16 (N_ids (sr_ids (st_round s)) - 1))) as [HN|HN]; cbn [negb]; [|split; [congruence|intros (_ & X & _); congruence]].
    destruct (sr_no (st_round s)) eqn:E0.
    - rewrite (loop_zero _ _ _ _ sign_reads_ok) by (unfold sg_zero; now rewrite E0). destruct (sr_Parties (st_round s) !! sr_self (st_round s)) eqn:EP.
      + rewrite (sg_failing_iff src _ E0) by congruence. tauto.
      + exfalso. assert (sg_failing src (st_round s) = None) as HX by (unfold sg_failing; rewrite EP; now destruct (sr_no _)).
        unfold ProcessAll_src, broken_round in E. cbn [sign_round r_ids] in E. apply Z.eqb_eq in HN. rewrite D, HN in E. cbn [negb] in E. rewrite (loop_zero _ _ _ _ sign_reads_ok) in E by (unfold sg_zero; now rewrite E0).
        rewrite HX in E. unfold ProcessAll in E. cbn [set_round st_done st_received st_round sign_round r_ids r_generate] in E. rewrite D in E. unfold sg_with_reads in E. rewrite E0 in E. cbn [Nat.eqb sr_ids] in E. rewrite HN in E. cbn [negb] in E.
        rewrite (loop_zero _ _ _ _ sign_reads_ok) in E by reflexivity. cbn [sr_no] in E. unfold sg0_generate in E. cbn [sr_Parties sr_self] in E. rewrite EP in E. discriminate.
    - split; [|intros (_ & _ & X & _); discriminate]. destruct (process_loop _ _ _ _) as [r1 []|?|?] eqn:EL; try congruence. apply sg_loop_no in EL. unfold sg_failing. rewrite EL, E0. congruence.
  Qed.

  (** What the call that fails leaves in the round is what a call with a working source that returns the same values for the reads before
      would have assigned by then: the first nonce; or the secret, or the secret, the polynomial and its commitment. *)
  Definition agrees (rg : rng) (src : source) : Prop := forall k z, src k = Some z -> rg k = z.
  Lemma agrees_draw rg src k : agrees rg src -> src k <> None -> SetScalarRandom (reads src) k = SetScalarRandom rg k.
  Proof. intros H Hk. unfold SetScalarRandom, reads. destruct (src k) as [z|] eqn:E; [|congruence]. cbn [default]. now rewrite (H k z E). Qed.
  Theorem C70_sign_left : forall src r r', sg_failing src r = Some r' -> forall rg o r2 ms, agrees rg src -> r_generate sign_round o (sg_with_reads rg r) = ROk r2 ms ->
    src 0%nat = None /\ r' = r \/
    src 0%nat <> None /\ src 1%nat = None /\ sr_d r' = sr_d r2 /\ sr_e r' = sr_e r /\
      option_map sg_Di (sr_Parties r' !! sr_self r) = option_map sg_Di (sr_Parties r2 !! sr_self r) /\
      option_map sg_Ei (sr_Parties r' !! sr_self r) = option_map sg_Ei (sr_Parties r !! sr_self r) /\
      forall j, j <> sr_self r -> sr_Parties r' !! j = sr_Parties r !! j.
  Proof.
    intros src r r' HF rg o r2 ms HA HG. unfold sg_failing in HF. unfold sg_with_reads in HG. cbn [sign_round r_generate] in HG.
    destruct (sr_no r) eqn:En; [|discriminate]. cbn [Nat.eqb sr_no] in HG. destruct (sr_Parties r !! sr_self r) as [q|] eqn:Eq; [|discriminate].
    unfold sg0_generate in HG. cbn [sr_no sr_self sr_Parties sr_rng] in HG. rewrite Eq in HG. injection HG as <- _.
    destruct (ok_read src 0) eqn:E0; cbn [negb] in HF.
    - right. apply ok_read_spec in E0. destruct (ok_read src 1) eqn:E1; cbn [negb] in HF; [discriminate|]. injection HF as <-.
      assert (src 1%nat = None) as E1' by (unfold ok_read in E1; destruct (src 1%nat); [discriminate|reflexivity]).
      cbn [sr_d sr_e sr_Parties sr_self]. rewrite (agrees_draw rg src 0 HA E0). split; auto. split; auto. split; auto. split; auto.
      rewrite !lookup_insert. cbn [option_map sg_Di sg_Ei]. split; auto. split; auto. intros j Hj. now rewrite lookup_insert_ne by congruence.
    - left. injection HF as <-. split; auto. unfold ok_read in E0. destruct (src 0%nat); [discriminate|reflexivity].
  Qed.
  Theorem C70_keygen_left : forall src r r', kg_failing src r = Some r' -> forall rg o r2 ms, agrees rg src -> r_generate keygen_round o (kg_with_reads rg r) = ROk r2 ms ->
    src 0%nat = None /\ r' = r \/
    src 0%nat <> None /\ exists p, kr_Polynomial r2 = Some p /\ kr_Secret r' = spoly p f0 /\ kr_Commitments r' = kr_Commitments r /\
      ((exists k, (1 <= k <= Z.to_nat (kr_Threshold r))%nat /\ src k = None) /\ kr_Polynomial r' = kr_Polynomial r /\ kr_CommitmentsSum r' = kr_CommitmentsSum r \/
       src (S (Z.to_nat (kr_Threshold r))) = None /\ (forall k, (1 <= k <= Z.to_nat (kr_Threshold r))%nat -> src k <> None) /\
         kr_Polynomial r' = Some p /\ kr_CommitmentsSum r' = kr_CommitmentsSum r2).
  Proof.
    intros src r r' HF rg o r2 ms HA HG. unfold kg_failing in HF. unfold kg_with_reads in HG. cbn [keygen_round r_generate] in HG.
    destruct (kr_no r) eqn:En; [|discriminate]. cbn [Nat.eqb kr_no] in HG. unfold kg0_generate in HG. cbn [kr_no kr_self kr_Threshold kr_rng] in HG.
    destruct (ok_read src 0) eqn:E0; cbn [negb] in HF.
    2:{ left. injection HF as <-. split; auto. unfold ok_read in E0. destruct (src 0%nat); [discriminate|reflexivity]. }
    right. apply ok_read_spec in E0. split; auto. unfold NewPolynomial in HF, HG. destruct (_ =? 0) eqn:ET; [discriminate|]. cbn [lift_r] in HG.
    rewrite (agrees_draw rg src 0 HA E0) in HF. set (p := SetScalarRandom rg 0 :: _) in HG.
    assert (kr_Polynomial r2 = Some p /\ kr_CommitmentsSum r2 = Some (NewPolynomialExponent p)) as [EP EC].
    { destruct (exp_constant _); cbn [lift_r] in HG; try discriminate. destruct (NewSchnorrProof _ _ _ _ _); cbn [lift_r] in HG; try discriminate.
      destruct (id_scalar _); cbn [lift_r] in HG; try discriminate. destruct (poly_eval _ _); cbn [lift_r] in HG; try discriminate. injection HG as <- _. split; reflexivity. }
    exists p. split; [exact EP|].
    assert (spoly p f0 = SetScalarRandom rg 0) as ES. { rewrite <- peval_spoly. unfold p. cbn [peval]. ring. }
    destruct (forallb (ok_read src) (seq 1 (Z.to_nat (kr_Threshold r)))) eqn:EA; cbn [negb] in HF.
    - destruct (ok_read src (S (Z.to_nat (kr_Threshold r)))) eqn:E1; cbn [negb] in HF; [discriminate|]. injection HF as <-. cbn [kr_Secret kr_Commitments kr_Polynomial kr_CommitmentsSum].
      split; [now rewrite ES|]. split; auto. right. rewrite forallb_forall in EA.
      assert (forall k, (1 <= k <= Z.to_nat (kr_Threshold r))%nat -> src k <> None) as HK. { intros k Hk. apply ok_read_spec, EA, in_seq. lia. }
      assert (SetScalarRandom rg 0 :: map (fun i => SetScalarRandom (reads src) (1 + i)) (seq 0 (Z.to_nat (kr_Threshold r))) = p) as EM.
      { unfold p. f_equal. apply map_ext_in. intros k Hk. apply in_seq in Hk. apply agrees_draw; auto. apply HK. lia. }
      split; [unfold ok_read in E1; destruct (src (S (Z.to_nat (kr_Threshold r)))); [discriminate E1|reflexivity]|]. split; auto. split; [exact (f_equal Some EM)|]. rewrite EC. exact (f_equal (fun x => Some (NewPolynomialExponent x)) EM).
    - injection HF as <-. cbn [kr_Secret kr_Commitments kr_Polynomial kr_CommitmentsSum]. split; [now rewrite ES|]. split; auto. left. split; auto.
      apply not_true_iff_false in EA. rewrite forallb_forall in EA.
      destruct (existsb (fun k => negb (ok_read src k)) (seq 1 (Z.to_nat (kr_Threshold r)))) eqn:EX.
      + apply existsb_exists in EX as (k & Hk & Ek). apply in_seq in Hk. exists k. split; [lia|]. unfold ok_read in Ek. destruct (src k); [discriminate|reflexivity].
      + exfalso. apply EA. intros k Hk. destruct (ok_read src k) eqn:Eo; auto. exfalso. apply not_true_iff_false in EX. apply EX. apply existsb_exists. exists k. rewrite Eo. auto.
  Qed.
End Protocols.

(** Runs in the toy group: the first read, the second (signing), the first coefficient, the nonce of the proof fails; then everything arrives,
    the callers try again, and the timer fires. *)
Definition without (k : nat) : source := fun j => if Nat.eqb j k then None else Some (Z.of_nat j + 7).
Definition fine : source := fun j => Some (Z.of_nat j + 7).
Definition fprc (src : source) : @fevent toy_group := @FProcess toy_group [] [] src.
Definition others (l : list (@event toy_group)) : list (@fevent toy_group) := map (@FOther toy_group) l.
Definition tkf (s : outcome tkstate) es := obind s (fun s => @keygen_frun toy_group toy_hash s es).
Definition tsf (s : outcome tsstate) es := obind s (fun s => @sign_frun toy_group toy_hash s es).
Definition kview (r : outcome (tkstate * list tmsg * bool)) : option (bool * Z * nat * bool * bool * option (Z * string)) :=
  match r with Ret (s, l, b) => Some (st_done s, st_roundNumber s, List.length l, b, match ko_SecretKey (kg_output s) with Some _ => true | _ => false end, option_map (fun e => (pe_PartyID e, pe_text e)) (st_err s)) | _ => None end.
Definition sview (r : outcome (tsstate * list tmsg * bool)) : option (bool * Z * nat * bool * bool * option (Z * string)) :=
  match r with Ret (s, l, b) => Some (st_done s, st_roundNumber s, List.length l, b, match sg_output s with Some _ => true | _ => false end, option_map (fun e => (pe_PartyID e, pe_text e)) (st_err s)) | _ => None end.
Example C70_sign_example :
  sview (tsf (ts_new s13 1 50) [fprc (without 0); fprc fine]) = Some (false, 0, 0%nat, true, false, None) /\
  sview (tsf (ts_new s13 1 50) (fprc (without 1) :: others (hnd (concat (map sg1_of s13))) ++ fprc fine :: others [EExpire 60; ECallback] ++ [fprc fine])) =
    Some (true, 0, 0%nat, true, false, Some (0, "message timeout"%string)) /\
  sview (tsf (ts_new s13 1 50) (fprc fine :: others (hnd (concat (map sg1_of s13))) ++ [fprc (without 0)])) = Some (false, 2, 2%nat, false, false, None).
Proof. vm_compute. auto. Qed.
Example C70_keygen_example :
  kview (tkf (tk_new k3 1 1 50) [fprc (without 1); fprc fine]) = Some (false, 0, 0%nat, true, false, None) /\
  kview (tkf (tk_new k3 1 1 50) (fprc (without 2) :: others (hnd (concat (map kg1_of k3))) ++ fprc fine :: others [EExpire 60; ECallback] ++ [fprc fine])) =
    Some (true, 0, 0%nat, true, false, Some (0, "message timeout"%string)) /\
  kview (tkf (tk_new k3 1 1 50) (fprc (without 3) :: others (hnd (concat (map kg1_of k3))) ++ [fprc (without 0)])) = Some (false, 2, 3%nat, false, false, None).
Proof. vm_compute. auto. Qed.
(** "A party whose source fails can always be stopped by its timeout without crashing" is false for key generation. *)
Theorem C70_crash_refuted : ~ forall es, Forall (@typed toy_group) es -> match tkf (tk_new k3 1 1 50) es with Panics _ => False | _ => True end.
Proof.
  intros H. specialize (H [fprc (without 1); FOther (EExpire 60); FOther ECallback]).
  assert (match tkf (tk_new k3 1 1 50) [fprc (without 1); FOther (EExpire 60); FOther ECallback] with Panics _ => true | _ => false end = true) as X by (vm_compute; reflexivity).
  destruct (tkf _ _); try discriminate. apply H. repeat constructor.
Qed.
Print Assumptions C70_sign_refines. Print Assumptions C70_keygen_refines. Print Assumptions C70_sign_silent. Print Assumptions C70_keygen_silent.
Print Assumptions C70_keygen_timeout. Print Assumptions C70_sign_when. Print Assumptions C70_keygen_when. Print Assumptions C70_crash_refuted.
Print Assumptions C70_sign_left. Print Assumptions C70_keygen_left.
