(** C17, the other half: without a positive timeout there is no timer at all. *)
From Coq Require Import ZArith Lia List Bool String.
From stdpp Require Import base gmap list fin_maps.
From Verif Require Import ZField Primes Bytes Scalar Go Group ToyGroup Party Poly Zk Eddsa Messages State StateFacts Spec_State Lift Progress Keygen Sign
  RoundFacts KeygenRun Properties_Keygen Properties_HonestKeygen Properties_Sign Properties_HonestSign ToyRuns.
Import ListNotations.
Local Open Scope Z_scope.

Section NoTimer.
  Context `{Gr : group_ops} {R : Type} (I : RoundI R).

  (** A history without its clock: the timer's own events left out, the times of the calls forgotten. *)
  Definition no_clock (es : list event) : list event :=
    flat_map (fun e => match e with EHandle _ m => [EHandle 0 m] | EProcess o o' => [EProcess o o'] | _ => [] end) es.

  Record off (s : State R) : Prop := { off_d : tm_d (st_timer s) <= 0; off_dl : tm_deadline (st_timer s) = None; off_p : tm_pending (st_timer s) = 0%nat }.

  Lemma ack_off now s : off s -> ackMessage now (st_timer s) = st_timer s.
  Proof. intros H. unfold ackMessage. destruct (Z.ltb_spec 0 (tm_d (st_timer s))); auto. destruct H. lia. Qed.
  Lemma handle_off now s m : off s -> HandleMessage I now s m = HandleMessage I 0 s m /\ off (fst (HandleMessage I now s m)).
  Proof.
    intros H. unfold HandleMessage. rewrite !(ack_off _ s H). split; [reflexivity|]. cbv zeta. destruct (st_done s); [auto|]. destruct (st_accepted s); [auto|].
    destruct H. repeat match goal with |- context [if ?c then _ else _] => destruct c; [now split|] | |- context [match ?c with Some _ => _ | None => _ end] => destruct c; [now split|] end; now split.
  Qed.
  Lemma finish_off s s' : off s -> finish I s = Ret s' -> off s'.
  Proof.
    intros H E. unfold finish in E. destruct (st_done s); [apply Ret_inj in E; now subst|]. destruct (r_reset I (st_round s)); cbn [obind] in E; try discriminate.
    destruct (st_closed s); [|discriminate]. apply Ret_inj in E. subst s'. destruct H. now split.
  Qed.
  Lemma report_off s c t s' : off s -> reportError I s c t = Ret s' -> off s'.
  Proof. intros H E. unfold reportError in E. destruct (st_done s); [apply Ret_inj in E; now subst|]. revert E. apply finish_off. destruct H. now split. Qed.
  Lemma process_off o o' s s' out : off s -> ProcessAll I o o' s = Ret (s', out) -> off s'.
  Proof.
    intros H E. unfold ProcessAll in E. destruct (st_done s); [apply Ret_inj in E; inversion E; now subst|]. destruct (negb _); [apply Ret_inj in E; inversion E; now subst|].
    destruct (process_loop I _ _ _) as [r u|r c t|w]; [| |discriminate].
    2:{ apply obind_ret in E as (s1 & E1 & E). apply Ret_inj in E. inversion E; subst. revert E1. apply report_off. destruct H. now split. }
    destruct (r_generate I o' r) as [r' ms|r' c t|w]; [| |discriminate].
    2:{ apply obind_ret in E as (s1 & E1 & E). apply Ret_inj in E. inversion E; subst. revert E1. apply report_off. destruct H. now split. }
    destruct (st_accepted s) as [|a acc]; [discriminate|]. destruct (match acc with [] => _ | _ => _ end) as [rc qu]. destruct (r_next I r').
    - apply Ret_inj in E. inversion E; subst. destruct H. now split.
    - apply obind_ret in E as (s1 & E1 & E). apply Ret_inj in E. inversion E; subst. revert E1. apply finish_off. destruct H. now split.
  Qed.
  Lemma run_off es : forall s, off s -> run I s es = run I s (no_clock es) /\ forall s' out, run I s es = Ret (s', out) -> off s'.
  Proof.
    induction es as [|e es IH]; intros s H.
    - cbn. split; auto. intros s' out E. apply Ret_inj in E. inversion E; now subst.
    - destruct e as [nw m|o o'|nw|]; cbn [no_clock flat_map app run step].
      + destruct (handle_off nw s m H) as [E1 E2]. cbn [obind fst snd]. rewrite <- E1. destruct (IH _ E2) as [E3 E4]. setoid_rewrite E3. split; [reflexivity|].
        intros s' out E. apply obind_ret in E as ([s1 o1] & E & E'). apply Ret_inj in E'. inversion E'; subst. cbn [fst] in *. eapply E4. rewrite E3; exact E.
      + destruct (ProcessAll I o o' s) as [[s1 o1]|?|?] eqn:E1; cbn [obind fst snd]; [|split; [auto|discriminate]|split; [auto|discriminate]].
        pose proof (process_off _ _ _ _ _ H E1) as H1. destruct (IH _ H1) as [E3 E4]. setoid_rewrite E3. split; [reflexivity|].
        intros s' out E. apply obind_ret in E as ([s2 o2] & E & E'). apply Ret_inj in E'. inversion E'; subst. cbn [fst] in *. eapply E4. rewrite E3; exact E.
      + unfold timerExpire. rewrite (off_dl _ H). cbn [obind fst snd]. destruct (IH _ H) as [E3 E4]. fold (no_clock es). rewrite <- E3.
        assert (forall x : outcome (State R * list Message), obind x (fun r2 => Ret (fst r2, [] ++ snd r2)) = x) as X by (intros [[? ?]|?|?]; reflexivity). rewrite X. auto.
      + unfold timerCallback. rewrite (off_p _ H). cbn [obind fst snd]. destruct (IH _ H) as [E3 E4]. fold (no_clock es). rewrite <- E3.
        assert (forall x : outcome (State R * list Message), obind x (fun r2 => Ret (fst r2, [] ++ snd r2)) = x) as X by (intros [[? ?]|?|?]; reflexivity). rewrite X. auto.
  Qed.
  Lemma new_off now t r : t <= 0 -> off (NewBaseState I now t r).
  Proof. intros H. unfold NewBaseState, newTimer. split; cbn; auto. destruct (Z.ltb_spec 0 t); auto; lia. Qed.

  (** With a timeout that is zero or negative nothing depends on the clock, and the timer never does anything: the history without its clock
      makes the same State, with the same outputs, or the same panic. *)
  Theorem C17_disabled : forall now t r es, t <= 0 ->
    run I (NewBaseState I now t r) es = run I (NewBaseState I 0 t r) (no_clock es).
  Proof.
    intros now t r es H. destruct (run_off es _ (new_off now t r H)) as [-> _]. f_equal. unfold NewBaseState, newTimer. destruct (Z.ltb_spec 0 t); auto; lia.
  Qed.
  Lemma no_clock_ok es : Forall (fun e => e <> ECallback) (no_clock es).
  Proof. unfold no_clock. induction es as [|[] es IH]; cbn [flat_map app]; auto; constructor; auto; discriminate. Qed.
End NoTimer.

Section Protocols.
  Context `{Gr : group_ops} `{Hf : hash_fn}.
  (** Then no State ever reports a timeout; with a positive one, it does as soon as it is silent for long enough (C17_aborts). *)
  Theorem C17_disabled_keygen : forall rg now t self ids thr s0 es s out e, t <= 0 ->
    NewKeygenState rg now t self ids thr = Ret s0 -> run keygen_round s0 es = Ret (s, out) -> st_err s = Some e -> pe_text e <> "message timeout"%string.
  Proof.
    intros rg now t self ids thr s0 es s out e Ht NEW E Er. destruct (NewKeygenState_round _ _ _ _ _ _ _ NEW) as (r0 & _ & ->).
    rewrite C17_disabled in E by exact Ht.
    destruct (run_err_source keygen_round keygen_round_ok _ _ _ _ e E (inv_init _ _ _ _) eq_refl Er (no_clock_ok es)) as [(r & m & r' & c & X)|(sc & r & r' & c & X)].
    - now apply kg_process_text in X.
    - now apply kg_generate_text in X.
  Qed.
  Theorem C17_disabled_sign : forall rg now t ids secret shares message s0 es s out e, t <= 0 ->
    NewSignState rg now t ids secret shares message = Ret s0 -> run sign_round s0 es = Ret (s, out) -> st_err s = Some e -> pe_text e <> "message timeout"%string.
  Proof.
    intros rg now t ids secret shares message s0 es s out e Ht NEW E Er. destruct (NewSignState_round _ _ _ _ _ _ _ _ NEW) as (r0 & _ & ->).
    rewrite C17_disabled in E by exact Ht.
    destruct (run_err_source sign_round sign_round_ok _ _ _ _ e E (inv_init _ _ _ _) eq_refl Er (no_clock_ok es)) as [(r & m & r' & c & X)|(sc & r & r' & c & X)].
    - now apply sg_process_text in X.
    - now apply sg_generate_text in X.
  Qed.
End Protocols.

(** Expiries and callbacks do nothing with timeout 0 or -5; with timeout 5 the State crashes, or aborts once it has started. *)
Definition ticks (t : Z) (es : list (@event toy_group)) : bool * option string :=
  match tk_run (tk_new k3 1 1 t) es with Ret (s, _) => (st_done s, option_map pe_text (st_err s)) | Panics _ => (true, Some "crash"%string) | Fail _ => (true, None) end.
Example C17_disabled_example :
  ticks 0 [@EExpire toy_group 5; @ECallback toy_group; prc; @EExpire toy_group 100; @ECallback toy_group] = (false, None) /\
  ticks (-5) [@EExpire toy_group 5; @ECallback toy_group; prc; @EExpire toy_group 100; @ECallback toy_group] = (false, None) /\
  ticks 5 [@EExpire toy_group 5; @ECallback toy_group] = (true, Some "crash"%string) /\
  ticks 5 [prc; @EExpire toy_group 100; @ECallback toy_group] = (true, Some "message timeout"%string) /\
  no_clock [@EExpire toy_group 5; @ECallback toy_group; prc; @EExpire toy_group 100; @ECallback toy_group] = [prc].
Proof. repeat split; vm_compute; reflexivity. Qed.

Print Assumptions C17_disabled.
Print Assumptions C17_disabled_keygen.
Print Assumptions C17_disabled_sign.
