(** C47: main of example/main.go. *)
From Coq Require Import ZArith Lia List Bool String.
From Coq.Strings Require Import Byte.
From stdpp Require Import base gmap list.
From Verif Require Import ZField Primes Bytes Scalar Go Group ToyGroup Spec_Poly Party Poly Zk Eddsa Messages State StateFacts Spec_State Keygen Sign
  Spec_Sign Spec_SignRun Spec_Keygen Spec_Group Spec_Ed25519 Ed25519 RoundFacts ToyRuns Properties_Algebra Properties_State Properties_Sign Properties_Keygen Loops LoopsFacts Properties_Loops Example.
Import ListNotations.
Local Open Scope Z_scope.

Section Main.
  Context `{Gr : group_ops} `{Hf : hash_fn}.

  (** A message loop only makes calls of the State. *)
  Lemma routine_reaches {R} (I : RoundI R) es : forall s s' out, routine I s es = Ret (s', out) -> reaches I s s' out.
  Proof.
    induction es as [|e es IH]; intros s s' out; cbn [routine].
    - intros E. apply Ret_inj in E. inversion E; subst. exists []. reflexivity.
    - intros E. apply obind_ret in E as ([s1 o1] & E1 & E). apply obind_ret in E as ([s2 o2] & E2 & E). apply Ret_inj in E. cbn [fst snd] in *. inversion E; subst. clear E.
      destruct (IH _ _ _ E2) as [es2 H2]. assert (exists es1, run I s es1 = Ret (s1, o1)) as [es1 H1].
      { destruct e as [nw sc sc' m|nw|]; cbn [routine_step] in E1.
        - destruct (HandleMessage I nw s m) as [sh [er|] ] eqn:EH.
          + apply Ret_inj in E1. inversion E1; subst. exists [EHandle nw m]. cbn [run step]. rewrite EH. reflexivity.
          + exists [EHandle nw m; EProcess sc sc']. cbn [run step]. rewrite EH. cbn [obind fst snd]. rewrite E1. cbn. now rewrite app_nil_r.
        - exists [EExpire nw]. cbn [run]. rewrite E1. cbn. now rewrite app_nil_r.
        - exists [ECallback]. cbn [run]. rewrite E1. cbn. now rewrite app_nil_r. }
      exists (es1 ++ es2). rewrite run_app, H1. cbn [obind fst snd]. rewrite H2. reflexivity.
  Qed.
  Lemma await_reaches {R} (I : RoundI R) s0 es s : await I s0 es = Some (Ret s) -> exists out, reaches I s0 s out /\ st_done s = true /\ st_err s = None.
  Proof.
    unfold await. destruct (routine I s0 es) as [[s1 o]|?|?] eqn:E; try discriminate. destruct (st_done s1) eqn:D; [|discriminate].
    destruct (st_err s1) eqn:Er; [discriminate|]. intros [= <-]. exists o. split; auto. eapply routine_reaches; eauto.
  Qed.

  (** No call returns an error value: it returns or crashes. *)
  Definition never_fails {A} (x : outcome A) : Prop := forall e, x <> Fail e.
  Lemma obind_nf {A B} (x : outcome A) (f : A -> outcome B) : never_fails x -> (forall a, never_fails (f a)) -> never_fails (obind x f).
  Proof. intros Hx Hk e. destruct x as [a|e'|w]; cbn [obind]; [apply Hk|intros _; exact (Hx e' eq_refl)|discriminate]. Qed.
  Lemma finish_nf {R} (I : RoundI R) s : (forall r, never_fails (r_reset I r)) -> never_fails (finish I s).
  Proof. intros H. unfold finish. destruct (st_done s); [discriminate|]. apply obind_nf; auto. intros r e. destruct (st_closed s); discriminate. Qed.
  Lemma routine_nf {R} (I : RoundI R) es : (forall r, never_fails (r_reset I r)) -> forall s, never_fails (routine I s es).
  Proof.
    intros HR. assert (forall s c t, never_fails (reportError I s c t)) as HE.
    { intros s c t. unfold reportError. destruct (st_done s); [discriminate|]. now apply finish_nf. }
    assert (forall s e, never_fails (routine_step I s e)) as HS.
    { intros s [nw sc sc' m|nw|]; cbn [routine_step step]; [|discriminate|].
      - destruct (HandleMessage I nw s m) as [s1 [er|] ]; [discriminate|]. unfold ProcessAll. destruct (st_done s1); [discriminate|]. destruct (negb _); [discriminate|].
        destruct (process_loop _ _ _ _) as [r1 u|r1 c t|w]; [|apply obind_nf; [apply HE|discriminate]|discriminate].
        destruct (r_generate I sc' r1) as [r2 l|r2 c t|w]; [|apply obind_nf; [apply HE|discriminate]|discriminate].
        destruct (st_accepted s1) as [|x tl]; [discriminate|]. destruct (match tl with [] => _ | _ => _ end) as [rc q]. destruct (r_next I r2); [discriminate|].
        apply obind_nf; [now apply finish_nf|discriminate].
      - apply obind_nf; [|discriminate]. unfold timerCallback. destruct (tm_pending _); [discriminate|]. apply HE. }
    induction es as [|a es IH]; intros s; cbn [routine]; [discriminate|]. apply obind_nf; [apply HS|]. intros r. apply obind_nf; [apply IH|discriminate].
  Qed.
  Lemma keygen_nf (r : kround) : never_fails (r_reset keygen_round r).
  Proof. intros e. cbn. unfold kg_Reset. destruct (kr_Polynomial r), (kr_CommitmentsSum r); discriminate. Qed.
  Lemma sign_nf (r : sround) : never_fails (r_reset sign_round r).
  Proof. intros e. cbn. unfold sg_Reset. discriminate. Qed.

  Lemma ex_set_eq : ex_set = [1; 2; 8; 42]. Proof. reflexivity. Qed.
  Lemma ex_signers_eq : ex_signers = [1; 2; 8]. Proof. reflexivity. Qed.

  (** The channels of the example are nil, so nothing ever comes in; and even if others' messages do come in, whatever they are: main never
      gets to its end, it waits for ever or crashes. *)
  Theorem C47_main_refuted : forall edv rg rg' now now' es es', Forall (from_others ex_self) es ->
    ex_main edv rg rg' now now' es es' = None \/ exists w, ex_main edv rg rg' now now' es es' = Some (Panics w).
  Proof.
    intros edv rg rg' now now' es es' HE. unfold ex_main. destruct (NewKeygenState rg now (2 * second) ex_self ex_set ex_threshold) as [s0|e|w] eqn:NEW; eauto.
    unfold await. destruct (routine keygen_round s0 es) as [[s o]|e|w] eqn:E; eauto.
    - destruct (C47_example_keygen_refuted rg now (2 * second) ex_self ex_set ex_threshold s0 es s o) as (_ & D & _); auto; [|rewrite D; auto].
      rewrite ex_set_eq. repeat constructor; lia.
    - exfalso. exact (routine_nf keygen_round es keygen_nf s0 e E).
  Qed.
  (** With nothing coming in at all, it is the timer that ends the program, by a crash, when the two seconds are over. *)
  Theorem C47_main_timeout_refuted : forall edv rg rg' now now' es' t, now + 2 * second <= t ->
    ex_main edv rg rg' now now' [] es' = None /\
    ex_main edv rg rg' now now' [LExpire t; LCallback] es' = Some (Panics "invalid memory address or nil pointer dereference").
  Proof.
    intros edv rg rg' now now' es' t Ht. unfold ex_main. destruct (NewKeygenState rg now (2 * second) ex_self ex_set ex_threshold) as [s0|e|w] eqn:NEW.
    - split.
      + unfold await. cbn [routine]. destruct (NewKeygenState_round _ _ _ _ _ _ _ NEW) as (r0 & _ & ->). reflexivity.
      + unfold await. rewrite (C47_example_crash_refuted rg now (2 * second) ex_self ex_set ex_threshold s0 t); auto. unfold second. lia.
    - exfalso. revert NEW. rewrite ex_set_eq. unfold ex_self, ex_threshold. cbn. discriminate.
    - exfalso. revert NEW. rewrite ex_set_eq. unfold ex_self, ex_threshold. cbn. discriminate.
  Qed.
  (** Exactly when: a timer looked at before 2000000000 ns have passed does nothing, from then on it crashes the program. *)
  Theorem C47_main_clock : forall edv rg rg' now now' es' t,
    ex_main edv rg rg' now now' [LExpire t; LCallback] es' =
    if now + 2000000000 <=? t then Some (Panics "invalid memory address or nil pointer dereference") else None.
  Proof.
    intros edv rg rg' now now' es' t. destruct (Z.leb_spec (now + 2000000000) t) as [Ht|Ht].
    { apply C47_main_timeout_refuted. exact Ht. }
    unfold ex_main. destruct (NewKeygenState rg now (2 * second) ex_self ex_set ex_threshold) as [s0|e|w] eqn:NEW.
    - destruct (NewKeygenState_round _ _ _ _ _ _ _ NEW) as (r0 & _ & ->). unfold await. cbn [routine routine_step step obind fst snd].
      unfold NewBaseState, timerExpire, newTimer. cbn [st_timer tm_deadline tm_d tm_pending]. change (0 <? 2 * second) with true. cbv iota.
      assert (now + 2 * second <=? t = false) as -> by (apply Z.leb_gt; exact Ht). reflexivity.
    - exfalso. revert NEW. rewrite ex_set_eq. unfold ex_self, ex_threshold. cbn. discriminate.
    - exfalso. revert NEW. rewrite ex_set_eq. unfold ex_self, ex_threshold. cbn. discriminate.
  Qed.
  (** main never returns an error: it waits, crashes or ends. *)
  Theorem C47_main_never_fails : forall edv rg rg' now now' es es' e, ex_main edv rg rg' now now' es es' <> Some (Fail e).
  Proof.
    intros edv rg rg' now now' es es' e. unfold ex_main. destruct (NewKeygenState _ _ _ _ _ _) as [s0|?|?]; try discriminate.
    unfold await at 1. destruct (routine keygen_round s0 es) as [[s o]|e'|w] eqn:E; try discriminate; [|intros _; exact (routine_nf _ es keygen_nf s0 e' E)].
    destruct (st_done s); [|discriminate]. destruct (st_err s); [discriminate|]. destruct (ko_Public _) as [pub|]; [|discriminate]. destruct (ko_SecretKey _) as [sk|]; [|discriminate].
    destruct (NewSignState _ _ _ _ _ _ _) as [s1|?|?]; try discriminate.
    unfold await. destruct (routine sign_round s1 es') as [[s2 o2]|e'|w] eqn:E2; try discriminate; [|intros _; exact (routine_nf _ es' sign_nf s1 e' E2)].
    destruct (st_done s2); [|discriminate]. destruct (st_err s2); [discriminate|]. destruct (sg_output s2); discriminate.
  Qed.
End Main.

Section MainSound.
  Context `{L : group_laws} `{Hf : hash_fn}.
  (** If main does get to its end (with a transport that also returns a party's own messages), then, whatever came in: its key is a key of
      {1, 2, 8, 42} with threshold 2, its signature verifies under the group key, and nothing is logged if crypto/ed25519 accepts what
      PublicKey.Verify accepts (C03, C31). *)
  Theorem C47_main_sound : forall edv rg rg' now now' es es' b, ex_main edv rg rg' now now' es es' = Some (Ret b) ->
    exists pub sk g sig, pub_PartyIDs pub = [1; 2; 8; 42] /\ pub_Threshold pub = 2 /\ sh_ID sk = 1 /\
      List.length g = 3%nat /\ geq (pub_GroupKey pub) (gbmul (spoly g f0)) /\
      (forall i, In i [1; 2; 8; 42] -> exists A, pub_Shares pub !! i = Some A /\ geq A (gbmul (spoly g (qof i)))) /\
      Verify (pub_GroupKey pub) ex_message sig = true /\
      b = edv (pk_ToEd25519 (pub_GroupKey pub)) ex_message (sig_ToEd25519 sig) /\
      ((forall Y m s, Verify Y m s = true -> edv (pk_ToEd25519 Y) m (sig_ToEd25519 s) = true) -> b = true).
  Proof.
    intros edv rg rg' now now' es es' b. unfold ex_main.
    destruct (NewKeygenState _ _ _ _ _ _) as [s0|?|?] eqn:NEW; try discriminate. destruct (await keygen_round s0 es) as [[ks|?|?]|] eqn:EA; try discriminate.
    apply await_reaches in EA as (out & [evs RUN] & D & Er).
    assert (valid_ids ex_set) as V. { rewrite ex_set_eq. split; [repeat constructor; cbn; intuition lia|repeat constructor; lia]. }
    assert (is_u16 ex_threshold) as HT by (unfold is_u16, ex_threshold; lia).
    destruct (C06_public rg now (2 * second) ex_self ex_set ex_threshold s0 NEW V HT evs ks out RUN D Er) as (pub & sk & g & Eo & A1 & _ & A3 & A4 & A5 & A6 & A7 & _).
    rewrite Eo. cbn [ko_Public ko_SecretKey].
    destruct (NewSignState _ _ _ _ _ _ _) as [s1|?|?] eqn:NEWS; try discriminate. destruct (await sign_round s1 es') as [[ss|?|?]|] eqn:EB; try discriminate.
    apply await_reaches in EB as (out' & RE & D' & Er'). destruct (C01_success _ _ _ _ _ _ _ _ NEWS _ _ RE D' Er') as (sig & Es & Ev). rewrite Es. intros [= <-].
    exists pub, sk, g, sig. rewrite ex_set_eq in A3, A7. repeat (split; [assumption|]). split; [reflexivity|]. auto.
  Qed.
End MainSound.

(** A run of main in the toy group that does reach its end: the transport gives party 1 its own message back, once in each protocol, and the three
    others are honest.  Without that first message main is still waiting. *)
Definition x_set : list Z := [1; 2; 8; 42].
Definition xk1 (i : Z) : list tmsg := tk_out (tk_run (tk_new x_set 2 i 0) [prc]).
Definition xk2 (i : Z) : list tmsg := skipn 1 (tk_out (tk_run (tk_new x_set 2 i 0) (prc :: hnd (concat (map xk1 x_set)) ++ [prc]))).
Definition x_out (i : Z) : @KOutput toy_group :=
  match tk_run (tk_new x_set 2 i 0) (prc :: hnd (concat (map xk1 x_set)) ++ prc :: hnd (concat (map xk2 x_set)) ++ [prc]) with
  | Ret (s, _) => kg_output s | _ => @mkKOutput toy_group None None end.
Definition xs_new (i : Z) : outcome tsstate :=
  match x_out i with
  | mkKOutput (Some p) (Some k) => @NewSignState toy_group toy_hash (toy_rng (i + 50)) 0 0 [1; 2; 8] k p ex_message
  | _ => Fail "" end.
Definition xs1 (i : Z) : list tmsg := ts_out (ts_run (xs_new i) [prc]).
Definition xs2 (i : Z) : list tmsg := skipn 1 (ts_out (ts_run (xs_new i) (prc :: hnd (concat (map xs1 [1; 2; 8])) ++ [prc]))).
Definition lmsg (m : tmsg) : @levent toy_group := @LMsg toy_group 0 [] [] m.
Definition x_es : list (@levent toy_group) := map lmsg (xk1 1 ++ concat (map xk1 [2; 8; 42]) ++ concat (map xk2 [2; 8; 42])).
Definition x_es' : list (@levent toy_group) := map lmsg (xs1 1 ++ concat (map xs1 [2; 8]) ++ concat (map xs2 [2; 8])).
Definition x_view (r : option (outcome bool)) : option (option bool) := match r with Some (Ret b) => Some (Some b) | Some _ => Some None | None => None end.
Example C47_main_example :
  x_view (@ex_main toy_group toy_hash (fun _ _ _ => true) (toy_rng 1) (toy_rng 51) 0 0 x_es x_es') = Some (Some true) /\
  x_view (@ex_main toy_group toy_hash (fun _ _ _ => true) (toy_rng 1) (toy_rng 51) 0 0 (tl x_es) x_es') = None.
Proof. vm_compute. repeat split. Qed.

Print Assumptions C47_main_refuted.
Print Assumptions C47_main_timeout_refuted.
Print Assumptions C47_main_never_fails.
Print Assumptions C47_main_sound.
