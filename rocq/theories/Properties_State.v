(** C11, C12, C13, C15, C16, C17, C37: the State, for every Round implementation and every history. *)
From Coq Require Import ZArith Lia List Bool String Permutation Sorted.
From stdpp Require Import base gmap list fin_maps.
From Verif Require Import ZField Primes Bytes Scalar Go Group Party Poly PolyFacts Zk Eddsa Messages State StateFacts Spec_State.
Import ListNotations.
Local Open Scope Z_scope.

Section StateProps.
  Context `{Gr : group_ops} {R : Type} (I : RoundI R).
  Context (ROK : round_ok I).
  Notation self s := (r_self I (st_round s)).
  Notation ids s := (r_ids I (st_round s)).

  (** * C11 *)
  Theorem C11_accepts : forall now s m, sorted (ids s) -> acceptable I s m ->
    snd (HandleMessage I now s m) = None /\
    (forall ct tl, st_accepted s = ct :: tl ->
      fst (HandleMessage I now s m) =
        mkState (st_accepted s)
          (if m_Type m =? ct then <[m_From m := Some m]> (st_received s) else st_received s)
          (if m_Type m =? ct then st_queue s else st_queue s ++ [m])
          (ackMessage now (st_timer s)) (st_roundNumber s) (st_round s) (st_closed s) (st_done s) (st_err s)).
  Proof.
    intros now s m Hs [D [HC Ho Ha] Hn Ht]. unfold HandleMessage. rewrite D, Hn.
    apply (Contains_In _ _ Hs) in HC. rewrite HC. apply (isAcceptedType_In s) in Ht. rewrite Ht.
    destruct (st_accepted s) as [|ct tl] eqn:EA.
    { unfold isAcceptedType in Ht. rewrite EA in Ht. discriminate. }
    rewrite (proj2 (Z.eqb_neq _ _) Ho).
    assert (negb (IsBroadcast (m_Header m)) && negb (m_To m =? self s) = false) as ->.
    { unfold IsBroadcast. fold (m_To m). destruct Ha as [E1 | E1]; rewrite E1; clear E1; rewrite Z.eqb_refl; cbn; [auto|apply andb_false_r]. }
    cbn [negb]. destruct (Z.eqb_spec (m_Type m) ct); cbn [fst snd]; (split; [reflexivity|]); intros ct' tl' E; inversion E; subst.
    - now rewrite Z.eqb_refl.
    - now rewrite (proj2 (Z.eqb_neq _ _) n).
  Qed.

  Theorem C11_only_acceptable : forall now s m, fst (HandleMessage I now s m) <> s -> acceptable I s m.
  Proof.
    intros now s m Hne. destruct (handle_cases I now s m) as [?|(_ & D & Hs & Ha & HC & Hr & ct & tl & EA & H)]; [contradiction|].
    split; auto. - split; auto. now apply Contains_true_In.
    - rewrite EA. destruct H as [[-> _]|(_ & H & _)]; simpl; auto.
  Qed.

  Theorem C11_rejects : forall now s m, sorted (ids s) -> ~ acceptable I s m ->
    fst (HandleMessage I now s m) = s /\
    (snd (HandleMessage I now s m) = None <-> st_done s = false /\ st_accepted s <> [] /\ not_for_us I s m).
  Proof.
    intros now s m Hs Hna. unfold not_for_us.
    assert (fst (HandleMessage I now s m) = s) as Hf.
    { destruct (handle_cases I now s m) as [?|(E & D & Hs' & Ha & HC & Hr & ct & tl & EA & H)]; auto.
      exfalso. apply Hna. split; auto. - split; auto. now apply Contains_true_In.
      - rewrite EA. destruct H as [[-> _]|(_ & H & _)]; simpl; auto. }
    split; auto. unfold HandleMessage in *.
    destruct (st_done s) eqn:D; [cbn; split; [discriminate|intros [? _]; discriminate]|].
    destruct (st_accepted s) as [|ct tl] eqn:EA; [cbn; split; [discriminate|intros (_ & X & _); congruence]|].
    destruct (Z.eqb_spec (m_From m) (self s)) as [E|E].
    { cbn. split; [|reflexivity]. intros _. split; [reflexivity|]. split; [congruence|]. left; exact E. }
    unfold IsBroadcast in *. fold (m_To m) in *.
    destruct (Z.eqb_spec (m_To m) 0) as [E0|E0]; cbn [negb andb].
    2: destruct (Z.eqb_spec (m_To m) (self s)) as [E1|E1]; cbn [negb].
    2,3: idtac.
    3:{ cbn. split; [|reflexivity]. intros _. split; [reflexivity|]. split; [congruence|]. right; auto. }
    all: match goal with |- ?a = None <-> _ => assert (a <> None) as X end;
      [|split; [intros; contradiction|intros (_ & _ & [?|[? ?]]); contradiction]].
    all: destruct (Contains (ids s) (m_From m)) eqn:HC; cbn [negb]; [|cbn; discriminate].
    all: destruct (st_received s !! m_From m) eqn:Hr; [cbn; discriminate|].
    all: destruct (isAcceptedType s (m_Type m)) eqn:HT; cbn [negb]; [|cbn; discriminate].
    all: exfalso; apply Hna; split; auto; [split; auto; now apply Contains_true_In|now apply isAcceptedType_In].
  Qed.

  (** * C37 *)
  (** The texts produced by HandleMessage say "party %d, round %d, culprit %d"; the party is right... *)
  Theorem C37_party_partial : forall now s m e, snd (HandleMessage I now s m) = Some e -> we_party e = self s.
  Proof.
    intros now s m e. unfold HandleMessage.
    assert (forall t c, we_party (wrapError I s t c) = self s) as W. { intros. unfold wrapError. destruct (c =? 0); reflexivity. }
    repeat match goal with |- context [match ?x with _ => _ end] => destruct x end; cbn [snd]; intros E; inversion E; apply W.
  Qed.
  (** ... and the sender and the round number are both given, but in each other's place: for every error
      about a sender other than 0 the "round" is the sender and the "culprit" is the round number. *)
  Theorem C37_swapped : forall now s m e, snd (HandleMessage I now s m) = Some e -> m_From m <> 0 ->
    we_round e = m_From m /\ we_culprit e = Some (st_roundNumber s).
  Proof.
    intros now s m e. unfold HandleMessage.
    assert (forall t, m_From m <> 0 -> we_round (wrapError I s t (m_From m)) = m_From m /\
             we_culprit (wrapError I s t (m_From m)) = Some (st_roundNumber s)) as W.
    { intros t H. unfold wrapError. apply Z.eqb_neq in H. rewrite H. auto. }
    repeat match goal with |- context [match ?x with _ => _ end] => destruct x end; cbn [snd]; intros E; inversion E; apply W.
  Qed.

  (** * C13 *)
  Lemma step_monotone s e s' out : step I s e = Ret (s', out) ->
    st_roundNumber s <= st_roundNumber s' /\ (st_done s = true -> st_done s' = true) /\
    (out <> [] -> st_done s = false /\ (st_done s' = true \/ st_roundNumber s' = st_roundNumber s + 1)).
  Proof.
    destruct e as [now m|o o'|now|]; cbn [step].
    - intros E. apply Ret_inj in E. inversion E; subst.
      destruct (handle_cases I now s m) as [->|(_ & D & _ & _ & _ & _ & ct & tl & _ & [[_ ->]|(_ & _ & ->)])]; cbn; repeat split; auto; try lia; congruence.
    - intros E. apply (process_cases I) in E. destruct E as [-> -> _|r c t D HS EP ER ->|r r' c t D HS EP EG ER ->|r r' ct tl rcv q D HS EP EG EA EQ EN].
      + repeat split; auto; try lia; congruence.
      + unfold reportError in ER. cbn [set_round st_done] in ER. rewrite D in ER. apply finish_ret in ER as (r1 & E1 & _ & ->); [|reflexivity].
        cbn. repeat split; auto; try lia; congruence.
      + unfold reportError in ER. cbn [st_done] in ER. rewrite D in ER. apply finish_ret in ER as (r1 & E1 & _ & ->); [|reflexivity].
        cbn. repeat split; auto; try lia; congruence.
      + destruct (r_next I r') as [nr|] eqn:ENx.
        * subst s'. cbn. split; [lia|]. split; auto.
        * apply finish_ret in EN as (r1 & E1 & _ & ->); [|exact D]. cbn. split; [lia|]. split; auto.
    - intros E. apply Ret_inj in E. inversion E; subst. unfold timerExpire. destruct (tm_deadline (st_timer s)); [destruct (_ <=? _)|]; cbn; repeat split; auto; try lia; congruence.
    - intros E. apply obind_ret in E as (s1 & E1 & E2). apply Ret_inj in E2. inversion E2; subst. unfold timerCallback in E1.
      destruct (tm_pending (st_timer s)); [apply Ret_inj in E1; subst; repeat split; auto; try lia; congruence|].
      unfold reportError in E1. cbn [st_done] in E1.
      destruct (st_done s) eqn:D; [apply Ret_inj in E1; subst; cbn; repeat split; auto; try lia; congruence|].
      apply finish_ret in E1 as (r1 & E1 & _ & ->); [|reflexivity]. cbn. repeat split; auto; try lia; congruence.
  Qed.

  Theorem C13_round_monotone : forall s es s' out, run I s es = Ret (s', out) ->
    st_roundNumber s <= st_roundNumber s' /\ (st_done s = true -> st_done s' = true).
  Proof.
    intros s es s' out. apply (run_ind I (fun s' _ => st_roundNumber s <= st_roundNumber s' /\ (st_done s = true -> st_done s' = true))).
    - split; auto; lia.
    - intros s1 o1 e s2 o [A B] E. apply step_monotone in E as (C & D & _). split; auto; lia.
  Qed.

  Lemma step_done s e s' out : st_done s = true -> step I s e = Ret (s', out) ->
    out = [] /\ st_done s' = true /\ st_err s' = st_err s /\ st_round s' = st_round s /\ st_closed s' = st_closed s /\
    st_accepted s' = st_accepted s /\ st_received s' = st_received s /\ st_queue s' = st_queue s /\ st_roundNumber s' = st_roundNumber s.
  Proof.
    intros D. destruct e as [now m|o o'|now|]; cbn [step].
    - unfold HandleMessage. rewrite D. intros E. apply Ret_inj in E. inversion E; subst. auto 10.
    - unfold ProcessAll. rewrite D. intros E. apply Ret_inj in E. inversion E; subst. auto 10.
    - intros E. apply Ret_inj in E. inversion E; subst. unfold timerExpire. destruct (tm_deadline (st_timer s)); [destruct (_ <=? _)|]; cbn; auto 10.
    - intros E. apply obind_ret in E as (s1 & E1 & E2). apply Ret_inj in E2. inversion E2; subst. unfold timerCallback in E1.
      destruct (tm_pending (st_timer s)); [apply Ret_inj in E1; subst; auto 10|].
      unfold reportError in E1. cbn [st_done] in E1. rewrite D in E1. apply Ret_inj in E1. subst. cbn. auto 10.
  Qed.
  Lemma step_done_ret s e : st_done s = true -> exists s', step I s e = Ret (s', []).
  Proof.
    intros D. destruct e as [now m|o o'|now|]; cbn [step]; eauto.
    - unfold ProcessAll. rewrite D. eauto.
    - unfold timerCallback. destruct (tm_pending _); [cbn; eauto|]. unfold reportError. cbn [st_done]. rewrite D. cbn. eauto.
  Qed.

  (** After the end every call returns without panic or message and leaves the round (with the Output), the
      error and everything but the timer as they are. *)
  Theorem C13_final : forall s es, st_done s = true ->
    exists s', run I s es = Ret (s', []) /\ st_done s' = true /\ st_err s' = st_err s /\ st_round s' = st_round s /\
      st_closed s' = st_closed s /\ st_received s' = st_received s /\ st_queue s' = st_queue s /\
      st_roundNumber s' = st_roundNumber s.
  Proof.
    intros s es. revert s. induction es as [|e es IH]; intros s D.
    - exists s. cbn. auto 10.
    - destruct (step_done_ret s e D) as [s1 E1]. pose proof (step_done s e s1 [] D E1) as (_ & D1 & A1 & A2 & A3 & A4 & A5 & A6 & A7).
      destruct (IH s1 D1) as (s2 & E2 & B0 & B1 & B2 & B3 & B4 & B5 & B6). exists s2. cbn [run]. rewrite E1. cbn [obind fst snd]. rewrite E2.
      cbn. repeat split; congruence.
  Qed.

  Lemma emissions_done s es : st_done s = true -> emissions I s es = [].
  Proof.
    revert s. induction es as [|e es IH]; intros s D; cbn; auto.
    destruct (step_done_ret s e D) as [s1 E1]. rewrite E1. pose proof (step_done s e s1 [] D E1) as (_ & D1 & _). now rewrite IH.
  Qed.
  (** At most one emission per round, in increasing rounds. *)
  Theorem C13_emits_once_per_round : forall s es, StronglySorted Z.lt (emissions I s es) /\
    Forall (fun n => st_roundNumber s <= n) (emissions I s es).
  Proof.
    intros s es. revert s. induction es as [|e es IH]; intros s; cbn [emissions]; [repeat constructor|].
    destruct (step I s e) as [[s1 out]| |] eqn:E; [|repeat constructor..].
    apply step_monotone in E as (A & B & C). destruct (IH s1) as [H1 H2].
    destruct out as [|m out]; cbn [app].
    - split; auto. eapply List.Forall_impl; [|exact H2]. cbn. intros; lia.
    - destruct (C ltac:(discriminate)) as [D [D'|D']].
      + rewrite (emissions_done s1 es D'). repeat constructor; lia.
      + split; constructor; auto; try lia; (eapply List.Forall_impl; [|exact H2]); cbn; intros; lia.
  Qed.

  (** The done channel is closed exactly once, when the State finishes; an error implies it finished. *)
  Theorem C13_closed_iff_done : forall now t r s out, reaches I (NewBaseState I now t r) s out ->
    st_closed s = (if st_done s then 1%nat else 0%nat) /\ (st_err s <> None -> st_done s = true).
  Proof.
    intros now t r s out [es E]. assert (inv I s) as HI by (eapply inv_run; [exact ROK|apply inv_init|exact E]).
    split; [apply HI|]. intros He. destruct (st_done s) eqn:D; [reflexivity|]. exfalso. apply He. apply (inv_err I s HI D).
  Qed.
  (** Hence the channel is never closed twice: finishing a running State panics only if the round's Reset does. *)
  Theorem C13_no_double_close : forall now t r s out w, reaches I (NewBaseState I now t r) s out ->
    finish I s = Panics w -> r_reset I (st_round s) = Panics w.
  Proof.
    intros now t r s out w HR. apply C13_closed_iff_done in HR as [HC _]. unfold finish. destruct (st_done s); [discriminate|]. rewrite HC.
    destruct (r_reset I (st_round s)); cbn; try congruence; auto.
  Qed.

  (** * C15 *)
  Section Fifteen.
    Context (now t : Z) (r : R).
    Context (ND : List.NoDup (r_ids I r)) (Hself : In (r_self I r) (r_ids I r)) (Hlen : Z.of_nat (List.length (r_ids I r)) < 65536).

    Notation others := (others_of (r_self I r) (r_ids I r)).

    Lemma N_minus_1 : u16 (N_ids (r_ids I r) - 1) = Z.of_nat (List.length others).
    Proof.
      pose proof (others_of_length _ _ ND Hself). unfold N_ids, u16. rewrite (Z.mod_small (Z.of_nat _)) by lia.
      rewrite Z.mod_small; lia.
    Qed.

    (** ProcessAll does something only if every other participant's message is there, and then the messages are fed
        to the round one by one, each exactly once. *)
    Theorem C15_all_in : forall s out0 sched sched' s' out,
      reaches I (NewBaseState I now t r) s out0 -> ProcessAll I sched sched' s = Ret (s', out) -> s' <> s \/ out <> [] ->
      st_done s = false /\
      (forall j, In j others <-> exists v, st_received s !! j = Some v) /\
      (forall j v, st_received s !! j = Some v -> st_roundNumber s <> 0 -> exists m tl, v = Some m /\ m_From m = j /\ st_accepted s = m_Type m :: tl) /\
      exists order, Permutation order others /\
        ((exists r', process_loop I (st_round s) (st_received s) order = ROk r' tt) \/
         (exists r' c e, process_loop I (st_round s) (st_received s) order = RErr r' c e /\ st_done s' = true /\ out = [])).
    Proof.
      intros s out0 sched sched' s' out [es E] EP Hne.
      assert (inv I s) as HI by (eapply inv_run; [exact ROK|apply inv_init|exact E]).
      apply (run_ids I ROK) in E as [Eself Eids]. cbn [NewBaseState st_round] in Eself, Eids.
      assert (st_done s = false /\ Z.of_nat (size (st_received s)) = u16 (N_ids (ids s) - 1) /\
        ((exists r', process_loop I (st_round s) (st_received s) (map_keys sched (st_received s)) = ROk r' tt) \/
         (exists r' c e, process_loop I (st_round s) (st_received s) (map_keys sched (st_received s)) = RErr r' c e /\ st_done s' = true /\ out = []))) as (D & HS & X).
      { apply (process_cases I) in EP. destruct EP as [-> -> _|r1 c e D HS EP ER ->|r1 r' c e D HS EP EG ER ->|r1 r' ct tl rcv q D HS EP EG EA EQ EN].
        - destruct Hne; congruence.
        - split; auto. split; auto. right. exists r1, c, e. split; auto. split; auto.
          unfold reportError in ER. cbn [set_round st_done] in ER. rewrite D in ER. apply finish_ret in ER as (r2 & E1 & _ & ->); reflexivity.
        - split; auto. split; auto. left; eauto.
        - split; auto. split; auto. left; eauto. }
      rewrite Eids, N_minus_1 in HS.
      assert (forall sch, Permutation (map_keys sch (st_received s)) others) as HP.
      { apply map_full; [now apply others_of_NoDup| |lia]. intros k v Hk. destruct (inv_received I s HI k v Hk) as (A & B & _).
        apply others_of_In. rewrite Eids in A. rewrite Eself in B. auto. }
      split; auto. split; [|split].
      - intros j. rewrite <- (map_keys_In sched). split; apply Permutation_in; [symmetry|]; apply HP.
      - intros j v Hj Hn. destruct (inv_received I s HI j v Hj) as (_ & _ & Hv). destruct v as [m|]; [|contradiction].
        destruct Hv as (A & B & C). destruct (C D) as [tl EA]. exists m, tl. auto.
      - exists (map_keys sched (st_received s)). split; auto.
    Qed.

    (** If somebody's message is missing ProcessAll does nothing. *)
    Theorem C15_missing : forall s out0 sched sched' j,
      reaches I (NewBaseState I now t r) s out0 -> In j others -> st_received s !! j = None ->
      ProcessAll I sched sched' s = Ret (s, []).
    Proof.
      intros s out0 sched sched' j [es E] Hj Hn.
      assert (inv I s) as HI by (eapply inv_run; [exact ROK|apply inv_init|exact E]).
      apply (run_ids I ROK) in E as [Eself Eids]. cbn [NewBaseState st_round] in Eself, Eids.
      unfold ProcessAll. destruct (st_done s); auto.
      destruct (Z.eqb_spec (Z.of_nat (size (st_received s))) (u16 (N_ids (ids s) - 1))) as [HS|HS]; auto. exfalso.
      rewrite Eids, N_minus_1 in HS.
      assert (Permutation (map_keys [] (st_received s)) others) as HP.
      { apply map_full; [now apply others_of_NoDup| |lia]. intros k v Hk. destruct (inv_received I s HI k v Hk) as (A & B & _).
        apply others_of_In. rewrite Eids in A. rewrite Eself in B. auto. }
      apply (Permutation_in _ (Permutation_sym HP)), map_keys_In in Hj as [v Hv]. congruence.
    Qed.

    (** If everybody's message is there the State makes progress: it finishes, or reaches the next round, or the
        round's code panics. *)
    Theorem C15_progress : forall s out0 sched sched',
      reaches I (NewBaseState I now t r) s out0 -> st_done s = false -> (forall j, In j others -> st_received s !! j <> None) ->
      match ProcessAll I sched sched' s with
      | Ret (s', _) => st_done s' = true \/ st_roundNumber s' = st_roundNumber s + 1
      | _ => True
      end.
    Proof.
      intros s out0 sched sched' [es E] D Hall.
      assert (inv I s) as HI by (eapply inv_run; [exact ROK|apply inv_init|exact E]).
      apply (run_ids I ROK) in E as [Eself Eids]. cbn [NewBaseState st_round] in Eself, Eids.
      destruct (ProcessAll I sched sched' s) as [[s' out]| |] eqn:EP; auto.
      assert (Z.of_nat (size (st_received s)) = u16 (N_ids (ids s) - 1)) as HS.
      { rewrite Eids, N_minus_1. f_equal. rewrite <- (map_keys_length []). apply Permutation_length. apply Permutation.NoDup_Permutation.
        - apply map_keys_NoDup. - now apply others_of_NoDup.
        - intros k. rewrite map_keys_In. split.
          + intros [v Hk]. destruct (inv_received I s HI k v Hk) as (A & B & _). apply others_of_In. rewrite Eids in A. rewrite Eself in B. auto.
          + intros Hk. specialize (Hall k Hk). destruct (st_received s !! k); eauto; congruence. }
      apply (process_cases I) in EP. destruct EP as [_ _ [?|?]|r1 c e _ _ EP ER _|r1 r' c e _ _ EP EG ER _|r1 r' ct tl rcv q _ _ EP EG EA EQ EN]; try congruence.
      - left. unfold reportError in ER. cbn [set_round st_done] in ER. rewrite D in ER. apply finish_ret in ER as (r2 & E1 & _ & ->); reflexivity.
      - left. unfold reportError in ER. cbn [st_done] in ER. rewrite D in ER. apply finish_ret in ER as (r2 & E1 & _ & ->); reflexivity.
      - destruct (r_next I r'); [subst s'; right; reflexivity|left]. apply finish_ret in EN as (r2 & E1 & _ & ->); [reflexivity|exact D].
    Qed.
  End Fifteen.

  (** * C16 *)
  (** A stored message stays until its round ends, and further messages of its sender are refused meanwhile. *)
  Theorem C16_current_partial : forall s j m es s' out, st_received s !! j = Some (Some m) -> st_done s = false ->
    run I s es = Ret (s', out) -> st_roundNumber s' = st_roundNumber s -> st_done s' = false ->
    st_received s' !! j = Some (Some m) /\ st_accepted s' = st_accepted s /\
    forall now m', m_From m' = j -> fst (HandleMessage I now s' m') = s'.
  Proof.
    intros s j m es s' out Hj D E En Ed.
    assert (st_received s' !! j = Some (Some m) /\ st_accepted s' = st_accepted s) as [H1 H2].
    { revert s' out E En Ed. induction es as [|e es IH] using rev_ind; intros s' out E En Ed.
      - cbn in E. apply Ret_inj in E. inversion E; subst. auto.
      - apply run_snoc in E as (s1 & o1 & o2 & E1 & E2 & ->).
        pose proof (C13_round_monotone _ _ _ _ E1) as [M1 _]. pose proof (step_monotone _ _ _ _ E2) as (M2 & M3 & _).
        assert (st_done s1 = false) as D1. { destruct (st_done s1); auto. rewrite M3 in Ed; auto. }
        destruct (IH s1 o1 E1 ltac:(lia) D1) as [A B]. destruct e as [now0 m0|o o'|now0|]; cbn [step] in E2.
        + apply Ret_inj in E2. inversion E2; subst.
          destruct (handle_cases I now0 s1 m0) as [->|(_ & _ & _ & _ & _ & Hr & ct & tl & _ & [[_ ->]|(_ & _ & ->)])]; auto.
          cbn. split; auto. rewrite lookup_insert_ne; auto. intros X. rewrite X in Hr. congruence.
        + apply (process_cases I) in E2. destruct E2 as [-> _ _|r1 c e _ HS EP ER _|r1 r' c e _ HS EP EG ER _|r1 r' ct tl rcv q _ HS EP EG EA EQ EN]; auto; exfalso.
          * unfold reportError in ER. cbn [set_round st_done] in ER. rewrite D1 in ER. apply finish_ret in ER as (r2 & _ & _ & ->); [discriminate|reflexivity].
          * unfold reportError in ER. cbn [st_done] in ER. rewrite D1 in ER. apply finish_ret in ER as (r2 & _ & _ & ->); [discriminate|reflexivity].
          * destruct (r_next I r'); [subst s'; cbn in *; lia|]. apply finish_ret in EN as (r2 & _ & _ & ->); [discriminate|exact D1].
        + apply Ret_inj in E2. inversion E2; subst. unfold timerExpire. destruct (tm_deadline _); [destruct (_ <=? _)|]; auto.
        + apply obind_ret in E2 as (s2 & E2 & E3). apply Ret_inj in E3. inversion E3; subst. unfold timerCallback in E2.
          destruct (tm_pending _); [apply Ret_inj in E2; subst; auto|]. unfold reportError in E2. cbn [st_done] in E2. rewrite D1 in E2.
          exfalso. apply finish_ret in E2 as (r2 & _ & _ & ->); [discriminate|reflexivity]. }
    split; auto. split; auto. intros now m' Hm'.
    destruct (handle_cases I now s' m') as [?|(_ & _ & _ & _ & _ & Hr & _)]; auto. rewrite Hm' in Hr. congruence.
  Qed.

  (** * C12 *)
  (** A message of a later round is queued if its sender's current message is not in yet. *)
  Theorem C12_queued_partial : forall now s m ct tl, sorted (ids s) -> st_done s = false -> st_accepted s = ct :: tl ->
    for_us I s m -> In (m_Type m) tl -> m_Type m <> ct -> st_received s !! m_From m = None ->
    snd (HandleMessage I now s m) = None /\ In m (st_queue (fst (HandleMessage I now s m))).
  Proof.
    intros now s m ct tl Hs D EA HF Ht Hc Hr.
    destruct (C11_accepts now s m Hs) as [A B]. { split; auto. rewrite EA. simpl. auto. }
    split; auto. rewrite (B ct tl EA). cbn. rewrite (proj2 (Z.eqb_neq _ _) Hc). apply in_app_iff. right. simpl. auto.
  Qed.
  (** ... and a queued message is kept until its round starts, when it (or a later one of the same sender and
      type) is the stored message of that round. *)
  Theorem C12_kept_partial : forall s es s' out m, In m (st_queue s) -> run I s es = Ret (s', out) -> st_done s' = false ->
    In m (st_queue s') \/
    exists es1 es2 s1 out1 m', es = es1 ++ es2 /\ run I s es1 = Ret (s1, out1) /\
      st_received s1 !! m_From m = Some (Some m') /\ m_From m' = m_From m /\ m_Type m' = m_Type m /\ hd_error (st_accepted s1) = Some (m_Type m).
  Proof.
    intros s es s' out m Hm. revert s' out. induction es as [|e es IH] using rev_ind; intros s' out E Ed.
    - cbn in E. apply Ret_inj in E. inversion E; subst. auto.
    - apply run_snoc in E as (s1 & o1 & o2 & E1 & E2 & ->).
      pose proof (step_monotone _ _ _ _ E2) as (M2 & M3 & _).
      assert (st_done s1 = false) as D1. { destruct (st_done s1); auto. rewrite M3 in Ed; auto. }
      destruct (IH s1 o1 E1 D1) as [Hq|(es1 & es2 & s2 & out1 & m' & -> & H)].
      2:{ right. exists es1, (es2 ++ [e]), s2, out1, m'. rewrite app_assoc. split; auto. }
      destruct e as [now0 m0|o o'|now0|]; cbn [step] in E2.
      + apply Ret_inj in E2. inversion E2; subst. left.
        destruct (handle_cases I now0 s1 m0) as [->|(_ & _ & _ & _ & _ & Hr & ct & tl & _ & [[_ ->]|(_ & _ & ->)])]; auto.
        cbn. apply in_app_iff. auto.
      + pose proof E2 as E2'. apply (process_cases I) in E2. destruct E2 as [-> _ _|r1 c e _ HS EP ER _|r1 r' c e _ HS EP EG ER _|r1 r' ct tl rcv q _ HS EP EG EA EQ EN]; auto.
        * exfalso. unfold reportError in ER. cbn [set_round st_done] in ER. rewrite D1 in ER. apply finish_ret in ER as (r2 & _ & _ & ->); [discriminate|reflexivity].
        * exfalso. unfold reportError in ER. cbn [st_done] in ER. rewrite D1 in ER. apply finish_ret in ER as (r2 & _ & _ & ->); [discriminate|reflexivity].
        * destruct (r_next I r').
          2:{ exfalso. apply finish_ret in EN as (r2 & _ & _ & ->); [discriminate|exact D1]. }
          subst s'. destruct tl as [|ct' tl'].
          { inversion EQ; subst. left. auto. }
          destruct (Z.eq_dec (m_Type m) ct') as [Et|Et].
          -- right. destruct (rcv !! m_From m) as [v|] eqn:Er.
             2:{ exfalso. assert (rcv = fst (take_queue ct' (st_queue s1) ∅)) as -> by (now rewrite <- EQ).
                 rewrite take_queue_lookup in Er. destruct (find _ (rev (st_queue s1))) eqn:Ef; [discriminate|].
                 apply (find_none _ _) with (x := m) in Ef; [|now apply in_rev in Hq].
                 rewrite Et, !Z.eqb_refl in Ef. discriminate. }
             assert (fst (take_queue ct' (st_queue s1) ∅) !! m_From m = Some v) as Er' by (now rewrite <- EQ).
             apply take_queue_some in Er' as (m' & -> & _ & Ht & Hf).
             eexists (es ++ [EProcess o o']), [], _, _, m'. rewrite app_nil_r. split; auto. split.
             { rewrite run_app, E1. cbn [obind fst snd run step]. rewrite E2'. cbn. reflexivity. }
             cbn. rewrite Er. repeat split; auto; congruence.
          -- left. cbn. assert (q = snd (take_queue ct' (st_queue s1) ∅)) as -> by (now rewrite <- EQ).
             apply take_queue_rest. auto.
      + apply Ret_inj in E2. inversion E2; subst. unfold timerExpire. destruct (tm_deadline _); [destruct (_ <=? _)|]; auto.
      + apply obind_ret in E2 as (s2 & E2 & E3). apply Ret_inj in E3. inversion E3; subst. unfold timerCallback in E2.
        destruct (tm_pending _); [apply Ret_inj in E2; subst; auto|]. unfold reportError in E2. cbn [st_done] in E2. rewrite D1 in E2.
        exfalso. apply finish_ret in E2 as (r2 & _ & _ & ->); [discriminate|reflexivity].
  Qed.
  (** ... but once the sender's current message is stored (or before the first ProcessAll, when an empty entry is
      stored for everybody) its message for a later round is refused. *)
  Theorem C12_early_rejected : forall now s m v, st_done s = false -> st_accepted s <> [] -> for_us I s m ->
    st_received s !! m_From m = Some v -> sorted (ids s) ->
    fst (HandleMessage I now s m) = s /\ snd (HandleMessage I now s m) <> None.
  Proof.
    intros now s m v D HA [H1 H2 H3] Hr Hs.
    destruct (C11_rejects now s m Hs) as [A B]. { intros [_ _ X _]. congruence. }
    split; auto. intros X. apply B in X as (_ & _ & [X|[X Y]]); [contradiction|]. destruct H3; contradiction.
  Qed.

  (** * C17 *)
  (** [timed d s c l]: a State created with timeout [d] is [s] at instant [c], having accepted its last message
      (accepted as in C11: the State changed; or having been created) at instant [l].  The clock never goes back. *)
  Inductive timed (d : Z) : State R -> Z -> Z -> Prop :=
  | td_new now r : timed d (NewBaseState I now d r) now now
  | td_accept s c l now m : timed d s c l -> c <= now -> fst (HandleMessage I now s m) <> s ->
      timed d (fst (HandleMessage I now s m)) now now
  | td_reject s c l now m : timed d s c l -> c <= now -> fst (HandleMessage I now s m) = s ->
      timed d (fst (HandleMessage I now s m)) now l
  | td_process s c l sched sched' s' out : timed d s c l -> ProcessAll I sched sched' s = Ret (s', out) -> timed d s' c l
  | td_expire s c l now : timed d s c l -> c <= now -> timed d (timerExpire now s) now l
  | td_callback s c l s' : timed d s c l -> timerCallback I s = Ret s' -> timed d s' c l.

  Definition timer_inv (d : Z) (s : State R) (l : Z) : Prop :=
    inv I s /\ tm_d (st_timer s) = d /\
    (forall dl, tm_deadline (st_timer s) = Some dl -> dl = l + d) /\
    (0 < d -> st_done s = false -> tm_deadline (st_timer s) = Some (l + d) \/ (0 < tm_pending (st_timer s))%nat) /\
    (d <= 0 -> tm_deadline (st_timer s) = None /\ tm_pending (st_timer s) = 0%nat).

  Lemma process_timer sched sched' s s' out : inv I s -> ProcessAll I sched sched' s = Ret (s', out) ->
    (st_done s' = st_done s /\ st_timer s' = st_timer s) \/ (st_done s' = true /\ st_timer s' = stopTimer (st_timer s)).
  Proof.
    intros HI E. apply (process_cases I) in E. destruct E as [-> _ _|r1 c e D HS EP ER _|r1 r' c e D HS EP EG ER _|r1 r' ct tl rcv q D HS EP EG EA EQ EN]; auto.
    - right. unfold reportError in ER. cbn [set_round st_done] in ER. rewrite D in ER. apply finish_ret in ER as (r2 & _ & _ & ->); auto.
    - right. unfold reportError in ER. cbn [st_done] in ER. rewrite D in ER. apply finish_ret in ER as (r2 & _ & _ & ->); auto.
    - destruct (r_next I r'); [subst s'; auto|]. right. apply finish_ret in EN as (r2 & _ & _ & ->); [auto|exact D].
  Qed.

  Lemma timed_inv d s c l : timed d s c l -> timer_inv d s l.
  Proof.
    induction 1 as [now r|s c l now m _ (HI & I1 & I2 & I3 & I4) Hc Ha|s c l now m _ (HI & I1 & I2 & I3 & I4) Hc Ha|s c l o o' s' out _ (HI & I1 & I2 & I3 & I4) HE|s c l now _ (HI & I1 & I2 & I3 & I4) Hc|s c l s' _ (HI & I1 & I2 & I3 & I4) HE].
    - split; [apply inv_init|]. cbn. unfold newTimer. destruct (Z.ltb_spec 0 d); cbn.
      + split; auto. split; [congruence|]. split; [auto|lia].
      + split; auto. split; [discriminate|]. split; [lia|auto].
    - split; [now apply inv_handle|].
      destruct (handle_cases I now s m) as [E|(_ & D & _ & _ & _ & _ & ct & tl & _ & E)]; [contradiction|].
      assert (st_timer (fst (HandleMessage I now s m)) = ackMessage now (st_timer s)) as -> by (destruct E as [[_ ->]|(_ & _ & ->)]; reflexivity).
      unfold ackMessage. rewrite I1. destruct (Z.ltb_spec 0 d); cbn.
      + split; auto. split; [congruence|]. split; [auto|lia].
      + split; auto. destruct I4 as [J1 J2]; [lia|]. rewrite J1. split; [discriminate|]. split; [lia|auto].
    - rewrite Ha. split; auto.
    - split; [eapply inv_process; eauto|]. destruct (process_timer _ _ _ _ _ HI HE) as [[E1 E2]|[E1 E2]]; rewrite E2, ?E1; auto.
      cbn. split; auto. split; [discriminate|]. split; [discriminate|]. intros Hd. destruct (I4 Hd). auto.
    - split; [apply (inv_step I ROK s (EExpire now) _ []); auto|].
      unfold timerExpire. destruct (tm_deadline (st_timer s)) as [dl|] eqn:Ed; [destruct (dl <=? now)|]; cbn; auto.
      + split; auto. split; [discriminate|]. split; [right; lia|]. intros Hd. destruct (I4 Hd) as [? _]; congruence.
      + split; [exact I1|]. rewrite Ed. auto.
      + split; [exact I1|]. rewrite Ed. auto.
    - assert (step I s ECallback = Ret (s', [])) as HS by (cbn [step]; now rewrite HE).
      split; [eapply (inv_step I ROK); eauto|]. unfold timerCallback in HE.
      destruct (tm_pending (st_timer s)) as [|k] eqn:Ep; [apply Ret_inj in HE; subst; auto|].
      { rewrite Ep. split; auto. }
      unfold reportError in HE. cbn [st_done] in HE. destruct (st_done s) eqn:D.
      + apply Ret_inj in HE. subst. cbn. split; auto. split; auto. split; [discriminate|]. intros Hd. destruct (I4 Hd). discriminate.
      + apply finish_ret in HE as (r2 & _ & _ & ->); [|reflexivity]. cbn.
        split; auto. split; [discriminate|]. split; [discriminate|]. intros Hd. destruct (I4 Hd). discriminate.
  Qed.

  (** If no message is accepted for [d], the timer runs off and its callback aborts the run blaming nobody. *)
  Theorem C17_aborts : forall d s c l now s', timed d s c l -> 0 < d -> c <= now -> l + d <= now -> st_done s = false ->
    timerCallback I (timerExpire now s) = Ret s' ->
    st_done s' = true /\ st_err s' = Some (mkPError 0 (st_roundNumber s) "message timeout").
  Proof.
    intros d s c l now s' HT Hd Hc Hl D E. apply timed_inv in HT as (HI & I1 & I2 & I3 & I4).
    assert (0 < tm_pending (st_timer (timerExpire now s)))%nat as Hp.
    { unfold timerExpire. destruct (I3 Hd D) as [Hx|Hx].
      - rewrite Hx. rewrite (proj2 (Z.leb_le _ _) Hl). cbn. lia.
      - destruct (tm_deadline (st_timer s)); [destruct (_ <=? _)|]; cbn; lia. }
    assert (st_done (timerExpire now s) = false /\ st_err (timerExpire now s) = None /\ st_roundNumber (timerExpire now s) = st_roundNumber s) as (D' & E' & N').
    { pose proof (inv_err I s HI D). unfold timerExpire. destruct (tm_deadline (st_timer s)); [destruct (_ <=? _)|]; cbn; auto. }
    unfold timerCallback in E. destruct (tm_pending (st_timer (timerExpire now s))) as [|k]; [lia|].
    apply reportError_ret in E as (r2 & _ & _ & ->); auto. cbn. rewrite N'. auto.
  Qed.

  (** The callback is started only after [d] without an accepted message, and never without a timeout;
      a callback that was not started does nothing. *)
  Theorem C17_not_early : forall d s c l now, timed d s c l -> timerExpire now s <> s -> 0 < d /\ l + d <= now.
  Proof.
    intros d s c l now HT Hne. apply timed_inv in HT as (HI & I1 & I2 & I3 & I4). unfold timerExpire in Hne.
    destruct (tm_deadline (st_timer s)) as [dl|] eqn:Ed; [|contradiction].
    destruct (Z.leb_spec dl now); [|contradiction]. rewrite (I2 dl eq_refl) in H. split; [|lia].
    destruct (Z_lt_dec 0 d); auto. destruct I4 as [X _]; [lia|discriminate].
  Qed.
  Theorem C17_not_started : forall s, tm_pending (st_timer s) = 0%nat -> timerCallback I s = Ret s.
  Proof. intros s H. unfold timerCallback. now rewrite H. Qed.

  (** On a finished State the callback changes nothing but the timer's own bookkeeping. *)
  Theorem C17_finished : forall s, st_done s = true -> exists s', timerCallback I s = Ret s' /\
    st_err s' = st_err s /\ st_round s' = st_round s /\ st_done s' = true /\ st_closed s' = st_closed s.
  Proof.
    intros s D. unfold timerCallback. destruct (tm_pending (st_timer s)); eauto 10. unfold reportError. cbn [st_done]. rewrite D.
    eexists. split; [reflexivity|]. auto.
  Qed.
  (** No step replaces an error. *)
  Theorem C17_first_error_wins : forall now t r s out es s' out', reaches I (NewBaseState I now t r) s out ->
    st_err s <> None -> run I s es = Ret (s', out') -> st_err s' = st_err s.
  Proof.
    intros now t r s out es s' out' HR He E. apply C13_closed_iff_done in HR as [_ D].
    destruct (C13_final s es (D He)) as (s2 & E2 & _ & A & _). rewrite E2 in E. apply Ret_inj in E. now inversion E; subst.
  Qed.
  (** A crash can only come from the round's Reset. *)
  Theorem C17_crash_partial : forall now t r s out w, reaches I (NewBaseState I now t r) s out ->
    timerCallback I s = Panics w -> r_reset I (st_round s) = Panics w /\ st_done s = false.
  Proof.
    intros now t r s out w HR. apply C13_closed_iff_done in HR as [HC _]. unfold timerCallback.
    destruct (tm_pending (st_timer s)); [discriminate|]. unfold reportError. cbn [st_done]. destruct (st_done s); [discriminate|].
    unfold finish. cbn. rewrite HC. destruct (r_reset I (st_round s)); cbn; try discriminate. intros [= ->]. auto.
  Qed.
End StateProps.
