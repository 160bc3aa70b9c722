(** C16, C49: exactly which messages a State holds after any history, how many there can be, and how long it can be kept alive. *)
From Coq Require Import ZArith Lia List Bool String Permutation Sorted.
From stdpp Require Import base gmap list fin_maps.
From Verif Require Import ZField Primes Bytes Scalar Go Group ToyGroup Party Poly PolyFacts Zk Eddsa Messages State StateFacts Spec_State
  Keygen Sign RoundFacts Properties_State ToyRuns Properties_StateRuns.
Import ListNotations.
Local Open Scope Z_scope.

Section Bounds.
  Context `{Gr : group_ops} {R : Type} (I : RoundI R).
  Context (ROK : round_ok I).
  Notation self s := (r_self I (st_round s)).
  Notation ids s := (r_ids I (st_round s)).

  (** [takes s es l s']: the history [es] leads from [s] to [s'], and [l] are the messages accepted on the way, in order. *)
  Inductive takes : State R -> list event -> list Message -> State R -> Prop :=
  | tk_nil s : takes s [] [] s
  | tk_in s now m es l s' : acceptable I s m -> takes (fst (HandleMessage I now s m)) es l s' -> takes s (EHandle now m :: es) (m :: l) s'
  | tk_out s now m es l s' : ~ acceptable I s m -> takes (fst (HandleMessage I now s m)) es l s' -> takes s (EHandle now m :: es) l s'
  | tk_step s e s1 o es l s' : (forall now m, e <> EHandle now m) -> step I s e = Ret (s1, o) -> takes s1 es l s' -> takes s (e :: es) l s'.

  Lemma acceptable_dec s m : {acceptable I s m} + {~ acceptable I s m}.
  Proof.
    destruct (st_done s) eqn:D; [right; intros [X _ _ _]; congruence|].
    destruct (in_dec Z.eq_dec (m_From m) (ids s)); [|right; intros [_ [X _ _] _ _]; auto].
    destruct (Z.eq_dec (m_From m) (self s)); [right; intros [_ [_ X _] _ _]; auto|].
    destruct (Z.eq_dec (m_To m) 0) as [E|E]; [|destruct (Z.eq_dec (m_To m) (self s)) as [E'|E']; [|right; intros [_ [_ _ [X|X]] _ _]; auto]].
    all: destruct (st_received s !! m_From m) eqn:Er; [right; intros [_ _ X _]; congruence|].
    all: destruct (in_dec Z.eq_dec (m_Type m) (st_accepted s)); [left; split; auto; split; auto|right; intros [_ _ _ X]; auto].
  Qed.
  Lemma takes_exist es : forall s s' out, run I s es = Ret (s', out) -> exists l, takes s es l s'.
  Proof.
    induction es as [|e es IH]; intros s s' out E; cbn [run] in E; [apply Ret_inj in E; inversion E; subst; exists []; constructor|].
    apply obind_ret in E as ([s1 o1] & E1 & E2). apply obind_ret in E2 as ([s2 o2] & E2 & E3). cbn [fst snd] in *. apply Ret_inj in E3. inversion E3; subst.
    destruct (IH s1 s' o2 E2) as (l & Hl). destruct e as [now m|a b|now|].
    2-4: exists l; eapply tk_step; eauto; discriminate.
    cbn [step] in E1. apply Ret_inj in E1. inversion E1; subst. destruct (acceptable_dec s m); [exists (m :: l)|exists l]; constructor; auto.
  Qed.
  Lemma takes_run s es l s' : takes s es l s' -> exists out, run I s es = Ret (s', out).
  Proof.
    induction 1 as [s|s now m es l s' _ _ [out IH]|s now m es l s' _ _ [out IH]|s e s1 o es l s' _ E _ [out IH]]; [exists []; reflexivity| | |]; cbn [run].
    - exists out. cbn [step obind fst]. now rewrite IH.
    - exists out. cbn [step obind fst]. now rewrite IH.
    - exists (o ++ out). rewrite E. cbn [obind fst snd]. now rewrite IH.
  Qed.

  Definition of_type (t : Z) (j : ID) (m : Message) : bool := (m_Type m =? t) && (m_From m =? j).
  Definition later (types : list Z) (m : Message) : bool := existsb (Z.eqb (m_Type m)) (tl types).
  Definition last_of (t : Z) (j : ID) (l : list Message) : option Message := find (of_type t j) (rev l).

  Lemma last_of_snoc t j l m : last_of t j (l ++ [m]) = if of_type t j m then Some m else last_of t j l.
  Proof. unfold last_of. rewrite rev_app_distr. reflexivity. Qed.
  Lemma last_of_filter t j f l : (forall m, m_Type m = t -> f m = true) -> last_of t j (List.filter f l) = last_of t j l.
  Proof.
    intros H. induction l as [|m l IH] using rev_ind; [reflexivity|]. rewrite List.filter_app, last_of_snoc. cbn [List.filter].
    destruct (of_type t j m) eqn:E.
    - rewrite H, last_of_snoc, E; [reflexivity|]. unfold of_type in E. apply andb_true_iff in E as [E _]. now apply Z.eqb_eq.
    - destruct (f m); [rewrite last_of_snoc, E; exact IH|now rewrite app_nil_r].
  Qed.

  Record held (s : State R) (L : list Message) : Prop := {
    he_types : List.NoDup (st_accepted s);
    he_queue : st_queue s = List.filter (later (st_accepted s)) L;
    he_received : st_done s = false -> forall j m, st_received s !! j = Some (Some m) <->
      exists t tl, st_accepted s = t :: tl /\ last_of t j L = Some m
  }.

  Lemma handle_acceptable now s m : acceptable I s m -> sorted (ids s) -> exists ct tl, st_accepted s = ct :: tl /\
    fst (HandleMessage I now s m) =
        mkState (st_accepted s)
          (if m_Type m =? ct then <[m_From m := Some m]> (st_received s) else st_received s)
          (if m_Type m =? ct then st_queue s else st_queue s ++ [m])
          (ackMessage now (st_timer s)) (st_roundNumber s) (st_round s) (st_closed s) (st_done s) (st_err s).
  Proof.
    intros A Hs. destruct (C11_accepts I now s m Hs A) as [_ H]. destruct A as [_ _ _ Ht]. destruct (st_accepted s) as [|ct tl] eqn:E; [destruct Ht|].
    exists ct, tl. split; [reflexivity|]. rewrite (H ct tl eq_refl). reflexivity.
  Qed.
  Lemma sorted_step s e s' o : step I s e = Ret (s', o) -> sorted (ids s) -> sorted (ids s').
  Proof. intros E H. destruct (step_ids I ROK s e s' o E) as [_ ->]. exact H. Qed.

  Lemma held_accept now s m L : sorted (ids s) -> acceptable I s m -> held s L -> held (fst (HandleMessage I now s m)) (L ++ [m]).
  Proof.
    intros Hs A [H1 H2 H3]. destruct (handle_acceptable now s m A Hs) as (ct & tl & EA & ->). pose proof (ac_running _ _ _ A) as D. specialize (H3 D).
    assert (In (m_Type m) (ct :: tl)) as Ht by (rewrite <- EA; apply A). rewrite EA in *. inversion H1 as [|x y Hct Htl]; subst.
    split; cbn [st_accepted st_queue st_received st_done]; auto.
    - rewrite List.filter_app. cbn [List.filter]. unfold later at 2. cbn [List.tl]. destruct (Z.eqb_spec (m_Type m) ct) as [E|E].
      + destruct (existsb (Z.eqb (m_Type m)) tl) eqn:X; [|rewrite app_nil_r; exact H2]. apply existsb_exists in X as (t & X & Y). apply Z.eqb_eq in Y. subst. contradiction.
      + destruct (existsb (Z.eqb (m_Type m)) tl) eqn:X; [now rewrite H2|]. rewrite <- not_true_iff_false in X. destruct X. apply existsb_exists. exists (m_Type m). split; [destruct Ht; [congruence|auto]|apply Z.eqb_refl].
    - intros _ j m'. assert ((exists t tl0, ct :: tl = t :: tl0 /\ last_of t j (L ++ [m]) = Some m') <-> last_of ct j (L ++ [m]) = Some m') as ->.
      { split; [intros (t & tl0 & E & X); now inversion E; subst|]. eauto. }
      specialize (H3 j m'). assert ((exists t tl0, ct :: tl = t :: tl0 /\ last_of t j L = Some m') <-> last_of ct j L = Some m') as X.
      { split; [intros (t & tl0 & E & X); now inversion E; subst|]. eauto. }
      rewrite X in H3. rewrite last_of_snoc. unfold of_type. destruct (Z.eqb_spec (m_Type m) ct) as [E|E]; cbn [andb]; [|exact H3].
      destruct (Z.eqb_spec (m_From m) j) as [<-|Ej]; [rewrite lookup_insert; split; intros [= ->]; reflexivity|]. rewrite lookup_insert_ne by auto. exact H3.
  Qed.
  Lemma held_done s s' L : st_accepted s' = st_accepted s -> st_queue s' = st_queue s -> st_done s' = true -> held s L -> held s' L.
  Proof. intros E1 E2 E3 [H1 H2 H3]. split; rewrite ?E1, ?E2; auto. congruence. Qed.
  Lemma held_process sched sched' s s' out L : held s L -> ProcessAll I sched sched' s = Ret (s', out) -> held s' L.
  Proof.
    intros H E. apply (process_cases I) in E. destruct E as [-> _ _|r1 c e D HS EP ER _|r1 r' c e D HS EP EG ER _|r1 r' ct tl rcv q D HS EP EG EA EQ EN]; auto.
    - unfold reportError in ER. cbn [set_round st_done] in ER. rewrite D in ER. apply finish_ret in ER as (r2 & _ & _ & ->); [|reflexivity]. now apply (held_done s).
    - unfold reportError in ER. cbn [st_done] in ER. rewrite D in ER. apply finish_ret in ER as (r2 & _ & _ & ->); [|reflexivity]. now apply (held_done s).
    - destruct H as [H1 H2 H3]. specialize (H3 D). rewrite EA in *. inversion H1 as [|x y Hct Htl]; subst.
      assert (q = List.filter (later tl) L /\ forall j m, rcv !! j = Some (Some m) <-> exists t tl', tl = t :: tl' /\ last_of t j L = Some m) as [Hq Hr].
      { destruct tl as [|ct' tl'].
        - inversion EQ; subst. split; [now rewrite H2|]. intros j m. rewrite lookup_empty. split; [discriminate|]. intros (t & tl' & X & _). discriminate.
        - inversion EQ; subst. split.
          + rewrite H2. clear - Htl. inversion Htl as [|x y Hct' _]; subst. induction L as [|m L IH]; [reflexivity|]. cbn [List.filter].
            change (later (ct :: ct' :: tl') m) with ((m_Type m =? ct') || existsb (Z.eqb (m_Type m)) tl'). change (later (ct' :: tl') m) with (existsb (Z.eqb (m_Type m)) tl').
            destruct (Z.eqb_spec (m_Type m) ct') as [E|E]; cbn [orb].
            * cbn [List.filter]. rewrite (proj2 (Z.eqb_eq _ _) E). cbn [negb]. rewrite IH.
              destruct (existsb (Z.eqb (m_Type m)) tl') eqn:X; [|reflexivity]. apply existsb_exists in X as (t & X & Y). apply Z.eqb_eq in Y. subst. contradiction.
            * destruct (existsb (Z.eqb (m_Type m)) tl'); [|exact IH]. cbn [List.filter]. rewrite (proj2 (Z.eqb_neq _ _) E). cbn [negb]. now rewrite IH.
          + intros j m. pose proof (take_queue_lookup ct' (st_queue s) ∅ j : _ = match last_of ct' j (st_queue s) with Some m => Some (Some m) | None => _ end) as TQ.
            unfold take_queue in TQ. cbn [fst] in TQ. rewrite TQ. clear TQ.
            rewrite H2, last_of_filter.
            * rewrite lookup_empty. destruct (last_of ct' j L) as [m'|] eqn:El; split.
              -- intros [= ->]. eauto.
              -- intros (t & tl0 & X & Y). inversion X; subst. now rewrite El in Y; inversion Y.
              -- discriminate.
              -- intros (t & tl0 & X & Y). inversion X; subst. congruence.
            * intros m' Em. unfold later. cbn [List.tl existsb]. rewrite Em, Z.eqb_refl. reflexivity. }
      destruct (r_next I r').
      + subst s'. split; cbn; auto.
      + apply finish_ret in EN as (r2 & _ & _ & ->); [|exact D]. split; cbn; auto.
  Qed.
  Lemma held_other s e s1 o L : (forall now m, e <> EHandle now m) -> step I s e = Ret (s1, o) -> held s L -> held s1 L.
  Proof.
    intros Hn E H. destruct e as [now m|a b|now|]; [now destruct (Hn now m)|now apply (held_process a b s s1 o)| |]; cbn [step] in E.
    - apply Ret_inj in E. inversion E; subst. unfold timerExpire. destruct (tm_deadline (st_timer s)); [destruct (_ <=? _)|]; auto. destruct H. split; auto.
    - apply obind_ret in E as (s2 & E & E2). apply Ret_inj in E2. inversion E2; subst. unfold timerCallback in E. destruct (tm_pending _); [apply Ret_inj in E; subst; auto|].
      unfold reportError in E. cbn [st_done] in E. destruct (st_done s) eqn:D.
      + apply Ret_inj in E. subst. apply (held_done s); auto.
      + apply finish_ret in E as (r2 & _ & _ & ->); [|reflexivity]. now apply (held_done s).
  Qed.
  Lemma held_takes s es l s' : takes s es l s' -> forall L, sorted (ids s) -> held s L -> held s' (L ++ l).
  Proof.
    induction 1 as [s|s now m es l s' A _ IH|s now m es l s' A _ IH|s e s1 o es l s' Hn E _ IH]; intros L Hs H; [now rewrite app_nil_r| | |].
    - replace (L ++ m :: l) with ((L ++ [m]) ++ l) by (rewrite <- app_assoc; reflexivity). apply IH; [|now apply held_accept].
      apply (sorted_step s (EHandle now m) _ [] eq_refl Hs).
    - destruct (C11_rejects I now s m Hs A) as [Ef _]. rewrite Ef in IH. apply IH; auto.
    - apply IH; [apply (sorted_step s e s1 o E Hs)|apply (held_other s e s1 o L Hn E H)].
  Qed.
  Lemma held_init now t r : List.NoDup (r_accepted I r) -> held (NewBaseState I now t r) [].
  Proof.
    intros H. split; cbn [NewBaseState st_accepted st_queue st_done]; auto. intros _ j m. rewrite (init_received I now t r).
    split; [intros [X _]; discriminate|]. intros (? & ? & _ & X). discriminate.
  Qed.

  (** Of several messages of one sender for one round, the one accepted last is the one that is stored and processed;
      the queue holds, in order, all accepted messages for later rounds, repetitions included. *)
  Theorem C16_last : forall now t r es l s, sorted (r_ids I r) -> List.NoDup (r_accepted I r) ->
    takes (NewBaseState I now t r) es l s -> st_done s = false ->
    st_queue s = List.filter (fun m => existsb (Z.eqb (m_Type m)) (tl (st_accepted s))) l /\
    forall j m ct ctl, st_accepted s = ct :: ctl -> (st_received s !! j = Some (Some m) <->
      exists before after, l = before ++ m :: after /\ m_Type m = ct /\ m_From m = j /\ forall m', In m' after -> m_Type m' = ct -> m_From m' <> j).
  Proof.
    intros now t r es l s Hs Hn HT D. apply held_takes with (L := []) in HT; [|exact Hs|now apply held_init]. destruct HT as [_ H2 H3]. cbn [app] in *. split; [exact H2|].
    intros j m ct ctl EA. rewrite (H3 D j m), EA. assert ((exists t0 tl0, ct :: ctl = t0 :: tl0 /\ last_of t0 j l = Some m) <-> last_of ct j l = Some m) as ->.
    { split; [intros (t0 & tl0 & E & X); now inversion E; subst|]. eauto. }
    clear. induction l as [|x l IH] using rev_ind.
    - split; [discriminate|]. intros (b & a & X & _). destruct b; discriminate.
    - rewrite last_of_snoc. destruct (of_type ct j x) eqn:E.
      + unfold of_type in E. apply andb_true_iff in E as [E1 E2]. apply Z.eqb_eq in E1, E2. split.
        * intros [= ->]. exists l, []. repeat split; auto.
        * intros (b & a & X & Y1 & Y2 & Y3). destruct a as [|y a] using rev_ind; [apply app_inj_tail in X as [_ X]; congruence|].
          rewrite app_comm_cons, app_assoc in X. apply app_inj_tail in X as [_ <-]. destruct (Y3 x); auto. apply in_app_iff. right. now left.
      + rewrite IH. unfold of_type in E. split.
        * intros (b & a & X & Y1 & Y2 & Y3). exists b, (a ++ [x]). split; [subst; now rewrite <- app_assoc|]. repeat split; auto. intros m' Hm. apply in_app_iff in Hm as [Hm|[<-|[]]]; auto.
          intros Z1 Z2. rewrite Z1, Z2, !Z.eqb_refl in E. discriminate.
        * intros (b & a & X & Y1 & Y2 & Y3). destruct a as [|y a] using rev_ind.
          -- apply app_inj_tail in X as [_ ->]. rewrite Y1, Y2, !Z.eqb_refl in E. discriminate.
          -- rewrite app_comm_cons, app_assoc in X. apply app_inj_tail in X as [X <-]. exists b, a. repeat split; auto. intros m' Hm. apply Y3. apply in_app_iff. now left.
  Qed.

  (** * C49: bounds *)
  (** If every other party sends at most [k] messages, at most k(n-1) are ever accepted, queued or stored. *)
  Fixpoint handled (es : list event) : list Message := match es with [] => [] | EHandle _ m :: es' => m :: handled es' | _ :: es' => handled es' end.
  Definition sent_by (j : ID) (l : list Message) : nat := List.length (List.filter (fun m => m_From m =? j) l).
  Lemma takes_sub s es l s' : takes s es l s' -> forall j, (sent_by j l <= sent_by j (handled es))%nat.
  Proof.
    induction 1 as [s|s now m es l s' A _ IH|s now m es l s' A _ IH|s e s1 o es l s' Hn E _ IH]; intros j; [apply le_n| | |]; unfold sent_by in *; cbn [handled List.filter].
    - destruct (m_From m =? j); cbn [List.length]; specialize (IH j); lia.
    - destruct (m_From m =? j); cbn [List.length]; specialize (IH j); lia.
    - destruct e; cbn [handled]; auto. now destruct (Hn now m).
  Qed.
  Lemma takes_from s es l s' : takes s es l s' -> forall m, In m l -> In (m_From m) (others_of (self s) (ids s)).
  Proof.
    induction 1 as [s|s now m es l s' A _ IH|s now m es l s' A _ IH|s e s1 o es l s' Hn E _ IH]; intros m0 H0; [destruct H0| | |].
    - destruct H0 as [<-|H0]; [apply others_of_In; destruct A as [_ [H1 H2 _] _ _]; auto|]. specialize (IH m0 H0).
      destruct (step_ids I ROK s (EHandle now m) _ [] eq_refl) as [E1 E2]. rewrite E1, E2 in IH. exact IH.
    - specialize (IH m0 H0). destruct (step_ids I ROK s (EHandle now m) _ [] eq_refl) as [E1 E2]. rewrite E1, E2 in IH. exact IH.
    - specialize (IH m0 H0). destruct (step_ids I ROK s e _ _ E) as [E1 E2]. rewrite E1, E2 in IH. exact IH.
  Qed.
  Lemma by_sender J : List.NoDup J -> forall k l, (forall j, (sent_by j l <= k)%nat) -> (forall m, In m l -> In (m_From m) J) -> (List.length l <= k * List.length J)%nat.
  Proof.
    induction 1 as [|j J Hj _ IH]; intros k l H1 H2.
    - destruct l as [|m l]; [cbn; lia|]. destruct (H2 m (or_introl eq_refl)).
    - assert (List.length l = sent_by j l + List.length (List.filter (fun m => negb (m_From m =? j)%Z) l))%nat as ->.
      { clear. unfold sent_by. induction l as [|m l IH]; [reflexivity|]. cbn [List.filter]. destruct (m_From m =? j)%Z; cbn [negb List.length]; lia. }
      assert (List.length (List.filter (fun m => negb (m_From m =? j)%Z) l) <= k * List.length J)%nat as X.
      { apply IH.
        - intros i. specialize (H1 i). apply Nat.le_trans with (sent_by i l); [|exact H1]. clear. unfold sent_by. induction l as [|m l IH]; [apply le_n|]. cbn [List.filter]. destruct (m_From m =? j)%Z; cbn [negb List.filter]; destruct (m_From m =? i)%Z; cbn [List.length]; lia.
        - intros m Hm. apply filter_In in Hm as [Hm Hne]. destruct (H2 m Hm) as [E|Hm']; [|exact Hm']. subst. rewrite Z.eqb_refl in Hne. discriminate. }
      cbn [List.length]. specialize (H1 j). lia.
  Qed.
  Theorem C49_memory : forall now t r es l s k, sorted (r_ids I r) -> List.NoDup (r_ids I r) -> In (r_self I r) (r_ids I r) -> List.NoDup (r_accepted I r) ->
    takes (NewBaseState I now t r) es l s -> (forall j, (sent_by j (handled es) <= k)%nat) ->
    (List.length l <= k * (List.length (r_ids I r) - 1))%nat /\ (List.length (st_queue s) <= List.length l)%nat /\
    (size (st_received s) <= List.length (r_ids I r) - 1)%nat.
  Proof.
    intros now t r es l s k Hs Hn Hi Ha HT Hk.
    pose proof (others_of_length (r_self I r) (r_ids I r) Hn Hi) as HL.
    assert (inv I s) as HI. { destruct (takes_run _ _ _ _ HT) as (out & E). eapply (inv_run I ROK); [apply inv_init|exact E]. }
    assert (self s = r_self I r /\ ids s = r_ids I r) as [Es Ei]. { destruct (takes_run _ _ _ _ HT) as (out & E). exact (run_ids I ROK _ _ _ _ E). }
    split; [|split].
    - replace (List.length (r_ids I r) - 1)%nat with (List.length (others_of (r_self I r) (r_ids I r))) by lia. apply by_sender.
      + now apply others_of_NoDup.
      + intros j. pose proof (takes_sub _ _ _ _ HT j). specialize (Hk j). lia.
      + exact (takes_from _ _ _ _ HT).
    - apply held_takes with (L := []) in HT; [|exact Hs|now apply held_init]. destruct HT as [_ -> _]. cbn [app]. generalize (later (st_accepted s)). intros f. clear. induction l as [|m l IH]; [apply le_n|]. cbn [List.filter]. destruct (f m); cbn [List.length]; lia.
    - rewrite <- (map_keys_length [] (st_received s)). replace (List.length (r_ids I r) - 1)%nat with (List.length (others_of (r_self I r) (r_ids I r))) by lia.
      apply NoDup_incl_length; [apply map_keys_NoDup|]. intros j Hj. apply map_keys_In in Hj as (v & Hv). destruct (inv_received I s HI j v Hv) as (H1 & H2 & _).
      apply others_of_In. rewrite <- Es, <- Ei. auto.
  Qed.

  (** The timer: [prompt d r c0 s c l h a]: a State created at instant [c0] with timeout [d] is [s] at instant [c]; it accepted its last
      message (or was created) at [l]; it was handed the messages [h] and accepted [a].  The timer is punctual: no message is
      accepted at or after the deadline. *)
  Inductive prompt (d : Z) (r : R) (c0 : Z) : State R -> Z -> Z -> list Message -> list Message -> Prop :=
  | pr_new : prompt d r c0 (NewBaseState I c0 d r) c0 c0 [] []
  | pr_accept s c l h a now m : prompt d r c0 s c l h a -> c <= now < l + d -> acceptable I s m ->
      prompt d r c0 (fst (HandleMessage I now s m)) now now (h ++ [m]) (a ++ [m])
  | pr_reject s c l h a now m : prompt d r c0 s c l h a -> c <= now -> ~ acceptable I s m ->
      prompt d r c0 (fst (HandleMessage I now s m)) now l (h ++ [m]) a
  | pr_process s c l h a sched sched' s' out : prompt d r c0 s c l h a -> ProcessAll I sched sched' s = Ret (s', out) -> prompt d r c0 s' c l h a
  | pr_expire s c l h a now : prompt d r c0 s c l h a -> c <= now -> prompt d r c0 (timerExpire now s) now l h a
  | pr_callback s c l h a s' : prompt d r c0 s c l h a -> timerCallback I s = Ret s' -> prompt d r c0 s' c l h a.

  Lemma ack_changes now s m : acceptable I s m -> sorted (ids s) -> fst (HandleMessage I now s m) <> s.
  Proof.
    intros A Hs. destruct (handle_acceptable now s m A Hs) as (ct & tl & EA & ->). intros E.
    pose proof (f_equal (fun x => st_received x !! m_From m) E) as E1. pose proof (f_equal (fun x => List.length (st_queue x)) E) as E2. cbn [st_received st_queue] in E1, E2.
    destruct (m_Type m =? ct); [rewrite lookup_insert, (ac_first _ _ _ A) in E1; discriminate|]. rewrite app_length in E2. cbn in E2. lia.
  Qed.
  Lemma prompt_inv d r c0 s c l h a : prompt d r c0 s c l h a -> sorted (r_ids I r) -> 0 < d ->
    timed I d s c l /\ self s = r_self I r /\ ids s = r_ids I r /\ l <= c0 + Z.of_nat (List.length a) * d /\
    (forall j, (sent_by j a <= sent_by j h)%nat) /\ (forall m, In m a -> In (m_From m) (others_of (r_self I r) (r_ids I r))).
  Proof.
    intros H Hs Hd. induction H as [|s c l h a now m _ (T & E1 & E2 & HL & HS & HF) Hc A|s c l h a now m _ (T & E1 & E2 & HL & HS & HF) Hc A|s c l h a o o' s' out _ (T & E1 & E2 & HL & HS & HF) E|s c l h a now _ (T & E1 & E2 & HL & HS & HF) Hc|s c l h a s' _ (T & E1 & E2 & HL & HS & HF) E].
    - split; [constructor|]. split; [reflexivity|]. split; [reflexivity|]. split; [cbn; lia|]. split; [intros; apply le_n|intros ? []].
    - destruct (step_ids I ROK s (EHandle now m) _ [] eq_refl) as [F1 F2]. rewrite F1, F2.
      split; [apply (td_accept I d s c l now m T ltac:(lia)); apply ack_changes; [exact A|now rewrite E2]|]. split; [exact E1|]. split; [exact E2|].
      split; [rewrite app_length; cbn [List.length]; lia|]. split.
      + intros j. specialize (HS j). unfold sent_by in *. rewrite !List.filter_app, !app_length. cbn [List.filter]. destruct (m_From m =? j); cbn [List.length]; lia.
      + intros m' Hm. apply in_app_iff in Hm as [Hm|[<-|[]]]; [auto|]. apply others_of_In. rewrite <- E1, <- E2. destruct A as [_ [X Y _] _ _]. auto.
    - destruct (step_ids I ROK s (EHandle now m) _ [] eq_refl) as [F1 F2]. rewrite F1, F2. destruct (C11_rejects I now s m ltac:(now rewrite E2) A) as [Ef _].
      split; [apply (td_reject I d s c l now m T Hc Ef)|]. split; [exact E1|]. split; [exact E2|]. split; [exact HL|]. split; [|exact HF].
      intros j. specialize (HS j). unfold sent_by in *. rewrite List.filter_app, app_length. lia.
    - destruct (step_ids I ROK s (EProcess o o') _ _ E) as [F1 F2]. rewrite F1, F2. split; [apply (td_process I d s c l o o' s' out T E)|auto].
    - destruct (step_ids I ROK s (EExpire now) _ _ eq_refl) as [F1 F2]. rewrite F1, F2. split; [apply (td_expire I d s c l now T Hc)|auto].
    - assert (step I s ECallback = Ret (s', [])) as ES by (cbn [step]; now rewrite E). destruct (step_ids I ROK s ECallback _ _ ES) as [F1 F2]. rewrite F1, F2. split; [apply (td_callback I d s c l s' T E)|auto].
  Qed.
  (** If every other party sends at most [k] messages, a State that is not finished after k(n-1)+1 timeouts is ended by its timer. *)
  Theorem C49_ends : forall d r c0 s c l h a k now s', prompt d r c0 s c l h a -> sorted (r_ids I r) -> List.NoDup (r_ids I r) -> In (r_self I r) (r_ids I r) -> 0 < d ->
    (forall j, (sent_by j h <= k)%nat) -> c <= now -> c0 + (Z.of_nat k * (Z.of_nat (List.length (r_ids I r)) - 1) + 1) * d <= now -> st_done s = false ->
    timerCallback I (timerExpire now s) = Ret s' -> st_done s' = true /\ st_err s' = Some (mkPError 0 (st_roundNumber s) "message timeout").
  Proof.
    intros d r c0 s c l h a k now s' HP Hs Hn Hi Hd Hk Hc Hnow D E. destruct (prompt_inv _ _ _ _ _ _ _ _ HP Hs Hd) as (T & E1 & E2 & HL & HS & HF).
    apply (C17_aborts I ROK d s c l now s' T Hd Hc); auto.
    pose proof (others_of_length (r_self I r) (r_ids I r) Hn Hi) as HO.
    assert (List.length a <= k * List.length (others_of (r_self I r) (r_ids I r)))%nat as HB.
    { apply by_sender; [now apply others_of_NoDup| |exact HF]. intros j. specialize (HS j). specialize (Hk j). lia. }
    assert (Z.of_nat (List.length a) <= Z.of_nat k * (Z.of_nat (List.length (r_ids I r)) - 1)) as HB' by nia. nia.
  Qed.

  (** Flooding: a message for a later round is accepted any number of times, and every time the timer starts anew. *)
  Lemma flood_step s m now d : acceptable I s m -> sorted (ids s) -> List.NoDup (st_accepted s) -> In (m_Type m) (tl (st_accepted s)) -> tm_d (st_timer s) = d ->
    snd (HandleMessage I now s m) = None /\ st_queue (fst (HandleMessage I now s m)) = st_queue s ++ [m] /\
    acceptable I (fst (HandleMessage I now s m)) m /\ st_accepted (fst (HandleMessage I now s m)) = st_accepted s /\
    ids (fst (HandleMessage I now s m)) = ids s /\ st_received (fst (HandleMessage I now s m)) = st_received s /\ tm_d (st_timer (fst (HandleMessage I now s m))) = d /\
    tm_pending (st_timer (fst (HandleMessage I now s m))) = tm_pending (st_timer s) /\
    (0 < d -> tm_deadline (st_timer (fst (HandleMessage I now s m))) = Some (now + d)).
  Proof.
    intros A Hs Hn Ht Hd. destruct (C11_accepts I now s m Hs A) as [E1 E2]. destruct (st_accepted s) as [|ct tl] eqn:EA; [destruct Ht|]. specialize (E2 ct tl eq_refl). cbn [List.tl] in Ht.
    assert (m_Type m <> ct) as Hne by (intros E; rewrite E in Ht; inversion Hn; contradiction). rewrite (proj2 (Z.eqb_neq _ _) Hne) in E2. split; [exact E1|]. rewrite E2.
    cbn [st_queue st_accepted st_round st_received st_timer]. split; [reflexivity|].
    split. { destruct A as [D [F1 F2 F3] G H]. split; [exact D|split; [exact F1|exact F2|exact F3]|exact G|cbn [st_accepted]; rewrite <- EA; exact H]. }
    split; [reflexivity|]. split; [reflexivity|]. split; [reflexivity|]. unfold ackMessage. rewrite Hd.
    destruct (Z.ltb_spec 0 d); cbn [tm_d tm_deadline tm_pending]; repeat split; auto; lia.
  Qed.
  (** [flood m t0 d k]: [k] times: just before each deadline the timer gets its chance, then the same message comes again. *)
  Fixpoint flood (m : Message) (t0 gap : Z) (k : nat) : list event :=
    match k with O => [] | S k' => EExpire (t0 + gap) :: ECallback :: EHandle (t0 + gap) m :: flood m (t0 + gap) gap k' end.
  Theorem C49_flood : forall k m t0 gap d s, acceptable I s m -> sorted (ids s) -> List.NoDup (st_accepted s) -> In (m_Type m) (tl (st_accepted s)) ->
    tm_d (st_timer s) = d -> 0 < gap < d -> tm_deadline (st_timer s) = Some (t0 + d) -> tm_pending (st_timer s) = 0%nat ->
    exists s', run I s (flood m t0 gap k) = Ret (s', []) /\ st_queue s' = st_queue s ++ repeat m k /\ st_done s' = false /\ st_received s' = st_received s /\
      tm_deadline (st_timer s') = Some (t0 + Z.of_nat k * gap + d) /\ acceptable I s' m.
  Proof.
    induction k as [|k IH]; intros m t0 gap d s A Hs Hn Ht Hd Hg Hdl Hp.
    - exists s. cbn [flood run repeat]. rewrite app_nil_r. split; [reflexivity|]. split; [reflexivity|]. split; [apply A|]. split; [reflexivity|]. split; [rewrite Hdl; f_equal; lia|exact A].
    - cbn [flood run step]. assert (timerExpire (t0 + gap) s = s) as ->. { unfold timerExpire. rewrite Hdl, (proj2 (Z.leb_gt _ _)) by lia. reflexivity. }
      cbn [obind fst snd]. unfold timerCallback at 1. rewrite Hp. cbn [obind fst snd].
      destruct (flood_step s m (t0 + gap) d A Hs Hn Ht Hd) as (F1 & F2 & F3 & F4 & F5 & F6 & F7 & F8 & F9).
      destruct (IH m (t0 + gap) gap d _ F3 ltac:(now rewrite F5) ltac:(now rewrite F4) ltac:(now rewrite F4) F7 Hg (F9 ltac:(lia)) ltac:(now rewrite F8)) as (s' & G1 & G2 & G3 & G4 & G5 & G6).
      exists s'. rewrite G1. cbn [obind fst snd app]. split; [reflexivity|]. split; [rewrite G2, F2, <- app_assoc; reflexivity|]. split; [exact G3|]. split; [now rewrite G4|].
      split; [rewrite G5; f_equal; lia|exact G6].
  Qed.
End Bounds.

(** Both protocols: the types accepted are distinct. *)
Theorem C49_protocols : forall (Gr : group_ops) (Hf : hash_fn), round_ok keygen_round /\ round_ok sign_round /\
  (forall r, List.NoDup (r_accepted keygen_round r)) /\ (forall r, List.NoDup (r_accepted sign_round r)).
Proof.
  intros Gr Hf. split; [apply keygen_round_ok|]. split; [apply sign_round_ok|].
  split; intros r; cbn; repeat constructor; cbn; unfold MTNone, MTKeyGen1, MTKeyGen2, MTSign1, MTSign2; lia.
Qed.

(** Party 2 alone makes party 1's State, created with a timeout of 5, hold any number of messages, and keeps it from timing out for as long
    as it likes, although party 3 never sends anything. *)
Definition none {A} (l : list A) : bool := match l with [] => true | _ => false end.
Definition fl_ok (s : tkstate) : bool :=
  negb (st_done s) && bool_decide (r_ids tkg (st_round s) = k3) && (r_self tkg (st_round s) =? 1) && bool_decide (st_accepted s = [MTKeyGen1; MTKeyGen2]) &&
  none (map_to_list (st_received s)) && bool_decide (tm_deadline (st_timer s) = Some 5) && (tm_d (st_timer s) =? 5) && bool_decide (tm_pending (st_timer s) = 0%nat) &&
  none (st_queue s).
Lemma fl_ok_run (x : outcome (tkstate * list tmsg)) : match x with Ret (s, _) => fl_ok s | _ => false end = true -> exists s o, x = Ret (s, o) /\ fl_ok s = true.
Proof. destruct x as [[s o]| |]; [eauto|discriminate|discriminate]. Qed.
Lemma fl_ok_spec s : fl_ok s = true -> @acceptable toy_group tkround tkg s (share_msg 7) /\ sorted (r_ids tkg (st_round s)) /\ List.NoDup (st_accepted s) /\
  In (m_Type (share_msg 7)) (tl (st_accepted s)) /\ tm_d (st_timer s) = 5 /\ tm_deadline (st_timer s) = Some 5 /\ tm_pending (st_timer s) = 0%nat /\ st_queue s = [] /\ st_received s = ∅.
Proof.
  unfold fl_ok. rewrite !andb_true_iff, negb_true_iff, !bool_decide_eq_true, !Z.eqb_eq. intros ((((((((D & E1) & E2) & E3) & E4) & E5) & E6) & E7) & E8).
  assert (st_received s = ∅) as ER. { apply map_to_list_empty_iff. destruct (map_to_list (st_received s)); [reflexivity|discriminate]. }
  assert (st_queue s = []) as EQ by (destruct (st_queue s); [reflexivity|discriminate]).
  rewrite E1, E3, ER. split. { split; auto; [split; rewrite ?E1, ?E2; cbn; auto; lia|now rewrite ER, lookup_empty|rewrite E3; right; now left]. }
  split; [repeat constructor; unfold k3; lia|]. split; [repeat constructor; cbn; unfold MTKeyGen1, MTKeyGen2; lia|]. split; [now left|]. auto 10.
Qed.
Theorem C49_unbounded_refuted : forall k : nat, exists s out, tk_run (tk_new k3 1 1 5) (prc :: @flood toy_group (share_msg 7) 0 4 k) = Ret (s, out) /\
  List.length (st_queue s) = k /\ st_received s = ∅ /\ st_done s = false /\ tm_deadline (st_timer s) = Some (Z.of_nat k * 4 + 5).
Proof.
  intros k. destruct (fl_ok_run (tk_run (tk_new k3 1 1 5) [prc])) as (s & o & E & H); [vm_compute; reflexivity|].
  destruct (fl_ok_spec s H) as (A & B & C & D & F & G & J & L & M).
  destruct (@C49_flood toy_group tkround tkg k (share_msg 7) 0 4 5 s A B C D F ltac:(lia) G J) as (s' & R1 & R2 & R3 & R4 & R5 & _).
  exists s', o. unfold tk_run in *. destruct (tk_new k3 1 1 5) as [s0| |]; [|discriminate|discriminate]. cbn [obind] in *.
  change (prc :: flood (share_msg 7) 0 4 k) with ([prc] ++ flood (share_msg 7) 0 4 k). rewrite run_app, E. cbn [obind fst snd]. rewrite R1. cbn [obind fst snd]. rewrite app_nil_r.
  split; [reflexivity|]. rewrite R2, L, R4, R5. split; [apply repeat_length|]. split; [exact M|]. split; [exact R3|reflexivity].
Qed.
(** A case of the bounds: a message of 2 for the second round is queued and 3's for the first is stored. *)
Lemma example_run (x : outcome tkstate) es : match obind x (fun s0 => @run toy_group tkround tkg s0 es) with Ret (s, _) => negb (st_done s) && (List.length (st_queue s) =? 1)%nat && (size (st_received s) =? 1)%nat | _ => false end = true ->
  exists s0 s out, x = Ret s0 /\ @run toy_group tkround tkg s0 es = Ret (s, out) /\ st_done s = false /\ List.length (st_queue s) = 1%nat /\ size (st_received s) = 1%nat.
Proof.
  destruct x as [s0| |]; cbn [obind]; [|discriminate|discriminate]. destruct (@run toy_group tkround tkg s0 es) as [[s out]| |] eqn:E; [|discriminate|discriminate].
  rewrite !andb_true_iff, negb_true_iff, !Nat.eqb_eq. intros ((H1 & H2) & H3). exists s0, s, out. auto.
Qed.
Example C49_example : exists s0 l s, tk_new k3 1 1 5 = Ret s0 /\ @takes toy_group tkround tkg s0 (prc :: hnd (to1 (kg2_of 2)) ++ hnd (kg1_of 3)) l s /\
  st_done s = false /\ List.length (st_queue s) = 1%nat /\ size (st_received s) = 1%nat.
Proof.
  destruct (example_run (tk_new k3 1 1 5) (prc :: hnd (to1 (kg2_of 2)) ++ hnd (kg1_of 3))) as (s0 & s & out & E1 & E2 & E3 & E4 & E5); [vm_compute; reflexivity|].
  destruct (@takes_exist toy_group tkround tkg _ s0 s out E2) as (l & Hl). exists s0, l, s. auto.
Qed.

Print Assumptions C16_last.
Print Assumptions C49_memory.
Print Assumptions C49_ends.
Print Assumptions C49_flood.
Print Assumptions C49_protocols.
Print Assumptions C49_unbounded_refuted.
