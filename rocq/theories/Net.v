(** Several States of one protocol exchanging messages over an unreliable network. *)
From Coq Require Import ZArith Lia List Bool.
From stdpp Require Import base gmap list.
From Verif Require Import ZField Primes Go Group Party Zk Messages CodecFacts State StateFacts Spec_State Lift.
Import ListNotations.
Local Open Scope Z_scope.

Section Net.
  Context `{Gr : group_ops} {R : Type} (I : RoundI R).

  (** A configuration: the State of every party and all messages emitted so far. *)
  Record config := mkConfig { cf_state : Z -> State R; cf_sent : list Message }.
  Definition cf_set (c : config) (i : Z) (s : State R) (o : list Message) : config :=
    mkConfig (fun j => if j =? i then s else cf_state c j) (cf_sent c ++ o).

  (** The message delivered for [m]: [m] itself, or another object that the code's own Equal finds equal to it, such as
      the result of marshalling and unmarshalling it (theorem C20; group elements change representation on the way). *)
  Definition same_msg (m m' : Message) : Prop := m' = m \/ msg_Equal m m' = true.

  (** One step: some party's State makes a step of its own; a message it is given was emitted before by somebody.
      Messages may be delivered in any order, several times, late, or never; parties may call ProcessAll at any time. *)
  Inductive net_step (ids : list Z) (c : config) : config -> Prop :=
  | net_one i e s' o : In i ids -> (forall now m, e = EHandle now m -> exists m0, In m0 (cf_sent c) /\ same_msg m0 m) ->
      step I (cf_state c i) e = Ret (s', o) -> net_step ids c (cf_set c i s' o).
  Inductive net_reach (ids : list Z) (c0 : config) : config -> Prop :=
  | net_refl : net_reach ids c0 c0
  | net_trans c c' : net_reach ids c0 c -> net_step ids c c' -> net_reach ids c0 c'.

  (** Every party's part of a network execution is a run of its own. *)
  Lemma net_local ids s0 c : net_reach ids (mkConfig s0 []) c ->
    (forall m, In m (cf_sent c) -> exists i es s out, In i ids /\ run I (s0 i) es = Ret (s, out) /\ In m out /\
        (forall now m', In (EHandle now m') es -> exists m0, In m0 (cf_sent c) /\ same_msg m0 m')) /\
    forall i, exists es out, run I (s0 i) es = Ret (cf_state c i, out) /\ (forall now m, In (EHandle now m) es -> exists m0, In m0 (cf_sent c) /\ same_msg m0 m) /\
      (forall m, In m out -> In m (cf_sent c)).
  Proof.
    induction 1 as [|c c' HR [IH1 IH2] HS].
    - split; [intros m []|]. intros i. exists [], []. cbn. repeat split; auto; contradiction.
    - destruct HS as [i e s' o Hi He E]. cbn [cf_set cf_sent cf_state].
      destruct (IH2 i) as (es & out & E1 & H1 & H2).
      assert (run I (s0 i) (es ++ [e]) = Ret (s', out ++ o)) as E2.
      { rewrite run_app, E1. cbn [obind fst snd run]. rewrite E. cbn. now rewrite app_nil_r. }
      assert (forall now m, In (EHandle now m) (es ++ [e]) -> exists m0, In m0 (cf_sent c ++ o) /\ same_msg m0 m) as H3.
      { intros nw m Hin. assert (exists m0, In m0 (cf_sent c) /\ same_msg m0 m) as (m0 & A & B) by (apply in_app_iff in Hin as [Hin|[Hin|[]]]; eauto).
        exists m0. split; auto. apply in_app_iff. auto. }
      split.
      + intros m Hm. apply in_app_iff in Hm as [Hm|Hm].
        * destruct (IH1 m Hm) as (j & es' & s & out' & A & B & C & D). exists j, es', s, out'. repeat split; auto.
          intros nw m' Hin. destruct (D nw m' Hin) as (m0 & X & Y). exists m0. split; auto. apply in_app_iff. auto.
        * exists i, (es ++ [e]), s', (out ++ o). repeat split; auto. apply in_app_iff. auto.
      + intros j. destruct (Z.eqb_spec j i) as [->|Hne].
        * exists (es ++ [e]), (out ++ o). repeat split; auto. intros m Hm. apply in_app_iff in Hm as [Hm|Hm]; apply in_app_iff; auto.
        * destruct (IH2 j) as (es' & out' & A & B & C). exists es', out'. repeat split; auto.
          -- intros nw m Hin. destruct (B nw m Hin) as (m0 & X & Y). exists m0. split; auto. apply in_app_iff. auto.
          -- intros m Hin. apply in_app_iff. auto.
  Qed.

  (** If runs given messages of a set W only emit messages of a set U, and W has all objects equal to those of U, then every message
      of the network is in U and every one delivered is in W. *)
  Lemma net_closed (U W : Message -> Prop) ids s0 c : (forall m m', U m -> same_msg m m' -> W m') ->
    (forall i es s out, In i ids -> Forall (event_ok W) es -> run I (s0 i) es = Ret (s, out) -> Forall U out) ->
    net_reach ids (mkConfig s0 []) c -> Forall U (cf_sent c).
  Proof.
    intros HUW HW. induction 1 as [|c c' HR IH HS]; [constructor|].
    destruct HS as [i e s' o Hi He E]. cbn [cf_set cf_sent]. destruct (net_local _ _ _ HR) as [_ H2].
    destruct (H2 i) as (es & out & E1 & H1 & _). apply Forall_app. split; auto.
    assert (Forall U (out ++ o)) as X.
    { eapply (HW i (es ++ [e])); auto.
      - apply List.Forall_forall. intros [nw m| | |] Hin; cbn; auto. rewrite List.Forall_forall in IH.
        assert (exists m0, In m0 (cf_sent c) /\ same_msg m0 m) as (m0 & A & B) by (apply in_app_iff in Hin as [Hin|[Hin|[]]]; eauto). eauto.
      - rewrite run_app, E1. cbn [obind fst snd run]. rewrite E. cbn. now rewrite app_nil_r. }
    apply Forall_app in X. apply X.
  Qed.
  Lemma net_local_W (U W : Message -> Prop) ids s0 c : (forall m m', U m -> same_msg m m' -> W m') ->
    (forall i es s out, In i ids -> Forall (event_ok W) es -> run I (s0 i) es = Ret (s, out) -> Forall U out) ->
    net_reach ids (mkConfig s0 []) c -> forall i, exists es out, Forall (event_ok W) es /\ run I (s0 i) es = Ret (cf_state c i, out).
  Proof.
    intros HUW HW HR i. pose proof (net_closed U W ids s0 c HUW HW HR) as HF. destruct (net_local _ _ _ HR) as [_ H2].
    destruct (H2 i) as (es & out & E1 & H1 & _). exists es, out. split; auto.
    apply List.Forall_forall. intros [nw m| | |] Hin; cbn; auto. rewrite List.Forall_forall in HF. destruct (H1 nw m Hin) as (m0 & A & B). eauto.
  Qed.

  (** ** Executable form, for concrete executions *)
  (** Deliver the k-th message sent so far to a party, or let a party call ProcessAll. *)
  Inductive act := ADeliver (i : Z) (k : nat) | AProcess (i : Z).
  Definition net_do (ids : list Z) (c : config) (a : act) : option config :=
    match a with
    | ADeliver i k =>
      match nth_error (cf_sent c) k with
      | Some m => if existsb (Z.eqb i) ids then match step I (cf_state c i) (EHandle 0 m) with Ret (s', o) => Some (cf_set c i s' o) | _ => None end else None
      | None => None
      end
    | AProcess i => if existsb (Z.eqb i) ids then match step I (cf_state c i) (EProcess [] []) with Ret (s', o) => Some (cf_set c i s' o) | _ => None end else None
    end.
  Fixpoint net_exec (ids : list Z) (c : config) (l : list act) : option config :=
    match l with [] => Some c | a :: l' => match net_do ids c a with Some c' => net_exec ids c' l' | None => None end end.
  Lemma net_exec_reach ids c0 : forall l c c', net_reach ids c0 c -> net_exec ids c l = Some c' -> net_reach ids c0 c'.
  Proof.
    induction l as [|a l IH]; cbn [net_exec]; intros c c' HR E; [now inversion E; subst|].
    destruct (net_do ids c a) as [c1|] eqn:E1; [|discriminate]. apply (IH c1); auto. eapply net_trans; [exact HR|].
    destruct a as [i k|i]; cbn [net_do] in E1.
    - destruct (nth_error (cf_sent c) k) as [m|] eqn:Em; [|discriminate].
      destruct (existsb (Z.eqb i) ids) eqn:Ei; [|discriminate]. apply existsb_exists in Ei as (x & Hx & Ex). apply Z.eqb_eq in Ex. subst x.
      destruct (step I (cf_state c i) (EHandle 0 m)) as [[s' o]| |] eqn:Es; try discriminate. inversion E1; subst.
      eapply net_one; eauto. intros nw m' Hm. inversion Hm; subst. exists m'. split; [eapply nth_error_In; eauto|now left].
    - destruct (existsb (Z.eqb i) ids) eqn:Ei; [|discriminate]. apply existsb_exists in Ei as (x & Hx & Ex). apply Z.eqb_eq in Ex. subst x.
      destruct (step I (cf_state c i) (EProcess [] [])) as [[s' o]| |] eqn:Es; try discriminate. inversion E1; subst.
      eapply net_one; eauto. discriminate.
  Qed.
End Net.

(** What [same_msg] says of the four kinds of messages. *)
Section Same.
  Context `{L : group_laws}.
  Lemma same_refl m : same_msg m m. Proof. now left. Qed.
  Lemma same_header m m' : same_msg m m' -> m_Header m' = m_Header m.
  Proof.
    intros [->|H]; auto. unfold msg_Equal in H. apply andb_true_iff in H as [H _]. unfold header_equal in H.
    rewrite !andb_true_iff, !Z.eqb_eq in H. destruct (m_Header m), (m_Header m'); cbn in *. destruct H as [[-> ->] ->]. reflexivity.
  Qed.
  Lemma same_type m m' : same_msg m m' -> m_Type m' = m_Type m.
  Proof. intros H. unfold m_Type. now rewrite (same_header _ _ H). Qed.
  Lemma same_from m m' : same_msg m m' -> m_From m' = m_From m.
  Proof. intros H. unfold m_From. now rewrite (same_header _ _ H). Qed.
  Lemma same_to m m' : same_msg m m' -> m_To m' = m_To m.
  Proof. intros H. unfold m_To. now rewrite (same_header _ _ H). Qed.
  Lemma oequal_some {A} (f : A -> A -> bool) x y a : oequal f x y = true -> x = Some a -> exists b, y = Some b /\ f a b = true.
  Proof. intros H ->. destruct y as [b|]; [|discriminate]. eauto. Qed.

  Lemma same_k1 m m' b : same_msg m m' -> m_Type m = MTKeyGen1 -> m_KeyGen1 m = Some b ->
    exists b', m_KeyGen1 m' = Some b' /\ k1_Proof b' = k1_Proof b /\ Forall2 geq (k1_Commitments b') (k1_Commitments b).
  Proof.
    intros [->|H] Ht Hb.
    - exists b. split; auto. split; auto. induction (k1_Commitments b); constructor; auto. reflexivity.
    - unfold msg_Equal in H. rewrite Ht, Z.eqb_refl in H. apply andb_true_iff in H as [_ H]. destruct (oequal_some _ _ _ _ H Hb) as (b' & E1 & E2).
      exists b'. split; auto. unfold k1_equal in E2. apply andb_true_iff in E2 as [E2 E3]. apply exp_equal_iff in E3. split; auto.
      unfold schnorr_equal in E2. rewrite andb_true_iff, !feqb_eq in E2. destruct (k1_Proof b), (k1_Proof b'); cbn in *. now destruct E2 as [-> ->].
  Qed.
  Lemma same_k2 m m' b : same_msg m m' -> m_Type m = MTKeyGen2 -> m_KeyGen2 m = Some b -> m_KeyGen2 m' = Some b.
  Proof.
    intros [->|H] Ht Hb; auto. unfold msg_Equal in H. rewrite Ht in H. change (MTKeyGen2 =? MTKeyGen1) with false in H. rewrite Z.eqb_refl in H.
    apply andb_true_iff in H as [_ H]. destruct (oequal_some _ _ _ _ H Hb) as (b' & E1 & E2). rewrite E1. f_equal.
    unfold k2_equal in E2. apply feqb_eq in E2. destruct b, b'; cbn in *. congruence.
  Qed.
  Lemma same_s1 m m' b : same_msg m m' -> m_Type m = MTSign1 -> m_Sign1 m = Some b ->
    exists b', m_Sign1 m' = Some b' /\ geq (s1_Di b') (s1_Di b) /\ geq (s1_Ei b') (s1_Ei b).
  Proof.
    intros [->|H] Ht Hb.
    - exists b. split; auto. split; reflexivity.
    - unfold msg_Equal in H. rewrite Ht in H. change (MTSign1 =? MTKeyGen1) with false in H. change (MTSign1 =? MTKeyGen2) with false in H. rewrite Z.eqb_refl in H.
      apply andb_true_iff in H as [_ H]. destruct (oequal_some _ _ _ _ H Hb) as (b' & E1 & E2). exists b'. split; auto.
      unfold s1_equal in E2. apply andb_true_iff in E2. exact E2.
  Qed.
  Lemma same_s2 m m' b : same_msg m m' -> m_Type m = MTSign2 -> m_Sign2 m = Some b -> m_Sign2 m' = Some b.
  Proof.
    intros [->|H] Ht Hb; auto. unfold msg_Equal in H. rewrite Ht in H. change (MTSign2 =? MTKeyGen1) with false in H.
    change (MTSign2 =? MTKeyGen2) with false in H. change (MTSign2 =? MTSign1) with false in H. rewrite Z.eqb_refl in H.
    apply andb_true_iff in H as [_ H]. destruct (oequal_some _ _ _ _ H Hb) as (b' & E1 & E2). rewrite E1. f_equal.
    unfold s2_equal in E2. apply feqb_eq in E2. destruct b, b'; cbn in *. congruence.
  Qed.
End Same.
