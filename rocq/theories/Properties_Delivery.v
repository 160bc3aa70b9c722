(** C56: the order in which the messages of different senders are delivered does not influence the outcome. *)
From Coq Require Import ZArith Lia List Bool String Permutation.
From Coq.Strings Require Import Byte.
From stdpp Require Import base gmap list fin_maps.
From Verif Require Import ZField Primes Bytes Scalar Go Group ToyGroup Party Poly Zk Eddsa Messages State StateFacts Spec_State
  Keygen Sign RoundFacts Lift Spec_Poly Spec_Sign Spec_SignRun Spec_Keygen SignFacts SignRun KeygenFacts KeygenRun
  Properties_Sign Properties_Keygen ToyRuns Properties_Order.
Import ListNotations.
Local Open Scope Z_scope.

(** ** Specification *)
(** A delivery: the messages handed to HandleMessage, each with the time of the call. *)
Definition delivery `{Gr : group_ops} := list (Z * Message).
(** What sender [i] sent, in the order of delivery. *)
Definition of_sender `{Gr : group_ops} (i : Z) (l : delivery) : list Message := List.filter (fun m => m_From m =? i) (map snd l).
Definition delivered `{Gr : group_ops} (l : delivery) : list event := map (fun x => EHandle (fst x) (snd x)) l.
(** Two histories with the same calls in which each batch of deliveries contains, for each sender, the same messages in the
    same order; the interleaving of the senders, the times and the iteration order of maps are free. *)
Inductive same_delivery `{Gr : group_ops} : list event -> list event -> Prop :=
| sd_nil : same_delivery [] []
| sd_batch l l' es es' : (forall i, of_sender i l = of_sender i l') -> same_delivery es es' -> same_delivery (delivered l ++ es) (delivered l' ++ es')
| sd_call e e' es es' : (match e with EHandle _ _ => False | _ => True end) -> same_call e e' -> same_delivery es es' -> same_delivery (e :: es) (e' :: es').
Definition never_expires `{Gr : group_ops} (es : list event) : Prop := Forall (fun e => match e with EExpire _ => False | _ => True end) es.

Section Delivery.
  Context `{Gr : group_ops} {R : Type} (I : RoundI R).
  Notation fi i := (List.filter (fun m : Message => m_From m =? i)).

  Record static (s s' : State R) : Prop := {
    w_acc : st_accepted s = st_accepted s'; w_no : st_roundNumber s = st_roundNumber s'; w_round : st_round s = st_round s';
    w_cl : st_closed s = st_closed s'; w_done : st_done s = st_done s'; w_err : st_err s = st_err s'; }.
  Definition comp (s : State R) (i : Z) := (st_received s !! i, fi i (st_queue s)).

  Lemma static_refl s : static s s. Proof. now split. Qed.
  Lemma static_trans a b c : static a b -> static b c -> static a c. Proof. intros [] []. split; congruence. Qed.
  Lemma static_sym a b : static a b -> static b a. Proof. intros []. split; congruence. Qed.

  Ltac proj := cbn [st_accepted st_received st_queue st_timer st_roundNumber st_closed st_done st_err st_round set_round fst snd].
  Lemma handle_static now s m : static s (fst (HandleMessage I now s m)).
  Proof.
    unfold HandleMessage. cbv zeta. destruct (st_done s) eqn:D; [apply static_refl|]. destruct (st_accepted s) eqn:EA; [apply static_refl|].
    repeat match goal with |- context [if ?b then _ else _] => destruct b; try apply static_refl | |- context [match ?b with Some _ => _ | None => _ end] => destruct b; try apply static_refl end;
    split; proj; auto.
  Qed.
  Lemma handle_other now s m i : m_From m <> i -> comp (fst (HandleMessage I now s m)) i = comp s i.
  Proof.
    intros Hn. unfold HandleMessage. cbv zeta. destruct (st_done s) eqn:D; [auto|]. destruct (st_accepted s) eqn:EA; [auto|].
    repeat match goal with |- context [if ?b then _ else _] => destruct b; auto | |- context [match ?b with Some _ => _ | None => _ end] => destruct b; auto end;
    unfold comp; proj; [now rewrite lookup_insert_ne by auto|]. rewrite List.filter_app. cbn [List.filter]. destruct (Z.eqb_spec (m_From m) i); [contradiction|]. now rewrite app_nil_r.
  Qed.
  Lemma handle_own now now' s s' m : static s s' -> comp s (m_From m) = comp s' (m_From m) ->
    comp (fst (HandleMessage I now s m)) (m_From m) = comp (fst (HandleMessage I now' s' m)) (m_From m) /\
    snd (HandleMessage I now s m) = snd (HandleMessage I now' s' m).
  Proof.
    intros [A1 A2 A3 A4 A5 A6] H. pose proof H as H0. unfold comp in H0. apply pair_equal_spec in H0 as [HR HQ].
    unfold HandleMessage. cbv zeta. unfold isAcceptedType, wrapError. rewrite <- A1, <- A2, <- A3, <- A5, <- HR.
    destruct (st_done s); [auto|]. destruct (st_accepted s) as [|ct tl]; [auto|].
    repeat match goal with |- context [if ?b then _ else _] => destruct b; auto | |- context [match ?b with Some _ => _ | None => _ end] => destruct b; auto end;
    unfold comp; proj; (split; [|auto]); unfold comp in H; apply pair_equal_spec in H as [HR2 HQ2]; [rewrite !lookup_insert, HQ2; auto|]. now rewrite !List.filter_app, HQ2, HR2.
  Qed.

  Definition handle_all (s : State R) (l : delivery) : State R := fold_left (fun s x => fst (HandleMessage I (fst x) s (snd x))) l s.
  Lemma handle_all_static l : forall s, static s (handle_all s l).
  Proof. induction l as [|x l IH]; intros s; cbn; [apply static_refl|]. eapply static_trans; [apply handle_static|apply IH]. Qed.
  Lemma handle_all_comp i l : forall s s', static s s' -> comp s i = comp s' i ->
    comp (handle_all s l) i = comp (handle_all s' (map (fun m => (0, m)) (of_sender i l))) i.
  Proof.
    induction l as [|[nw m] l IH]; intros s s' HS HC; cbn [handle_all fold_left map of_sender List.filter]; auto. unfold of_sender. cbn [map List.filter fst snd].
    destruct (Z.eqb_spec (m_From m) i) as [<-|Hn].
    - cbn [map handle_all fold_left fst snd]. apply IH.
      + eapply static_trans; [apply static_sym, handle_static|]. eapply static_trans; [exact HS|apply handle_static].
      + now apply handle_own.
    - apply IH; [|now rewrite handle_other]. eapply static_trans; [apply static_sym, handle_static|exact HS].
  Qed.

  (** *** The answers HandleMessage gives *)
  Fixpoint answers (s : State R) (l : delivery) : list (Message * option WrappedError) :=
    match l with
    | [] => []
    | x :: l' => let r := HandleMessage I (fst x) s (snd x) in (snd x, snd r) :: answers (fst r) l'
    end.
  Definition answers_to (i : Z) (a : list (Message * option WrappedError)) := List.filter (fun x => m_From (fst x) =? i) a.
  Lemma answers_comp i l : forall s s', static s s' -> comp s i = comp s' i ->
    answers_to i (answers s l) = answers s' (map (fun m => (0, m)) (of_sender i l)).
  Proof.
    induction l as [|[nw m] l IH]; intros s s' HS HC; auto. unfold of_sender, answers_to. cbn [answers map List.filter fst snd].
    destruct (Z.eqb_spec (m_From m) i) as [<-|Hn].
    - cbn [map answers fst snd]. destruct (handle_own nw 0 s s' m HS HC) as [E1 E2]. f_equal; [now rewrite E2|]. apply IH; auto.
      eapply static_trans; [apply static_sym, handle_static|]. eapply static_trans; [exact HS|apply handle_static].
    - apply IH; [|now rewrite handle_other]. eapply static_trans; [apply static_sym, handle_static|exact HS].
  Qed.
  (** Each sender's messages get the same answers, whatever the interleaving. *)
  Theorem C56_answers : forall s l l' i, (forall j, of_sender j l = of_sender j l') -> answers_to i (answers s l) = answers_to i (answers s l').
  Proof. intros s l l' i H. rewrite !(answers_comp i _ s s) by (auto using static_refl). now rewrite H. Qed.

  (** *** Histories *)
  Section Hist.
    Context (b : bool).  (* the timer is disabled *)
    Definition quiet (t : timer) : Prop := tm_pending t = 0%nat /\ (b = true -> tm_d t <= 0 /\ tm_deadline t = None).
    Record wk (s s' : State R) : Prop := { wk_s : static s s'; wk_c : forall i, comp s i = comp s' i; wk_t : quiet (st_timer s); wk_t' : quiet (st_timer s') }.

    Lemma wk_received s s' : wk s s' -> st_received s = st_received s'.
    Proof. intros [_ H _ _]. apply map_eq. intros i. specialize (H i). unfold comp in H. congruence. Qed.
    Lemma handle_quiet now s m : quiet (st_timer s) -> quiet (st_timer (fst (HandleMessage I now s m))).
    Proof.
      intros H. assert (quiet (ackMessage now (st_timer s))) as HA.
      { unfold ackMessage. destruct (Z.ltb_spec 0 (tm_d (st_timer s))); auto. destruct H as [H1 H2]. split; auto. intros Hb. destruct (H2 Hb). lia. }
      unfold HandleMessage. cbv zeta. destruct (st_done s); [auto|]. destruct (st_accepted s); [auto|].
      repeat match goal with |- context [if ?c then _ else _] => destruct c; auto | |- context [match ?c with Some _ => _ | None => _ end] => destruct c; auto end.
    Qed.
    Lemma handle_all_quiet l : forall s, quiet (st_timer s) -> quiet (st_timer (handle_all s l)).
    Proof. induction l as [|x l IH]; intros s H; cbn; auto. apply IH. now apply handle_quiet. Qed.
    Lemma wk_batch s s' l l' : wk s s' -> (forall i, of_sender i l = of_sender i l') -> wk (handle_all s l) (handle_all s' l').
    Proof.
      intros [H1 H2 H3 H4] HL. split; auto using handle_all_quiet.
      - eapply static_trans; [apply static_sym, handle_all_static|]. eapply static_trans; [exact H1|apply handle_all_static].
      - intros i. rewrite (handle_all_comp i l s s') by auto. rewrite (handle_all_comp i l' s' s') by (auto using static_refl). now rewrite HL.
    Qed.
    Lemma run_delivered l es : forall s, run I s (delivered l ++ es) = run I (handle_all s l) es.
    Proof.
      induction l as [|x l IH]; intros s; cbn [delivered map app handle_all fold_left]; auto. cbn [run step obind fst snd]. setoid_rewrite IH. unfold handle_all.
      destruct (run I _ es) as [[t m]|?|?]; reflexivity.
    Qed.
    Lemma take_comp ct q q' : (forall i, fi i q = fi i q') -> take_queue ct q ∅ = take_queue ct q' ∅ \/
      (fst (take_queue ct q ∅) = fst (take_queue ct q' ∅) /\ forall i, fi i (snd (take_queue ct q ∅)) = fi i (snd (take_queue ct q' ∅))).
    Proof.
      intros H. right. unfold take_queue. cbn [fst snd]. split.
      - assert (forall i l (r r' : gmap Z (option Message)), r !! i = r' !! i ->
          fold_left (fun m msg => if m_Type msg =? ct then <[m_From msg := Some msg]> m else m) l r !! i =
          fold_left (fun m msg => if m_Type msg =? ct then <[m_From msg := Some msg]> m else m) (fi i l) r' !! i) as X.
        { intros i. induction l as [|m l IH]; intros r r' E; cbn [fold_left List.filter]; auto. destruct (Z.eqb_spec (m_From m) i) as [<-|Hn].
          - cbn [fold_left]. apply IH. destruct (_ =? _); auto. now rewrite !lookup_insert.
          - apply IH. destruct (_ =? _); auto. now rewrite lookup_insert_ne by auto. }
        apply map_eq. intros i. rewrite (X i q ∅ ∅), (X i q' ∅ ∅), (H i) by auto. reflexivity.
      - intros i. assert (forall l, fi i (List.filter (fun msg => negb (m_Type msg =? ct)) l) = List.filter (fun msg => negb (m_Type msg =? ct)) (fi i l)) as X.
        { induction l as [|m l IH]; cbn; auto. destruct (negb _) eqn:E1; destruct (m_From m =? i) eqn:E2; cbn; rewrite ?E1, ?E2, ?IH; auto. }
        now rewrite !X, H.
    Qed.
    Definition wrel (x y : outcome (State R * list Message)) : Prop :=
      match x, y with Ret (t, m), Ret (t', m') => wk t t' /\ m = m' | Panics w, Panics w' => w = w' | Fail w, Fail w' => w = w' | _, _ => False end.
    Definition wfrel (x y : outcome (State R)) : Prop :=
      match x, y with Ret t, Ret t' => wk t t' | Panics w, Panics w' => w = w' | Fail w, Fail w' => w = w' | _, _ => False end.

    Lemma quiet_stop t : quiet t -> quiet (stopTimer t).
    Proof. intros [H1 H2]. split; auto. intros Hb. destruct (H2 Hb). auto. Qed.
    Lemma wk_finish s s' : wk s s' -> wfrel (finish I s) (finish I s').
    Proof.
      intros H. pose proof H as [[A1 A2 A3 A4 A5 A6] HC Q1 Q2]. unfold finish. rewrite <- A5, <- A3, <- A4. destruct (st_done s); [exact H|].
      destruct (r_reset I (st_round s)); cbn [obind wfrel]; auto. destruct (st_closed s); cbn [wfrel]; auto. split; proj; auto using quiet_stop. split; proj; auto.
    Qed.
    Lemma wk_report s s' c tx : wk s s' -> wfrel (reportError I s c tx) (reportError I s' c tx).
    Proof.
      intros H. pose proof H as [[A1 A2 A3 A4 A5 A6] HC Q1 Q2]. unfold reportError. rewrite <- A5. destruct (st_done s) eqn:D; [exact H|]. apply wk_finish. split; proj; auto.
      split; proj; auto; now rewrite ?A6, ?A2.
    Qed.
    Lemma wk_process s s' o1 o2 : wk s s' -> wrel (ProcessAll I o1 o2 s) (ProcessAll I o1 o2 s').
    Proof.
      intros H. pose proof H as [[A1 A2 A3 A4 A5 A6] HC Q1 Q2]. pose proof (wk_received _ _ H) as ER. unfold ProcessAll. rewrite <- A5, <- A3, <- ER. destruct (st_done s) eqn:D; [cbn; auto|].
      destruct (negb _); [cbn; auto|]. destruct (process_loop I _ _ _) as [r1 u|r1 c tx|w]; [| |reflexivity].
      2:{ assert (wfrel (reportError I (set_round s r1) c tx) (reportError I (set_round s' r1) c tx)) as HF. { apply wk_report. split; proj; auto. split; proj; auto. congruence. }
          destruct (reportError I (set_round s r1) c tx), (reportError I (set_round s' r1) c tx); cbn [wfrel] in HF; try contradiction; cbn [obind wrel]; auto. }
      destruct (r_generate I o2 r1) as [r2 ms|r2 c tx|w]; [| |reflexivity].
      2:{ match goal with |- wrel (obind ?a _) (obind ?a' _) => assert (wfrel a a') as HF end.
          { apply wk_report. split; proj; auto. split; proj; auto. intros i. specialize (HC i). unfold comp in *. proj. congruence. }
          destruct (reportError I _ c tx), (reportError I _ c tx); cbn [wfrel] in HF; try contradiction; cbn [obind wrel]; auto. }
      rewrite <- A1. destruct (st_accepted s) as [|a acc]; [reflexivity|].
      set (x := match acc with [] => (∅, st_queue s) | ct :: _ => take_queue ct (st_queue s) ∅ end). set (x' := match acc with [] => (∅, st_queue s') | ct :: _ => take_queue ct (st_queue s') ∅ end).
      assert (fst x = fst x' /\ forall i, fi i (snd x) = fi i (snd x')) as [X1 X2].
      { assert (forall i, fi i (st_queue s) = fi i (st_queue s')) as HQ by (intros i; specialize (HC i); unfold comp in HC; congruence).
        unfold x, x'. destruct acc as [|ct acc]; [split; auto|]. destruct (take_comp ct _ _ HQ) as [E|E]; [rewrite E; auto|exact E]. }
      destruct x as [rc qu], x' as [rc' qu']. cbn [fst snd] in X1, X2. subst rc'. destruct (r_next I r2) as [nr|].
      - cbn [wrel]. split; auto. split; proj; auto; [split; proj; auto; congruence|]. intros i. unfold comp. proj. now rewrite X2.
      - match goal with |- wrel (obind ?a _) (obind ?a' _) => assert (wfrel a a') as HF end.
        { apply wk_finish. split; proj; auto; [split; proj; auto; congruence|]. intros i. unfold comp. proj. now rewrite X2. }
        destruct (finish I _), (finish I _); cbn [wfrel] in HF; try contradiction; cbn [obind wrel]; auto.
    Qed.
    Lemma wk_step s s' e : (match e with EHandle _ _ => False | EExpire _ => b = true | _ => True end) -> wk s s' -> wrel (step I s e) (step I s' e).
    Proof.
      intros He H. destruct e as [nw m|o1 o2|nw|]; cbn [step]; [contradiction|now apply wk_process| |].
      - cbn [wrel]. split; auto. assert (forall x : State R, quiet (st_timer x) -> timerExpire nw x = x) as X.
        { intros x [_ Hx]. destruct (Hx He) as [_ E]. unfold timerExpire. now rewrite E. }
        rewrite (X s), (X s') by apply H. exact H.
      - unfold timerCallback. destruct H as [H1 H2 [Q1 Q2] [Q3 Q4]]. rewrite Q1, Q3. cbn [obind wrel]. split; auto. split; auto; split; auto.
    Qed.

    (** The same deliveries, with the map orders of the first history. *)
    Lemma split_delivery es es' : same_delivery es es' -> (b = true \/ never_expires es) ->
      exists es1, Forall2 same_call es1 es' /\ forall s s', wk s s' -> wrel (run I s es) (run I s' es1).
    Proof.
      induction 1 as [|l l' es es' HL HD IH|e e' es es' He HC HD IH]; intros Hb.
      - exists []. split; auto. intros s s' H. cbn. auto.
      - destruct IH as (es1 & HS & HW). { destruct Hb as [Hb|Hb]; auto. right. unfold never_expires in *. now apply Forall_app in Hb as [_ Hb]. }
        exists (delivered l' ++ es1). split; [apply Forall2_app; auto; apply same_calls_refl|]. intros s s' H. rewrite !run_delivered. apply HW. now apply wk_batch.
      - destruct IH as (es1 & HS & HW). { destruct Hb as [Hb|Hb]; auto. right. unfold never_expires in *. now inversion Hb. }
        exists (e :: es1). split; [constructor; auto|]. intros s s' H. cbn [run].
        assert (wrel (step I s e) (step I s' e)) as X.
        { apply wk_step; auto. destruct e; auto. destruct Hb as [Hb|Hb]; auto. inversion Hb; contradiction. }
        destruct (step I s e) as [[t m]|?|?], (step I s' e) as [[t' m']|?|?]; cbn [wrel] in X; try contradiction; cbn [obind fst snd]; auto.
        destruct X as [X <-]. specialize (HW _ _ X). destruct (run I t es) as [[t2 m2]|?|?], (run I t' es1) as [[t2' m2']|?|?]; cbn [wrel] in HW; try contradiction; cbn [obind fst snd wrel]; auto.
        destruct HW as [HW <-]. auto.
    Qed.
  End Hist.
  Lemma wk_init now t r : wk (t <=? 0) (NewBaseState I now t r) (NewBaseState I now t r).
  Proof.
    assert (quiet (t <=? 0) (newTimer now t)) as Q.
    { unfold newTimer. split; auto. cbn. intros Ht. apply Z.leb_le in Ht. destruct (Z.ltb_spec 0 t); [lia|auto]. }
    split; auto using static_refl.
  Qed.
  Lemma wk_init' now t r : wk false (NewBaseState I now t r) (NewBaseState I now t r).
  Proof. assert (quiet false (newTimer now t)) as Q by (split; [reflexivity|discriminate]). split; auto using static_refl. Qed.
End Delivery.

Section Protocols.
  Context `{Gr : group_ops} `{L : !group_laws Gr} `{Hf : hash_fn}.

  (** What the caller of a State sees: messages to send, status, error (round and text), output; or a panic. *)
  Definition agree {R O} (output : State R -> O) (same : O -> O -> Prop) (x y : outcome (State R * list Message)) : Prop :=
    match x, y with
    | Ret (s, out), Ret (s', out') => out = out' /\ IsFinished s = IsFinished s' /\ same_error (Err s) (Err s') /\ same (output s) (output s') /\
        st_roundNumber s = st_roundNumber s' /\ st_received s = st_received s' /\ st_accepted s = st_accepted s'
    | Ret (s, _), Panics _ | Panics _, Ret (s, _) => Err s <> None
    | Panics _, Panics _ => True
    | _, _ => False
    end.

  Theorem C56_sign : forall rg now t ids secret shares message s0 es es',
    NewSignState rg now t ids secret shares message = Ret s0 -> same_delivery es es' -> (t <= 0 \/ never_expires es) ->
    agree sg_output same_signature (run sign_round s0 es) (run sign_round s0 es').
  Proof.
    intros rg now t ids secret shares message s0 es es' NEW HD HT. destruct (NewSignState_round _ _ _ _ _ _ _ _ NEW) as (r0 & E1 & EQ).
    assert (exists es1, Forall2 same_call es1 es' /\ exists b, wrel b (run sign_round s0 es) (run sign_round s0 es1)) as (es1 & HS & b & HW).
    { destruct HT as [HT|HT].
      - destruct (split_delivery sign_round (t <=? 0) es es' HD) as (es1 & A & B); [left; now apply Z.leb_le|]. exists es1. split; auto. exists (t <=? 0). subst s0. apply B, wk_init.
      - destruct (split_delivery sign_round false es es' HD) as (es1 & A & B); [now right|]. exists es1. split; auto. exists false. subst s0. apply B, wk_init'. }
    pose proof (C55_sign _ _ _ _ _ _ _ _ _ _ NEW HS) as HO. revert HW HO. clear.
    generalize (run sign_round s0 es) (run sign_round s0 es1) (run sign_round s0 es'). intros x y z HW HO.
    destruct x as [[s m]|?|?], y as [[s1 m1]|?|?]; cbn [wrel] in HW; try contradiction; destruct z as [[s' m']|?|?]; cbn [sign_same] in HO; try contradiction; cbn [agree]; auto.
    - destruct HW as [HW <-], HO as (<- & H1 & H2 & H3 & H4 & H5 & H6 & H7 & H8). pose proof (wk_received _ _ _ HW) as ER. destruct HW as [[A1 A2 A3 A4 A5 A6] _ _ _].
      unfold IsFinished, Err, sg_output in *. rewrite A1, A2, A3, A5, A6, ER. auto 10.
    - destruct HW as [[[A1 A2 A3 A4 A5 A6] _ _ _] _]. unfold Err in *. now rewrite A6.
  Qed.

  Theorem C56_keygen : forall rg now t self ids thr s0 es es', valid_ids ids ->
    NewKeygenState rg now t self ids thr = Ret s0 -> same_delivery es es' -> (t <= 0 \/ never_expires es) ->
    agree kg_output same_output (run keygen_round s0 es) (run keygen_round s0 es').
  Proof.
    intros rg now t self ids thr s0 es es' V NEW HD HT. destruct (NewKeygenState_round _ _ _ _ _ _ _ NEW) as (r0 & E1 & EQ).
    assert (exists es1, Forall2 same_call es1 es' /\ exists b, wrel b (run keygen_round s0 es) (run keygen_round s0 es1)) as (es1 & HS & b & HW).
    { destruct HT as [HT|HT].
      - destruct (split_delivery keygen_round (t <=? 0) es es' HD) as (es1 & A & B); [left; now apply Z.leb_le|]. exists es1. split; auto. exists (t <=? 0). subst s0. apply B, wk_init.
      - destruct (split_delivery keygen_round false es es' HD) as (es1 & A & B); [now right|]. exists es1. split; auto. exists false. subst s0. apply B, wk_init'. }
    pose proof (C55_keygen _ _ _ _ _ _ _ _ _ V NEW HS) as HO. revert HW HO. clear.
    generalize (run keygen_round s0 es) (run keygen_round s0 es1) (run keygen_round s0 es'). intros x y z HW HO.
    destruct x as [[s m]|?|?], y as [[s1 m1]|?|?]; cbn [wrel] in HW; try contradiction; destruct z as [[s' m']|?|?]; cbn [keygen_same] in HO; try contradiction; cbn [agree]; auto.
    - destruct HW as [HW <-], HO as (<- & H1 & H2 & H3 & H4 & H5 & H6 & H7 & H8). pose proof (wk_received _ _ _ HW) as ER. destruct HW as [[A1 A2 A3 A4 A5 A6] _ _ _].
      unfold IsFinished, Err, kg_output in *. rewrite A1, A2, A3, A5, A6, ER. auto 10.
    - destruct HW as [[[A1 A2 A3 A4 A5 A6] _ _ _] _]. unfold Err in *. now rewrite A6.
  Qed.
End Protocols.

(** ** Examples *)
(** Signer 2 is a whole round ahead: its share arrives before the commitments of signer 3 are processed. *)
Definition d_m1 (i : Z) : tmsg := nth 0 (o_sg1 i) (o_id1 i).
Definition d_m2 (i : Z) : tmsg := nth 0 (o_sg2 i) (o_id1 i).
Definition d_first : @delivery toy_group := [(1, d_m1 2); (2, d_m1 3); (3, d_m2 2)].
Definition d_other : @delivery toy_group := [(7, d_m1 3); (8, d_m1 2); (9, d_m2 2)].
Definition d_hist (l : @delivery toy_group) (o : list Z) : list (@event toy_group) :=
  [prc] ++ delivered l ++ [o_prc o] ++ delivered [(10, d_m2 2); (11, d_m2 3)] ++ [o_prc o].
Lemma d_swap a b c n1 n2 n3 n4 n5 n6 : m_From a <> m_From b -> m_From b <> m_From c ->
  forall i, @of_sender toy_group i [(n1, a); (n2, b); (n3, c)] = of_sender i [(n4, b); (n5, a); (n6, c)].
Proof.
  intros H1 H2 i. unfold of_sender. cbn [map snd List.filter]. destruct (Z.eqb_spec (m_From a) i), (Z.eqb_spec (m_From b) i); auto. congruence.
Qed.
Example C56_example : same_delivery (d_hist d_first [1; 2; 3]) (d_hist d_other [3; 1; 2]) /\ never_expires (d_hist d_first [1; 2; 3]) /\
  d_first <> d_other /\
  ts_view (ts_run (ts_new k3 1 0) (d_hist d_first [1; 2; 3])) = (true, 2, None, true) /\
  ts_view (ts_run (ts_new k3 1 0) (d_hist d_other [3; 1; 2])) = (true, 2, None, true).
Proof.
  split.
  { unfold d_hist. cbn [app]. apply sd_call; [exact Logic.I|exact Logic.I|]. apply sd_batch; [apply d_swap; vm_compute; discriminate|]. apply sd_call; [exact Logic.I|exact Logic.I|].
    apply sd_batch; [reflexivity|]. apply sd_call; [exact Logic.I|exact Logic.I|]. apply sd_nil. }
  split. { unfold never_expires, d_hist, delivered. repeat (apply Forall_app; split); repeat constructor. }
  split. { unfold d_first, d_other. intros E. inversion E. }
  split; vm_compute; reflexivity.
Qed.
(** The order of one sender's own messages does matter: the first commitments received are used. *)
Definition d_fake (i : Z) : tmsg := @NewSign1 toy_group i (qof 77) (qof 78).
Theorem C56_sender_order_needed :
  ts_view (ts_run (ts_new s13 1 0) (prc :: hnd [nth 0 (sg1_of 3) (d_fake 3); d_fake 3] ++ prc :: hnd (sg2_of 3) ++ [prc])) = (true, 2, None, true) /\
  ts_view (ts_run (ts_new s13 1 0) (prc :: hnd [d_fake 3; nth 0 (sg1_of 3) (d_fake 3)] ++ prc :: hnd (sg2_of 3) ++ [prc])) =
    (true, 2, Some (3, "signature share is invalid"%string), false).
Proof. split; vm_compute; reflexivity. Qed.

Print Assumptions C56_answers.
Print Assumptions C56_sign.
Print Assumptions C56_keygen.
Print Assumptions C56_sender_order_needed.
