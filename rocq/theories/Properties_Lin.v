(** C64: calls from several goroutines take effect one at a time. *)
From Coq Require Import ZArith Lia List Bool String.
From stdpp Require Import base gmap list.
From Verif Require Import ZField Primes Bytes Scalar Go Group Party Poly Zk Eddsa Messages State StateFacts Lin Keygen Sign ToyGroup ToyRuns Properties_Sign.
Import ListNotations.
Local Open Scope Z_scope.

Section Lin.
  Context `{Gr : group_ops} {R : Type} (I : RoundI R).
  Notation St := (State R).

  (** ** Specification: one call after the other, with the functions of State.v. *)
  Inductive sevent := SCall (w : who) | SExpire (now : Z).
  Definition acall (w : who) (s : St) : outcome (St * answer) :=
    match w with
    | Caller _ (CHandle now m) => Ret (fst (HandleMessage I now s m), AHandle (snd (HandleMessage I now s m)))
    | Caller _ (CProcess o o') => let* r := ProcessAll I o o' s in Ret (fst r, AProcess (snd r))
    | Timer => let* s' := timerCallback I s in Ret (s', ATimeout)
    end.
  Fixpoint seq (s : St) (es : list sevent) : outcome (St * list (who * answer)) :=
    match es with
    | [] => Ret (s, [])
    | SCall w :: es' => obind (acall w s) (fun r1 => obind (seq (fst r1) es') (fun r2 => Ret (fst r2, (w, snd r1) :: snd r2)))
    | SExpire now :: es' => seq (timerExpire now s) es'
    end.
  (** The same as events of State.v. *)
  Definition event_of (e : sevent) : event :=
    match e with
    | SCall (Caller _ (CHandle now m)) => EHandle now m
    | SCall (Caller _ (CProcess o o')) => EProcess o o'
    | SCall Timer => ECallback
    | SExpire now => EExpire now
    end.
  Definition sent (l : list (who * answer)) : list Message := flat_map (fun x => match snd x with AProcess ms => ms | _ => [] end) l.
  Definition calls_of (i : nat) (l : list (who * answer)) : list call :=
    flat_map (fun x => match fst x with Caller j c => if Nat.eqb i j then [c] else [] | Timer => [] end) l.

  Lemma seq_run s es s' l : seq s es = Ret (s', l) -> run I s (map event_of es) = Ret (s', sent l).
  Proof.
    revert s s' l. induction es as [|e es IH]; intros s s' l; cbn [seq map run]; [injection 1; intros <- <-; reflexivity|].
    destruct e as [w|now].
    - intros E. apply obind_ret in E as ([s1 a] & E1 & E). apply obind_ret in E as ([s2 l2] & E2 & E3). injection E3; intros <- <-. cbn [fst snd] in *.
      apply IH in E2. destruct w as [i [now m|o o']|]; cbn [acall event_of step] in *.
      + injection E1; intros <- <-. cbn [obind fst snd]. rewrite E2. reflexivity.
      + apply obind_ret in E1 as ([s1' ms] & E1 & E4). injection E4; intros <- <-. rewrite E1. cbn [obind fst snd] in *. rewrite E2. reflexivity.
      + apply obind_ret in E1 as (s1' & E1 & E4). injection E4; intros <- <-. rewrite E1. cbn [obind fst snd]. rewrite E2. reflexivity.
    - intros E. apply IH in E. cbn [event_of step obind fst snd]. rewrite E. reflexivity.
  Qed.
  Lemma seq_app s es es' : seq s (es ++ es') = obind (seq s es) (fun r1 => obind (seq (fst r1) es') (fun r2 => Ret (fst r2, snd r1 ++ snd r2))).
  Proof.
    revert s. induction es as [|e es IH]; intros s; cbn [seq app].
    - cbn. destruct (seq s es') as [ [? ?]|?|?]; reflexivity.
    - destruct e as [w|now]; [|apply IH]. destruct (acall w s) as [r1|?|?]; cbn [obind]; try reflexivity. rewrite IH.
      destruct (seq (fst r1) es) as [r2|?|?]; cbn [obind fst snd]; try reflexivity.
      destruct (seq (fst r2) es') as [r3|?|?]; cbn [obind fst snd]; reflexivity.
  Qed.

  (** ** Uninterrupted programs compute the functions of State.v. *)
  Fixpoint exec {A} (p : mp (R := R) A) (s : St) : outcome (St * A) :=
    match p with MRet a => Ret (s, a) | MAct f k => obind (f s) (fun r => exec (k (snd r)) (fst r)) end.

  Lemma exec_mmap {A B} (g : A -> B) (p : mp A) s : exec (mmap g p) s = obind (exec p s) (fun r => Ret (fst r, g (snd r))).
  Proof.
    revert s. induction p as [a|X f k IH]; intros s; cbn [mmap exec]; [reflexivity|]. destruct (f s) as [r|?|?]; cbn [obind]; auto.
  Qed.
  Lemma exec_handle now m s : exec (handle_body I now m) s = Ret (HandleMessage I now s m).
  Proof.
    unfold handle_body, HandleMessage, rd. cbn [exec obind fst snd]. destruct (st_done s) eqn:E0; [reflexivity|]. cbn [exec obind fst snd].
    destruct (st_accepted s) as [|ct acc] eqn:EA; [reflexivity|]. cbn [exec obind fst snd List.length Nat.eqb].
    destruct (m_From m =? r_self I (st_round s)); [reflexivity|]. cbn [exec obind fst snd].
    destruct (_ && _); [reflexivity|]. cbn [exec obind fst snd]. destruct (negb (Contains _ _)); [reflexivity|]. cbn [exec obind fst snd].
    destruct (st_received s !! m_From m); [reflexivity|]. cbn [exec obind fst snd]. unfold isAcceptedType. rewrite EA. destruct (negb _); [reflexivity|].
    unfold m_ack, rd. cbn [exec obind fst snd]. destruct s as [acc' rc q t rn r cl d e]. cbn [st_accepted st_timer st_done] in *. subst acc' d.
    unfold ackMessage. destruct (0 <? tm_d t) eqn:ED.
    - cbn. destruct (m_Type m =? ct); cbn; rewrite ?ED; reflexivity.
    - cbn. destruct (m_Type m =? ct); reflexivity.
  Qed.
  Lemma exec_finish {A} (k : mp A) s : exec (m_finish I k) s = obind (finish I s) (fun s' => exec k s').
  Proof.
    unfold m_finish, finish, rd, wr. cbn [exec obind fst snd]. destruct (st_done s) eqn:ED; [reflexivity|]. destruct s as [acc rc q t rn r cl d e]. cbn.
    destruct (r_reset I r); cbn; try reflexivity. destruct cl; reflexivity.
  Qed.
  Lemma exec_report {A} c t (k : mp A) s : exec (m_report I c t k) s = obind (reportError I s c t) (fun s' => exec k s').
  Proof.
    unfold m_report, reportError, rd, wr. cbn [exec obind fst snd]. destruct (st_done s) eqn:ED; [reflexivity|]. cbn [exec obind fst snd]. destruct s as [acc rc q tm rn r cl d e].
    cbn [st_err st_done] in *. subst d. destruct e as [e|].
    - rewrite exec_finish. reflexivity.
    - cbn [exec obind fst snd]. rewrite exec_finish. reflexivity.
  Qed.
  Lemma exec_callback s n : tm_pending (st_timer s) = S n ->
    exec (callback_body I) (set_timer s (mkTimer (tm_d (st_timer s)) (tm_deadline (st_timer s)) n)) = obind (timerCallback I s) (fun s' => Ret (s', tt)).
  Proof. intros E. unfold callback_body. rewrite exec_report. unfold timerCallback. rewrite E. reflexivity. Qed.
  Lemma exec_process_loop ids k s : exec (m_process I ids k) s =
    match process_loop I (st_round s) (st_received s) ids with
    | ROk r _ => exec k (set_round s r)
    | RErr r c t => obind (reportError I (set_round s r) c t) (fun s' => Ret (s', []))
    | RPanic w => Panics w
    end.
  Proof.
    revert s. induction ids as [|id ids IH]; intros s; cbn [m_process process_loop].
    - destruct s; reflexivity.
    - unfold rd. cbn [exec obind fst snd]. destruct (r_process I (st_round s) (default None (st_received s !! id))) as [r u|r c t|w]; cbn [obind fst snd]; [|rewrite exec_report; reflexivity|reflexivity].
      rewrite IH. destruct s; reflexivity.
  Qed.
  Lemma exec_delete {A} ids (k : mp A) s : exec (m_delete ids k) s = exec k (set_received s (fold_left (fun m id => delete id m) ids (st_received s))).
  Proof. revert s. induction ids as [|id ids IH]; intros s; cbn [m_delete fold_left]; [destruct s; reflexivity|]. unfold wr. cbn [exec obind fst snd]. rewrite IH. reflexivity. Qed.
  Lemma fold_delete_lookup {B} (ids : list ID) (m : gmap ID B) i : fold_left (fun m id => delete id m) ids m !! i = if bool_decide (i ∈ ids) then None else m !! i.
  Proof.
    revert m. induction ids as [|id ids IH]; intros m; cbn [fold_left].
    - rewrite bool_decide_eq_false_2; [reflexivity|]. apply not_elem_of_nil.
    - rewrite IH. destruct (decide (i = id)) as [->|N].
      + rewrite (bool_decide_eq_true_2 (id ∈ id :: ids)) by left. case_bool_decide; [reflexivity|]. apply lookup_delete.
      + rewrite lookup_delete_ne by auto. case_bool_decide as H1; case_bool_decide as H2; try reflexivity.
        * exfalso. apply H2. now right.
        * exfalso. apply elem_of_cons in H2 as [->|H2]; auto.
  Qed.
  Lemma delete_keys {B} sched (m : gmap ID B) : fold_left (fun m id => delete id m) (map_keys sched m) m = ∅.
  Proof.
    apply map_eq. intros i. rewrite fold_delete_lookup, lookup_empty. case_bool_decide as H; [reflexivity|].
    destruct (m !! i) as [v|] eqn:E; [|reflexivity]. exfalso. apply H. apply elem_of_list_In. apply map_keys_In. eauto.
  Qed.
  Lemma exec_queue {A} ct q nq (k : mp A) s : exec (m_queue ct q nq k) s =
    exec k (set_queue (set_received s (fst (take_queue ct q (st_received s)))) (nq ++ snd (take_queue ct q (st_received s)))).
  Proof.
    unfold take_queue. cbn [fst snd]. revert nq s. induction q as [|msg q IH]; intros nq s; cbn [m_queue fold_left List.filter].
    - rewrite app_nil_r. destruct s; reflexivity.
    - destruct (m_Type msg =? ct); cbn [negb].
      + unfold wr. cbn [exec obind fst snd]. rewrite IH. reflexivity.
      + rewrite IH. rewrite <- app_assoc. reflexivity.
  Qed.
  Lemma exec_next ms s : exec (m_next I ms) s =
    match r_next I (st_round s) with
    | None => obind (finish I s) (fun s' => Ret (s', ms))
    | Some nr => Ret (mkState (st_accepted s) (st_received s) (st_queue s) (st_timer s) (st_roundNumber s + 1) nr (st_closed s) (st_done s) (st_err s), ms)
    end.
  Proof. unfold m_next, rd, wr. cbn [exec obind fst snd]. destruct (r_next I (st_round s)); [reflexivity|rewrite exec_finish; reflexivity]. Qed.
  Lemma exec_process o o' s : exec (process_body I o o') s = ProcessAll I o o' s.
  Proof.
    unfold process_body, ProcessAll, rd. cbn [exec obind fst snd]. destruct (st_done s) eqn:ED; [reflexivity|]. cbn [exec obind fst snd].
    destruct (negb _); [reflexivity|]. cbn [exec obind fst snd]. rewrite exec_process_loop.
    destruct (process_loop I (st_round s) (st_received s) (map_keys o (st_received s))) as [r u|r c t|w]; [|reflexivity|reflexivity].
    cbn [exec obind fst snd]. rewrite exec_delete. replace (st_received (set_round s r)) with (st_received s) by (destruct s; reflexivity). rewrite delete_keys.
    destruct s as [acc rc q tm rn r0 cl d e]. cbn [st_done] in ED. subst d. cbn [exec obind fst snd set_round set_received st_round st_accepted st_received st_queue st_timer st_roundNumber st_closed st_done st_err].
    destruct (r_generate I o' r) as [r' ms|r' c t|w]; cbn [obind fst snd]; [|rewrite exec_report; reflexivity|reflexivity].
    cbn [exec obind fst snd set_round set_received st_round st_accepted st_received st_queue st_timer st_roundNumber st_closed st_done st_err].
    destruct acc as [|a acc]; [reflexivity|]. cbn [exec obind fst snd set_accepted st_accepted]. destruct acc as [|ct acc].
    - rewrite exec_next. reflexivity.
    - cbn [exec obind fst snd]. rewrite exec_queue, exec_next. reflexivity.
  Qed.

  (** ** The timer's expiries move out of the call *)
  Definition expires (D : list Z) (s : St) : St := fold_left (fun s now => timerExpire now s) D s.
  Definition nt_act {X} (f : St -> outcome (St * X)) : Prop :=
    forall now s, f (timerExpire now s) = obind (f s) (fun r => Ret (timerExpire now (fst r), snd r)).
  Definition stop_like {X} (f : St -> outcome (St * X)) : Prop := forall s s' x, f s = Ret (s', x) -> tm_deadline (st_timer s') = None.
  Fixpoint nt {A} (p : mp (R := R) A) : Prop := match p with MRet _ => True | MAct f k => nt_act f /\ forall x, nt (k x) end.
  Definition resetting {A} (p : mp (R := R) A) : Prop := match p with MRet _ => False | MAct f k => forall x, nt (k x) end.
  Fixpoint pre {A} (p : mp (R := R) A) : Prop :=
    match p with
    | MRet _ => True
    | MAct f k => (nt_act f /\ forall x, pre (k x)) \/ (stop_like f /\ forall x, nt (k x) \/ resetting (k x))
    end.
  (** ** What IsFinished and Err can see *)
  Definition keeps_done {X} (f : St -> outcome (St * X)) : Prop := forall s s' x, f s = Ret (s', x) -> st_done s' = st_done s.
  Definition keeps_err {X} (f : St -> outcome (St * X)) : Prop := forall s s' x, f s = Ret (s', x) -> st_err s' = st_err s.
  Fixpoint q2 {A} (p : mp (R := R) A) : Prop := match p with MRet _ => True | MAct f k => keeps_done f /\ keeps_err f /\ forall x, q2 (k x) end.
  Fixpoint q1 {A} (p : mp (R := R) A) : Prop :=
    match p with MRet _ => True | MAct f k => keeps_err f /\ ((keeps_done f /\ forall x, q1 (k x)) \/ forall x, q2 (k x)) end.
  Fixpoint q0 {A} (p : mp (R := R) A) : Prop :=
    match p with
    | MRet _ => True
    | MAct f k => (keeps_done f /\ keeps_err f /\ forall x, q0 (k x)) \/ (keeps_done f /\ forall x, q1 (k x)) \/ (keeps_err f /\ forall x, q2 (k x))
    end.
  (** A call that finds the protocol finished writes neither. *)
  Definition fresh {A} (p : mp (R := R) A) : Prop :=
    match p with
    | MRet _ => True
    | MAct f k => keeps_done f /\ keeps_err f /\ forall s s' x, f s = Ret (s', x) -> st_done s = true -> q2 (k x)
    end.

  Lemma nt_pre {A} (p : mp A) : nt p -> pre p.
  Proof. induction p as [a|X f k IH]; cbn; [auto|]. intros [H1 H2]. left. split; auto. Qed.
  Lemma q2_q1 {A} (p : mp A) : q2 p -> q1 p.
  Proof. induction p as [a|X f k IH]; cbn; [auto|]. intros (H1 & H2 & H3). split; auto. Qed.
  Lemma q1_q0 {A} (p : mp A) : q1 p -> q0 p.
  Proof. induction p as [a|X f k IH]; cbn; [auto|]. intros [H1 [ [H2 H3]|H2] ]; auto. Qed.
  Lemma q2_q0 {A} (p : mp A) : q2 p -> q0 p.
  Proof. intros H. apply q1_q0, q2_q1, H. Qed.

  Lemma nt_mmap {A B} (g : A -> B) p : nt p -> nt (mmap g p).
  Proof. induction p as [a|X f k IH]; cbn; [auto|]. intros [H1 H2]. split; auto. Qed.
  Lemma pre_mmap {A B} (g : A -> B) p : pre p -> pre (mmap g p).
  Proof.
    induction p as [a|X f k IH]; cbn; [auto|]. intros [ [H1 H2]|[H1 H2] ]; [left; split; auto|]. right. split; [exact H1|]. intros x.
    destruct (H2 x) as [H|H]; [left; apply nt_mmap, H|]. right. destruct (k x) as [a|Y f' k']; cbn in *; [exact H|]. intros y. apply nt_mmap, H.
  Qed.
  Lemma q2_mmap {A B} (g : A -> B) p : q2 p -> q2 (mmap g p).
  Proof. induction p as [a|X f k IH]; cbn; [auto|]. intros (H1 & H2 & H3); auto. Qed.
  Lemma q1_mmap {A B} (g : A -> B) p : q1 p -> q1 (mmap g p).
  Proof. induction p as [a|X f k IH]; cbn; [auto|]. intros [H1 [ [H2 H3]|H2] ]; (split; [exact H1|]); [left; auto|right; intros; apply q2_mmap, H2]. Qed.
  Lemma q0_mmap {A B} (g : A -> B) p : q0 p -> q0 (mmap g p).
  Proof.
    induction p as [a|X f k IH]; cbn; [auto|]. intros [ (H1 & H2 & H3)|[ [H1 H2]|[H1 H2] ] ]; [left|right; left|right; right]; repeat split; auto; intros;
      [apply q1_mmap, H2|apply q2_mmap, H2].
  Qed.
  Lemma fresh_mmap {A B} (g : A -> B) p : fresh p -> fresh (mmap g p).
  Proof. destruct p as [a|X f k]; cbn; [auto|]. intros (H1 & H2 & H3). repeat split; auto. intros s s' x E D. apply q2_mmap. eapply H3; eauto. Qed.

  (** *** Single accesses *)
  Definition timer_free {X} (g : St -> X) : Prop := forall s t, g (set_timer s t) = g s.
  Lemma expire_cases now (s : St) : timerExpire now s = s \/ timerExpire now s = set_timer s (mkTimer (tm_d (st_timer s)) None (S (tm_pending (st_timer s)))).
  Proof. unfold timerExpire. destruct (tm_deadline (st_timer s)); [|auto]. destruct (_ <=? _); auto. Qed.
  Lemma nt_free {X} (f : St -> outcome (St * X)) :
    (forall s t, f (set_timer s t) = obind (f s) (fun r => Ret (set_timer (fst r) t, snd r))) ->
    (forall s s' x, f s = Ret (s', x) -> st_timer s' = st_timer s) -> nt_act f.
  Proof.
    intros H K now s. pose proof (H s) as Hs. unfold timerExpire at 1. destruct (tm_deadline (st_timer s)) as [dl|] eqn:E1; [destruct (dl <=? now) eqn:E2|].
    - unfold set_timer in Hs at 1. rewrite Hs. destruct (f s) as [ [s' x]|?|?] eqn:EF; cbn [obind fst snd]; try reflexivity. apply K in EF.
      unfold timerExpire. rewrite EF, E1, E2. reflexivity.
    - destruct (f s) as [ [s' x]|?|?] eqn:EF; cbn [obind fst snd]; try reflexivity. apply K in EF. unfold timerExpire. rewrite EF, E1, E2. reflexivity.
    - destruct (f s) as [ [s' x]|?|?] eqn:EF; cbn [obind fst snd]; try reflexivity. apply K in EF. unfold timerExpire. rewrite EF, E1. reflexivity.
  Qed.
  Lemma nt_rd {X} (g : St -> X) : timer_free g -> nt_act (fun s => Ret (s, g s)).
  Proof. intros H. apply nt_free; [|intros s s' x; injection 1; congruence]. intros s t. cbn. rewrite H. reflexivity. Qed.
  Lemma nt_rd_d : nt_act (fun s : St => Ret (s, tm_d (st_timer s))).
  Proof. intros now s. cbn. destruct (expire_cases now s) as [->| ->]; reflexivity. Qed.
  Lemma kd_rd {X} (g : St -> X) : keeps_done (fun s => Ret (s, g s)).
  Proof. intros s s' x. injection 1; congruence. Qed.
  Lemma ke_rd {X} (g : St -> X) : keeps_err (fun s => Ret (s, g s)).
  Proof. intros s s' x. injection 1; congruence. Qed.

  Ltac nt1 := first [exact nt_rd_d | apply nt_rd; intros [] ?; reflexivity | apply nt_free;
    [intros [] ?; cbn; unfold obind; repeat match goal with |- context [match ?x with _ => _ end] => destruct x; cbn end; reflexivity
    |intros [] ? ?; cbn; unfold obind; repeat match goal with |- context [match ?x with _ => _ end] => destruct x; cbn end; (discriminate || (injection 1; intros; subst; reflexivity))] ].
  Ltac kp1 := let H := fresh in intros [] ? ?; cbn; unfold obind; repeat match goal with |- context [match ?x with _ => _ end] => destruct x; cbn end;
    (discriminate || (intros H; injection H; intros; subst; reflexivity)).

  Lemma nt_wrap t c : nt (m_wrap I t c).
  Proof. cbn. repeat split; intros; nt1. Qed.
  Lemma q2_wrap t c : q2 (m_wrap I t c).
  Proof. cbn. repeat split; intros; kp1. Qed.
  Lemma stop_stops : stop_like (stop_act (R := R)).
  Proof. intros s s' x. injection 1; intros _ <-. reflexivity. Qed.

  Lemma pre_finish {A} (k : mp A) : nt k -> pre (m_finish I k).
  Proof.
    intros K. unfold m_finish, rd, wr. left. split; [nt1|]. intros [|]; [apply nt_pre, K|]. left. split; [nt1|]. intros _. left. split; [nt1|]. intros _.
    right. split; [apply stop_stops|]. intros _. left. split; [nt1|]. auto.
  Qed.
  Lemma q1_finish {A} (k : mp A) : q2 k -> q1 (m_finish I k).
  Proof.
    intros K. unfold m_finish, rd, wr. split; [kp1|]. left. split; [kp1|]. intros [|]; [apply q2_q1, K|]. split; [kp1|]. right. intros _.
    split; [kp1|]. split; [kp1|]. intros _. split; [kp1|]. split; [kp1|]. intros _. split; [kp1|]. split; [kp1|]. auto.
  Qed.
  Lemma pre_report {A} c t (k : mp A) : nt k -> pre (m_report I c t k).
  Proof.
    intros K. unfold m_report, rd, wr. left. split; [nt1|]. intros [|]; [apply nt_pre, K|]. left. split; [nt1|]. intros [e|]; [apply pre_finish, K|].
    left. split; [nt1|]. intros n. left. split; [nt1|]. intros _. apply pre_finish, K.
  Qed.
  Lemma q0_report {A} c t (k : mp A) : q2 k -> q0 (m_report I c t k).
  Proof.
    intros K. unfold m_report, rd, wr. left. split; [kp1|]. split; [kp1|]. intros [|]; [apply q2_q0, K|]. left. split; [kp1|]. split; [kp1|].
    intros [e|]; [apply q1_q0, q1_finish, K|]. left. split; [kp1|]. split; [kp1|]. intros n. right. left. split; [kp1|]. intros _. apply q1_finish, K.
  Qed.
  Lemma fresh_report {A} c t (k : mp A) : q2 k -> fresh (m_report I c t k).
  Proof. intros K. unfold m_report, rd. split; [kp1|]. split; [kp1|]. intros s s' x E D. injection E; intros <- <-. rewrite D. exact K. Qed.

  Lemma pre_handle now m : pre (handle_body I now m).
  Proof.
    unfold handle_body, rd. left. split; [nt1|]. intros [|]; [apply nt_pre, nt_wrap|]. left. split; [nt1|]. intros n. destruct (Nat.eqb n 0); [apply nt_pre, nt_wrap|].
    left. split; [nt1|]. intros self. destruct (m_From m =? self); [exact Logic.I|]. left. split; [nt1|]. intros self'. destruct (_ && _); [exact Logic.I|].
    left. split; [nt1|]. intros ids. destruct (negb _); [apply nt_pre, nt_wrap|]. left. split; [nt1|]. intros [e|]; [apply nt_pre, nt_wrap|].
    left. split; [nt1|]. intros acc. destruct (negb _); [apply nt_pre, nt_wrap|].
    assert (N : nt (MAct (fun s : St => match st_accepted s with [] => Panics "index out of range [0] with length 0" | t :: _ => Ret (s, t) end) (fun currentType =>
      if m_Type m =? currentType then wr (fun s => set_received s (<[m_From m := Some m]> (st_received s))) (MRet (None (A := WrappedError)))
      else rd (fun s => st_queue s) (fun q => wr (fun s => set_queue s (q ++ [m])) (MRet None))))).
    { split; [nt1|]. intros ct. destruct (m_Type m =? ct); [split; [nt1|intros _; exact Logic.I]|]. split; [nt1|]. intros q. split; [nt1|intros _; exact Logic.I]. }
    unfold m_ack, rd. left. split; [nt1|]. intros d. destruct (0 <? d); [|apply nt_pre, N]. right. split; [apply stop_stops|]. intros _. right. intros _. exact N.
  Qed.
  Lemma q2_handle now m : q2 (handle_body I now m).
  Proof.
    unfold handle_body, rd. split; [kp1|]. split; [kp1|]. intros [|]; [apply q2_wrap|]. split; [kp1|]. split; [kp1|]. intros n. destruct (Nat.eqb n 0); [apply q2_wrap|].
    split; [kp1|]. split; [kp1|]. intros self. destruct (m_From m =? self); [exact Logic.I|]. split; [kp1|]. split; [kp1|]. intros self'. destruct (_ && _); [exact Logic.I|].
    split; [kp1|]. split; [kp1|]. intros ids. destruct (negb _); [apply q2_wrap|]. split; [kp1|]. split; [kp1|]. intros [e|]; [apply q2_wrap|].
    split; [kp1|]. split; [kp1|]. intros acc. destruct (negb _); [apply q2_wrap|].
    assert (N : q2 (MAct (fun s : St => match st_accepted s with [] => Panics "index out of range [0] with length 0" | t :: _ => Ret (s, t) end) (fun currentType =>
      if m_Type m =? currentType then wr (fun s => set_received s (<[m_From m := Some m]> (st_received s))) (MRet (None (A := WrappedError)))
      else rd (fun s => st_queue s) (fun q => wr (fun s => set_queue s (q ++ [m])) (MRet None))))).
    { split; [kp1|]. split; [kp1|]. intros ct. destruct (m_Type m =? ct); [split; [kp1|]; split; [kp1|intros _; exact Logic.I]|].
      split; [kp1|]. split; [kp1|]. intros q. split; [kp1|]. split; [kp1|]. intros _; exact Logic.I. }
    unfold m_ack, rd. split; [kp1|]. split; [kp1|]. intros d. destruct (0 <? d); [|exact N].
    split; [kp1|]. split; [kp1|]. intros _. split; [kp1|]. split; [kp1|]. intros _. exact N.
  Qed.

  Lemma pre_process_loop ids k : pre k -> pre (m_process I ids k).
  Proof.
    intros K. induction ids as [|id ids IH]; cbn [m_process]; [exact K|]. unfold rd. left. split; [nt1|]. intros msg. left. split; [nt1|].
    intros [ [c t]|]; [apply pre_report; exact Logic.I|exact IH].
  Qed.
  Lemma q0_process_loop ids k : q0 k -> q0 (m_process I ids k).
  Proof.
    intros K. induction ids as [|id ids IH]; cbn [m_process]; [exact K|]. unfold rd. left. split; [kp1|]. split; [kp1|]. intros msg. left. split; [kp1|]. split; [kp1|].
    intros [ [c t]|]; [apply q0_report; exact Logic.I|exact IH].
  Qed.
  Lemma pre_delete {A} ids (k : mp A) : pre k -> pre (m_delete ids k).
  Proof. intros K. induction ids as [|id ids IH]; cbn [m_delete]; [exact K|]. unfold wr. left. split; [nt1|]. intros _. exact IH. Qed.
  Lemma q0_delete {A} ids (k : mp A) : q0 k -> q0 (m_delete ids k).
  Proof. intros K. induction ids as [|id ids IH]; cbn [m_delete]; [exact K|]. unfold wr. left. split; [kp1|]. split; [kp1|]. intros _. exact IH. Qed.
  Lemma pre_queue {A} ct q nq (k : mp A) : pre k -> pre (m_queue ct q nq k).
  Proof.
    intros K. revert nq. induction q as [|m q IH]; intros nq; cbn [m_queue]; unfold wr; [left; split; [nt1|]; intros _; exact K|].
    destruct (m_Type m =? ct); [left; split; [nt1|]; intros _|]; apply IH.
  Qed.
  Lemma q0_queue {A} ct q nq (k : mp A) : q0 k -> q0 (m_queue ct q nq k).
  Proof.
    intros K. revert nq. induction q as [|m q IH]; intros nq; cbn [m_queue]; unfold wr; [left; split; [kp1|]; split; [kp1|]; intros _; exact K|].
    destruct (m_Type m =? ct); [left; split; [kp1|]; split; [kp1|]; intros _|]; apply IH.
  Qed.
  Lemma pre_next ms : pre (m_next I ms).
  Proof.
    unfold m_next, rd, wr. left. split; [nt1|]. intros [r|]; [|apply pre_finish; exact Logic.I]. left. split; [nt1|]. intros n.
    left. split; [nt1|]. intros _. left. split; [nt1|]. intros _. exact Logic.I.
  Qed.
  Lemma q0_next ms : q0 (m_next I ms).
  Proof.
    unfold m_next, rd, wr. left. split; [kp1|]. split; [kp1|]. intros [r|]; [|apply q1_q0, q1_finish; exact Logic.I]. left. split; [kp1|]. split; [kp1|]. intros n.
    left. split; [kp1|]. split; [kp1|]. intros _. left. split; [kp1|]. split; [kp1|]. intros _. exact Logic.I.
  Qed.
  Lemma pre_process o o' : pre (process_body I o o').
  Proof.
    unfold process_body, rd. left. split; [nt1|]. intros [|]; [exact Logic.I|]. left. split; [nt1|]. intros n. left. split; [nt1|]. intros ids.
    destruct (negb _); [exact Logic.I|]. left. split; [nt1|]. intros keys. apply pre_process_loop. left. split; [nt1|]. intros keys'. apply pre_delete.
    left. split; [nt1|]. intros [ms|[c t] ]; [|apply pre_report; exact Logic.I]. left. split; [nt1|]. intros _. left. split; [nt1|].
    intros [|ct acc]; [apply pre_next|]. left. split; [nt1|]. intros q. apply pre_queue, pre_next.
  Qed.
  Lemma q0_process o o' : q0 (process_body I o o').
  Proof.
    unfold process_body, rd. left. split; [kp1|]. split; [kp1|]. intros [|]; [exact Logic.I|]. left. split; [kp1|]. split; [kp1|]. intros n. left. split; [kp1|]. split; [kp1|]. intros ids.
    destruct (negb _); [exact Logic.I|]. left. split; [kp1|]. split; [kp1|]. intros keys. apply q0_process_loop. left. split; [kp1|]. split; [kp1|]. intros keys'. apply q0_delete.
    left. split; [kp1|]. split; [kp1|]. intros [ms|[c t] ]; [|apply q0_report; exact Logic.I]. left. split; [kp1|]. split; [kp1|]. intros _. left. split; [kp1|]. split; [kp1|].
    intros [|ct acc]; [apply q0_next|]. left. split; [kp1|]. split; [kp1|]. intros q. apply q0_queue, q0_next.
  Qed.
  Lemma fresh_process o o' : fresh (process_body I o o').
  Proof. unfold process_body, rd. split; [kp1|]. split; [kp1|]. intros s s' x E D. injection E; intros <- <-. rewrite D. exact Logic.I. Qed.

  (** ** Whole calls *)
  Definition prog (w : who) : mp (R := R) answer := match w with Caller _ c => body I c | Timer => mmap (fun _ => ATimeout) (callback_body I) end.
  Definition start (w : who) (s : St) : St :=
    match w with
    | Caller _ _ => s
    | Timer => match tm_pending (st_timer s) with O => s | S n => set_timer s (mkTimer (tm_d (st_timer s)) (tm_deadline (st_timer s)) n) end
    end.
  Definition ready (w : who) (s : St) : Prop := match w with Caller _ _ => True | Timer => tm_pending (st_timer s) <> O end.
  Lemma exec_prog w s : ready w s -> exec (prog w) (start w s) = acall w s.
  Proof.
    destruct w as [i [now m|o o']|]; intros H; cbn [prog body start acall] in *; rewrite exec_mmap.
    - rewrite exec_handle. reflexivity.
    - rewrite exec_process. reflexivity.
    - cbn [ready] in H. destruct (tm_pending (st_timer s)) as [|n] eqn:E; [contradiction|]. rewrite exec_callback by exact E.
      destruct (timerCallback I s); reflexivity.
  Qed.
  Lemma ready_expire w now s : ready w s -> ready w (timerExpire now s).
  Proof. destruct w; cbn; [auto|]. destruct (expire_cases now s) as [->| ->]; cbn; auto. Qed.
  Lemma start_expire w now s : ready w s -> start w (timerExpire now s) = timerExpire now (start w s).
  Proof.
    destruct w as [i c|]; cbn [start ready]; [reflexivity|]. intros H. unfold timerExpire. destruct (tm_pending (st_timer s)) as [|n] eqn:E; [contradiction|].
    cbn. destruct (tm_deadline (st_timer s)) as [dl|] eqn:ED; [destruct (dl <=? now) eqn:EL|]; cbn; rewrite ?E, ?ED; reflexivity.
  Qed.
  Lemma ready_expires w D s : ready w s -> ready w (expires D s).
  Proof. revert s. induction D as [|now D IH]; intros s H; cbn; [exact H|]. apply IH, ready_expire, H. Qed.
  Lemma start_expires w D s : ready w s -> start w (expires D s) = expires D (start w s).
  Proof. revert s. induction D as [|now D IH]; intros s H; cbn; [reflexivity|]. rewrite <- start_expire by exact H. apply IH, ready_expire, H. Qed.
  Lemma start_obs w s : st_done (start w s) = st_done s /\ st_err (start w s) = st_err s.
  Proof. destruct w; cbn; [auto|]. destruct (tm_pending (st_timer s)); auto. Qed.
  Lemma expire_obs now (s : St) : st_done (timerExpire now s) = st_done s /\ st_err (timerExpire now s) = st_err s.
  Proof. destruct (expire_cases now s) as [->| ->]; auto. Qed.
  Lemma expires_obs D (s : St) : st_done (expires D s) = st_done s /\ st_err (expires D s) = st_err s.
  Proof.
    revert s. induction D as [|now D IH]; intros s; [auto|]. change (expires (now :: D) s) with (expires D (timerExpire now s)). destruct (IH (timerExpire now s)) as [-> ->]. apply expire_obs.
  Qed.
  Lemma nt_acts {X} (f : St -> outcome (St * X)) D s : nt_act f -> f (expires D s) = obind (f s) (fun r => Ret (expires D (fst r), snd r)).
  Proof.
    intros H. revert s. induction D as [|now D IH]; intros s; cbn.
    - destruct (f s) as [ [? ?]|?|?]; reflexivity.
    - fold (expires D (timerExpire now s)). rewrite IH, H. destruct (f s) as [ [? ?]|?|?]; reflexivity.
  Qed.
  Lemma expires_snoc D now (s : St) : expires (D ++ [now]) s = timerExpire now (expires D s).
  Proof. unfold expires. rewrite fold_left_app. reflexivity. Qed.
  Lemma prog_pre w : pre (prog w).
  Proof. destruct w as [i [now m|o o']|]; apply pre_mmap; [apply pre_handle|apply pre_process|apply pre_report; exact Logic.I]. Qed.
  Lemma prog_q0 w : q0 (prog w).
  Proof. destruct w as [i [now m|o o']|]; [apply q2_q0, q2_mmap, q2_handle|apply q0_mmap, q0_process|apply q0_mmap, q0_report; exact Logic.I]. Qed.
  Lemma prog_fresh w : q2 (prog w) \/ fresh (prog w).
  Proof. destruct w as [i [now m|o o']|]; [left; apply q2_mmap, q2_handle|right; apply fresh_mmap, fresh_process|right; apply fresh_mmap, fresh_report; exact Logic.I]. Qed.

  (** ** The invariant *)
  Definition callinv (w : who) (p : mp (R := R) answer) (s s1 : St) : Prop :=
    (pre p /\ forall D, exec p (expires D s) = acall w (expires D s1)) \/
    (resetting p /\ tm_deadline (st_timer s) = None /\ exec p s = acall w s1) \/
    (nt p /\ exists D s2, s = expires D s2 /\ exec p s2 = acall w s1).
  Definition obs (p : mp (R := R) answer) (s s1 : St) : Prop :=
    (q0 p /\ st_done s = st_done s1 /\ st_err s = st_err s1) \/ (q1 p /\ st_done s = st_done s1) \/ q2 p.
  Definition fini (p : mp (R := R) answer) (s : St) : Prop := st_done s = true -> q2 p \/ fresh p.
  Definition running_of (i : nat) (r : option (who * mp (R := R) answer)) : list call :=
    match r with Some (Caller j c, _) => if Nat.eqb i j then [c] else [] | _ => [] end.
  Definition inv (s0 : St) (todo : nat -> list call) (c : conf) : Prop :=
    exists es s1, seq s0 es = Ret (s1, cf_log c) /\
      (forall i, calls_of i (cf_log c) ++ running_of i (cf_running c) ++ cf_todo c i = todo i) /\
      match cf_running c with
      | None => cf_crashed c = false /\ s1 = cf_state c
      | Some (w, p) => ready w s1 /\ callinv w p (cf_state c) s1 /\ obs p (cf_state c) s1 /\ fini p (cf_state c) /\
                       (cf_crashed c = true -> forall r, acall w s1 <> Ret r)
      end.

  Lemma callinv_start w s : ready w s -> callinv w (prog w) (start w s) s.
  Proof. intros H. left. split; [apply prog_pre|]. intros D. rewrite <- start_expires by exact H. apply exec_prog, ready_expires, H. Qed.
  Lemma callinv_step w X (f : St -> outcome (St * X)) k s s' x s1 : callinv w (MAct f k) s s1 -> f s = Ret (s', x) -> callinv w (k x) s' s1.
  Proof.
    intros [ [P H]|[ [P [HD H] ]|[P (D & s2 & -> & H)] ] ] E.
    - cbn in P. destruct P as [ [N P]|[N P] ].
      + left. split; [apply P|]. intros D. rewrite <- H. cbn [exec]. rewrite (nt_acts f) by exact N. rewrite E. reflexivity.
      + specialize (H []). cbn in H. rewrite E in H. cbn in H. destruct (P x) as [P'|P'].
        * right. right. split; [exact P'|]. exists [], s'. split; [reflexivity|exact H].
        * right. left. split; [exact P'|]. split; [eapply N, E|exact H].
    - cbn in P, H. rewrite E in H. right. right. split; [apply P|]. exists [], s'. split; [reflexivity|exact H].
    - cbn in P. destruct P as [N P]. rewrite (nt_acts f) in E by exact N. cbn [exec] in H. destruct (f s2) as [ [s3 x3]|?|?]; cbn in E; try discriminate.
      injection E; intros <- <-. right. right. split; [apply P|]. exists D, s3. split; [reflexivity|exact H].
  Qed.
  Lemma callinv_crash w X (f : St -> outcome (St * X)) k s s1 : callinv w (MAct f k) s s1 -> (forall r, f s <> Ret r) -> forall r, acall w s1 <> Ret r.
  Proof.
    intros [ [P H]|[ [P [HD H] ]|[P (D & s2 & -> & H)] ] ] E r.
    - specialize (H []). cbn in H. rewrite <- H. destruct (f s) as [r'|?|?]; [destruct (E r' eq_refl)|discriminate|discriminate].
    - cbn in H. rewrite <- H. destruct (f s) as [r'|?|?]; [destruct (E r' eq_refl)|discriminate|discriminate].
    - cbn in P, H. destruct P as [N _]. rewrite <- H. rewrite (nt_acts f) in E by exact N. destruct (f s2) as [r'|?|?]; [destruct (E _ eq_refl)|discriminate|discriminate].
  Qed.
  Lemma callinv_ret w a s s1 : callinv w (MRet a) s s1 -> exists D s2, acall w s1 = Ret (s2, a) /\ s = expires D s2.
  Proof.
    intros [ [P H]|[ [P [HD H] ]|[P (D & s2 & -> & H)] ] ].
    - exists [], s. split; [symmetry; apply (H [])|reflexivity].
    - destruct P.
    - exists D, s2. split; [symmetry; exact H|reflexivity].
  Qed.
  Lemma obs_step X (f : St -> outcome (St * X)) k s s' x s1 : obs (MAct f k) s s1 -> f s = Ret (s', x) -> obs (k x) s' s1.
  Proof.
    intros [ (Q & HD & HE)|[ [Q HD]|Q] ] E; cbn in Q.
    - destruct Q as [ (KD & KE & Q)|[ [KD Q]|[KE Q] ] ].
      + left. rewrite (KD _ _ _ E), (KE _ _ _ E). auto.
      + right. left. rewrite (KD _ _ _ E). auto.
      + right. right. apply Q.
    - destruct Q as (KE & [ [KD Q]|Q]); [right; left; rewrite (KD _ _ _ E); auto|right; right; apply Q].
    - right. right. apply Q.
  Qed.
  Lemma fini_step X (f : St -> outcome (St * X)) k s s' x s1 : obs (MAct f k) s s1 -> fini (MAct f k) s -> f s = Ret (s', x) -> fini (k x) s'.
  Proof.
    intros O F E D. destruct (st_done s) eqn:ED.
    - destruct (F ED) as [Q|Q]; cbn in Q; [left; apply Q|]. left. destruct Q as (_ & _ & Q). eapply Q; eauto.
    - destruct O as [ (Q & _)|[ [Q _]|Q] ]; cbn in Q.
      + destruct Q as [ (KD & _)|[ [KD _]|[_ Q] ] ]; [rewrite (KD _ _ _ E), ED in D; discriminate..|left; apply Q].
      + destruct Q as (_ & [ [KD _]|Q]); [rewrite (KD _ _ _ E), ED in D; discriminate|left; apply Q].
      + left. apply Q.
  Qed.
  Lemma seq_snoc s0 es s1 l w s2 a D : seq s0 es = Ret (s1, l) -> acall w s1 = Ret (s2, a) ->
    seq s0 (es ++ SCall w :: map SExpire D) = Ret (expires D s2, l ++ [(w, a)]).
  Proof.
    intros E1 E2. rewrite seq_app, E1. cbn [obind fst snd seq]. rewrite E2. cbn [obind fst snd].
    assert (H : forall s, seq s (map SExpire D) = Ret (expires D s, [])). { clear. induction D as [|now D IH]; intros s; cbn; [reflexivity|]. apply IH. }
    rewrite H. reflexivity.
  Qed.
  Lemma calls_app i l l' : calls_of i (l ++ l') = calls_of i l ++ calls_of i l'.
  Proof. apply flat_map_app. Qed.

  Lemma inv_step s0 todo c c' : inv s0 todo c -> fstep I c c' -> inv s0 todo c'.
  Proof.
    intros (es & s1 & Es & Ht & V) St1. destruct St1 as [i k l HC HR HT|n HC HR HP|w X f k s' x HC HR HF|w X f k HC HR HF|w a HC HR|now HC].
    - rewrite HR in V, Ht. destruct V as [_ ->]. exists es, (cf_state c). cbn [cf_log cf_running cf_todo cf_state cf_crashed]. split; [exact Es|]. split.
      + intros j. rewrite <- (Ht j). cbn [running_of]. unfold upd_todo. rewrite (Nat.eqb_sym j i). destruct (Nat.eqb_spec i j) as [->|N]; [rewrite HT|]; reflexivity.
      + split; [exact Logic.I|]. split; [apply (callinv_start (Caller i k)); exact Logic.I|]. split; [left; split; [apply (prog_q0 (Caller i k))|auto]|].
        split; [intros _; apply (prog_fresh (Caller i k))|discriminate].
    - rewrite HR in V, Ht. destruct V as [_ ->]. exists es, (cf_state c). cbn [cf_log cf_running cf_todo cf_state cf_crashed]. split; [exact Es|]. split; [exact Ht|].
      assert (RD : ready Timer (cf_state c)) by (cbn; rewrite HP; discriminate). pose proof (callinv_start Timer _ RD) as CI. cbn [start] in CI. rewrite HP in CI.
      split; [exact RD|]. split; [exact CI|]. split; [left; split; [apply (prog_q0 Timer)|auto]|]. split; [intros _; apply (prog_fresh Timer)|discriminate].
    - rewrite HR in V, Ht. destruct V as (RD & CI & O & F & _). exists es, s1. cbn [cf_log cf_running cf_todo cf_state cf_crashed]. split; [exact Es|]. split; [exact Ht|].
      split; [exact RD|]. split; [eapply callinv_step; eauto|]. split; [eapply obs_step; eauto|]. split; [eapply fini_step; eauto|discriminate].
    - exists es, s1. cbn [cf_log cf_running cf_todo cf_state cf_crashed]. split; [exact Es|]. split; [exact Ht|]. rewrite HR in V. rewrite HR. destruct V as (RD & CI & O & F & _).
      split; [exact RD|]. split; [exact CI|]. split; [exact O|]. split; [exact F|]. intros _. eapply callinv_crash; eauto.
    - rewrite HR in V, Ht. destruct V as (RD & CI & O & F & _). apply callinv_ret in CI as (D & s2 & E2 & E3).
      exists (es ++ SCall w :: map SExpire D), (expires D s2). cbn [cf_log cf_running cf_todo cf_state cf_crashed]. split; [eapply seq_snoc; eauto|]. split; [|auto].
      intros i. rewrite <- (Ht i), calls_app, <- app_assoc. f_equal. cbn [running_of]. destruct w as [j k|]; cbn; [|reflexivity]. destruct (Nat.eqb i j); reflexivity.
    - cbn [cf_log cf_running cf_todo cf_state cf_crashed]. unfold inv. cbn [cf_log cf_running cf_todo cf_state cf_crashed].
      assert (EX : seq s0 (es ++ [SExpire now]) = Ret (timerExpire now s1, cf_log c)). { rewrite seq_app, Es. cbn. rewrite app_nil_r. reflexivity. }
      destruct (cf_running c) as [ [w p]|].
      + destruct V as (RD & CI & O & F & Cr). destruct (expire_obs now (cf_state c)) as [D1 D2]. destruct (expire_obs now s1) as [D3 D4].
        assert (F' : fini p (timerExpire now (cf_state c))) by (unfold fini; rewrite D1; exact F).
        destruct CI as [ [P H]|[ [P [HD H] ]|[P (D & s2 & E & H)] ] ].
        * exists (es ++ [SExpire now]), (timerExpire now s1). split; [exact EX|]. split; [exact Ht|]. split; [apply ready_expire, RD|]. split.
          { left. split; [exact P|]. intros D. apply (H (now :: D)). }
          split; [unfold obs; rewrite D1, D2, D3, D4; exact O|]. split; [exact F'|]. discriminate.
        * exists es, s1. split; [exact Es|]. split; [exact Ht|]. split; [exact RD|].
          assert (EE : timerExpire now (cf_state c) = cf_state c) by (unfold timerExpire; rewrite HD; reflexivity). rewrite EE in *.
          split; [right; left; auto|]. split; [exact O|]. split; [exact F'|discriminate].
        * exists es, s1. split; [exact Es|]. split; [exact Ht|]. split; [exact RD|]. split.
          { right. right. split; [exact P|]. exists (D ++ [now]), s2. split; [rewrite expires_snoc, <- E; reflexivity|exact H]. }
          split; [unfold obs; rewrite D1, D2; exact O|]. split; [exact F'|discriminate].
      + destruct V as [_ ->]. exists (es ++ [SExpire now]), (timerExpire now (cf_state c)). auto.
  Qed.
  Lemma inv_steps s0 todo c : fsteps I (finit s0 todo) c -> inv s0 todo c.
  Proof.
    induction 1 as [|c1 c2 _ IH S1]; [|eapply inv_step; eauto]. exists [], s0. cbn. auto.
  Qed.

  (** ** Theorems *)
  Theorem C64_linearizable s0 todo c : fsteps I (finit s0 todo) c -> cf_running c = None ->
    exists es, seq s0 es = Ret (cf_state c, cf_log c) /\ forall i, calls_of i (cf_log c) ++ cf_todo c i = todo i.
  Proof.
    intros H HR. apply inv_steps in H as (es & s1 & Es & Ht & V). rewrite HR in V, Ht. destruct V as [_ ->]. exists es. auto.
  Qed.
  Theorem C64_history s0 todo c : fsteps I (finit s0 todo) c -> cf_running c = None -> exists evs, run I s0 evs = Ret (cf_state c, sent (cf_log c)).
  Proof. intros H HR. destruct (C64_linearizable _ _ _ H HR) as (es & E & _). exists (map event_of es). apply seq_run, E. Qed.

  Lemma q2_exec p s s' (a : answer) : q2 p -> exec p s = Ret (s', a) -> st_done s' = st_done s /\ st_err s' = st_err s.
  Proof.
    revert s. induction p as [b|X f k IH]; intros s Q; cbn [exec q2] in *; [injection 1; intros _ <-; auto|]. destruct Q as (KD & KE & Q). intros E.
    apply obind_ret in E as ([s2 x] & E1 & E2). apply (IH x) in E2 as [-> ->]; [|apply Q]. split; [eapply KD, E1|eapply KE, E1].
  Qed.
  Lemma q1_exec p s s' (a : answer) : q1 p -> exec p s = Ret (s', a) -> st_err s' = st_err s.
  Proof.
    revert s. induction p as [b|X f k IH]; intros s Q; cbn [exec q1] in *; [injection 1; intros _ <-; auto|]. destruct Q as (KE & Q). intros E.
    apply obind_ret in E as ([s2 x] & E1 & E2). rewrite <- (KE _ _ _ E1). destruct Q as [ [KD Q]|Q]; [apply (IH x) in E2; auto|]. eapply (q2_exec (k x)); eauto.
  Qed.
  (** A reader during a call sees the values of before the call, or those of after it, or the earlier "unfinished" with the final error. *)
  Theorem C64_during s0 todo c w p : fsteps I (finit s0 todo) c -> cf_running c = Some (w, p) ->
    exists es s1, seq s0 es = Ret (s1, cf_log c) /\
      forall s2 a, acall w s1 = Ret (s2, a) ->
        (st_done (cf_state c) = st_done s1 /\ st_err (cf_state c) = st_err s1) \/
        (st_done (cf_state c) = st_done s1 /\ st_err (cf_state c) = st_err s2) \/
        (st_done (cf_state c) = st_done s2 /\ st_err (cf_state c) = st_err s2).
  Proof.
    intros H HR. apply inv_steps in H as (es & s1 & Es & Ht & V). rewrite HR in V. destruct V as (RD & CI & O & F & _). exists es, s1. split; [exact Es|].
    intros s2 a E2.
    assert (EX : exists s3 s4, exec p s3 = Ret (s4, a) /\ st_done s3 = st_done (cf_state c) /\ st_err s3 = st_err (cf_state c) /\ st_done s4 = st_done s2 /\ st_err s4 = st_err s2).
    { destruct CI as [ [P K]|[ [P [HD K] ]|[P (D & s3 & E & K)] ] ].
      - exists (cf_state c), s2. split; [rewrite <- E2; apply (K [])|auto].
      - exists (cf_state c), s2. split; [congruence|auto].
      - exists s3, s2. rewrite E. destruct (expires_obs D s3) as [-> ->]. split; [congruence|auto]. }
    destruct EX as (s3 & s4 & EX & D3 & D4 & D5 & D6). destruct O as [ (_ & D1 & D2)|[ [Q D1]|Q] ].
    - left. auto.
    - right. left. split; [exact D1|]. apply (q1_exec _ _ _ _ Q) in EX. congruence.
    - right. right. apply (q2_exec _ _ _ _ Q) in EX as [? ?]. split; congruence.
  Qed.
  (** "Finished" is final, and so is the error read together with it or later: a reader needs no mutex. *)
  Lemma finished_step s0 todo c c' : inv s0 todo c -> fstep I c c' -> st_done (cf_state c) = true ->
    st_done (cf_state c') = true /\ st_err (cf_state c') = st_err (cf_state c).
  Proof.
    intros (es & s1 & Es & Ht & V) St1 HD. destruct St1 as [i k l HC HR HT|n HC HR HP|w X f k s' x HC HR HF|w X f k HC HR HF|w a HC HR|now HC]; cbn [cf_state]; auto.
    - rewrite HR in V. destruct V as (RD & CI & O & F & _). rewrite <- HD. destruct (F HD) as [Q|Q]; cbn in Q; destruct Q as (KD & KE & _); (split; [eapply KD, HF|eapply KE, HF]).
    - rewrite <- HD. apply expire_obs.
  Qed.
  Theorem C64_finished_final s0 todo c c' : fsteps I (finit s0 todo) c -> fsteps I c c' -> st_done (cf_state c) = true ->
    st_done (cf_state c') = true /\ st_err (cf_state c') = st_err (cf_state c).
  Proof.
    intros H H' HD. assert (K : inv s0 todo c' /\ st_done (cf_state c') = true /\ st_err (cf_state c') = st_err (cf_state c)); [|apply K].
    induction H' as [|c1 c2 _ IH S1]; [split; [apply inv_steps, H|auto]|]. destruct IH as (V & D & E). destruct (finished_step _ _ _ _ V S1 D) as [D' E'].
    split; [eapply inv_step; eauto|]. split; congruence.
  Qed.
  (** A panic under any interleaving is a panic of a sequence of calls. *)
  Lemma seq_panic s es : (forall r, seq s es <> Ret r) -> forall r, run I s (map event_of es) <> Ret r.
  Proof.
    revert s. induction es as [|e es IH]; intros s H r; cbn [seq map run] in *; [destruct (H _ eq_refl)|]. destruct e as [w|now].
    - assert (ES : step I s (event_of (SCall w)) = obind (acall w s) (fun r => Ret (fst r, sent [(w, snd r)]))).
      { destruct w as [i [now m|o o']|]; cbn [step event_of acall].
        - destruct (HandleMessage I now s m); reflexivity.
        - destruct (ProcessAll I o o' s) as [ [? ?]|?|?]; cbn; rewrite ?app_nil_r; reflexivity.
        - destruct (timerCallback I s); reflexivity. }
      rewrite ES. destruct (acall w s) as [ [s1 a]|?|?]; cbn [obind fst snd] in *; [|discriminate|discriminate].
      specialize (IH s1). destruct (seq s1 es) as [ [s2 l]|?|?]; cbn [obind] in H; [destruct (H _ eq_refl)|..];
        (destruct (run I s1 (map event_of es)) as [r'|?|?] eqn:ER; cbn [obind]; [destruct (IH ltac:(discriminate) r' eq_refl)|discriminate|discriminate]).
    - cbn [event_of step obind fst snd]. destruct (run I (timerExpire now s) (map event_of es)) as [r'|?|?] eqn:ER; cbn [obind]; [|discriminate|discriminate].
      destruct (IH _ H r' ER).
  Qed.
  Theorem C64_crash s0 todo c : fsteps I (finit s0 todo) c -> cf_crashed c = true ->
    exists es w p s1, cf_running c = Some (w, p) /\ seq s0 es = Ret (s1, cf_log c) /\ (forall r, acall w s1 <> Ret r) /\
      forall r, run I s0 (map event_of (es ++ [SCall w])) <> Ret r.
  Proof.
    intros H HC. apply inv_steps in H as (es & s1 & Es & Ht & V). destruct (cf_running c) as [ [w p]|]; [|destruct V as [V _]; congruence].
    destruct V as (RD & CI & O & F & Cr). specialize (Cr HC). exists es, w, p, s1. split; [reflexivity|]. split; [exact Es|]. split; [exact Cr|].
    apply seq_panic. intros r. rewrite seq_app, Es. cbn [obind fst snd seq]. destruct (acall w s1) as [r'|?|?]; [destruct (Cr _ eq_refl)|discriminate|discriminate].
  Qed.
  Corollary C64_no_crash s0 todo c : (forall evs, exists r, run I s0 evs = Ret r) -> fsteps I (finit s0 todo) c -> cf_crashed c = false.
  Proof.
    intros N H. destruct (cf_crashed c) eqn:E; [|reflexivity]. destruct (C64_crash _ _ _ H E) as (es & w & p & s1 & _ & _ & _ & K).
    destruct (N (map event_of (es ++ [SCall w]))) as [r Er]. destruct (K r Er).
  Qed.
  (** The holder of the mutex is never blocked, and its call ends, with a return or a panic; then the next call can begin. *)
  Lemma fsteps_trans c c1 c2 : fsteps I c c1 -> fsteps I c1 c2 -> fsteps I c c2.
  Proof. intros H1 H2. induction H2 as [|c3 c4 _ IH S1]; [exact H1|]. eapply fs_step; eauto. Qed.
  Theorem C64_call_ends c w p : cf_crashed c = false -> cf_running c = Some (w, p) ->
    exists c', fsteps I c c' /\ cf_todo c' = cf_todo c /\ (cf_crashed c' = true \/ exists a, cf_running c' = None /\ cf_log c' = cf_log c ++ [(w, a)]).
  Proof.
    revert c. induction p as [a|X f k IH]; intros c HC HR.
    - eexists. split; [eapply fs_step; [apply fs_refl|eapply f_unlock; eauto]|]. cbn. eauto.
    - destruct (f (cf_state c)) as [ [s' x]|?|?] eqn:E.
      + destruct (IH x (mkConf s' (Some (w, k x)) (cf_todo c) (cf_log c) false)) as (c' & S1 & T & H); [reflexivity..|]. exists c'. split; [|auto].
        eapply fsteps_trans; [|exact S1]. eapply fs_step; [apply fs_refl|]. eapply f_access; eauto.
      + eexists. split; [eapply fs_step; [apply fs_refl|eapply f_crash; eauto; rewrite E; discriminate]|]. cbn. auto.
      + eexists. split; [eapply fs_step; [apply fs_refl|eapply f_crash; eauto; rewrite E; discriminate]|]. cbn. auto.
  Qed.
  (** Every sequence of calls is one of the interleavings. *)
  Fixpoint planned (i : nat) (es : list sevent) : list call :=
    match es with
    | [] => []
    | SCall (Caller j c) :: es' => (if Nat.eqb i j then [c] else []) ++ planned i es'
    | _ :: es' => planned i es'
    end.
  (** A callback runs only if the timer has started one. *)
  Fixpoint possible (s : St) (es : list sevent) : Prop :=
    match es with
    | [] => True
    | SCall w :: es' => ready w s /\ forall s' a, acall w s = Ret (s', a) -> possible s' es'
    | SExpire now :: es' => possible (timerExpire now s) es'
    end.
  Lemma run_call p : forall c w s' a, cf_crashed c = false -> cf_running c = Some (w, p) -> exec p (cf_state c) = Ret (s', a) ->
    fsteps I c (mkConf s' None (cf_todo c) (cf_log c ++ [(w, a)]) false).
  Proof.
    induction p as [b|X f k IH]; intros c w s' a HC HR E; cbn [exec] in E.
    - injection E; intros <- <-. eapply fs_step; [apply fs_refl|]. apply f_unlock; auto.
    - apply obind_ret in E as ([s2 x] & E1 & E2). cbn [fst snd] in E2. eapply fsteps_trans; [eapply fs_step; [apply fs_refl|]; eapply f_access; eauto|].
      apply (IH x (mkConf s2 (Some (w, k x)) (cf_todo c) (cf_log c) false)); auto.
  Qed.
  Theorem C64_complete es : forall s s' l todo lg rest, seq s es = Ret (s', l) -> possible s es -> (forall i, todo i = planned i es ++ rest i) ->
    exists todo', fsteps I (mkConf s None todo lg false) (mkConf s' None todo' (lg ++ l) false) /\ forall i, todo' i = rest i.
  Proof.
    induction es as [|e es IH]; intros s s' l todo lg rest E P T.
    - injection E; intros <- <-. exists todo. rewrite app_nil_r. split; [apply fs_refl|exact T].
    - destruct e as [w|now].
      + cbn [seq possible] in E, P. destruct P as [RD P]. apply obind_ret in E as ([s1 a] & E1 & E). apply obind_ret in E as ([s2 l2] & E2 & E3).
        injection E3; intros <- <-. cbn [fst snd] in *. specialize (P _ _ E1). rewrite <- (exec_prog w s RD) in E1. destruct w as [i c|].
        * destruct (IH s1 s2 l2 (upd_todo todo i (planned i es ++ rest i)) (lg ++ [(Caller i c, a)]) rest E2 P) as (todo' & F & T').
          { intros j. unfold upd_todo. destruct (Nat.eqb_spec i j) as [->|N]; [reflexivity|]. rewrite T. cbn [planned]. rewrite (proj2 (Nat.eqb_neq j i)) by auto. reflexivity. }
          exists todo'. split; [|exact T']. rewrite <- app_assoc in F. eapply fsteps_trans; [|exact F]. eapply fsteps_trans.
          { eapply fs_step; [apply fs_refl|]. apply (f_lock I _ i c (planned i es ++ rest i)); [reflexivity..|]. cbn [cf_todo]. rewrite T. cbn [planned]. rewrite Nat.eqb_refl. reflexivity. }
          exact (run_call (prog (Caller i c)) (mkConf s (Some (Caller i c, prog (Caller i c))) (upd_todo todo i (planned i es ++ rest i)) lg false)
            (Caller i c) s1 a eq_refl eq_refl E1).
        * destruct (IH s1 s2 l2 todo (lg ++ [(Timer, a)]) rest E2 P) as (todo' & F & T'); [exact T|].
          exists todo'. split; [|exact T']. rewrite <- app_assoc in F. eapply fsteps_trans; [|exact F]. cbn [ready] in RD.
          destruct (tm_pending (st_timer s)) as [|n] eqn:EP; [contradiction|]. eapply fsteps_trans.
          { eapply fs_step; [apply fs_refl|]. apply (f_callback I _ n); [reflexivity..|exact EP]. }
          cbn [start] in E1. rewrite EP in E1. exact (run_call (prog Timer) (mkConf _ (Some (Timer, prog Timer)) todo lg false) Timer s1 a eq_refl eq_refl E1).
      + cbn [seq possible] in E, P. destruct (IH _ _ _ todo lg rest E P T) as (todo' & F & T'). exists todo'. split; [|exact T'].
        eapply fsteps_trans; [|exact F]. eapply fs_step; [apply fs_refl|]. exact (f_expire I (mkConf s None todo lg false) now eq_refl).
  Qed.
  (** The first [n] accesses of a program. *)
  Fixpoint first {A} (n : nat) (p : mp (R := R) A) (s : St) : outcome (St * mp (R := R) A) :=
    match n, p with
    | S n', MAct f k => obind (f s) (fun r => first n' (k (snd r)) (fst r))
    | _, _ => Ret (s, p)
    end.
End Lin.

(** Consequence for signing: whatever the goroutines do, and at any moment, the calls that have returned gave out at most one
    message of each kind, so at most one signature share; a State seen finished without error holds a valid signature. *)
Section Signing.
  Context `{Gr : group_ops} `{Hf : hash_fn}.
  Theorem C64_sign : forall rg now timeout ids share shares message s0 todo c,
    NewSignState rg now timeout ids share shares message = Ret s0 -> fsteps sign_round (finit s0 todo) c ->
    (let ts := map m_Type (sent (cf_log c)) in ts = [] \/ ts = [MTSign1] \/ ts = [MTSign1; MTSign2]) /\
    (cf_running c = None -> st_done (cf_state c) = true -> st_err (cf_state c) = None ->
      exists sig, sg_output (cf_state c) = Some sig /\ Verify (pub_GroupKey shares) message sig = true).
  Proof.
    intros rg now timeout ids share shares message s0 todo c NEW H. split.
    - apply inv_steps in H as (es & s1 & Es & _). apply seq_run in Es.
      exact (C14_at_most_one rg now timeout ids share shares message s0 NEW s1 _ (ex_intro _ _ Es)).
    - intros HR D E. destruct (C64_history sign_round _ _ _ H HR) as [evs Er].
      exact (C01_success rg now timeout ids share shares message s0 NEW _ _ (ex_intro _ _ Er) D E).
  Qed.
End Signing.

(** Not vacuous: with the second of two HandleMessage running between the first one's read of the queue and its write, as without
    the mutex, a message is lost.  No order of the two calls does that. *)
Definition no_msg : tmsg := @mkMessage toy_group (mkHeader 0 0 0) None None None None.
Definition late (i : Z) : tmsg := hd no_msg (to_ 1 (kg2_of i)).
Definition both_calls (s : tkstate) : nat :=
  match @exec toy_group tkround _ (@handle_body toy_group tkround tkg 0 (late 2)) s with
  | Ret (s1, _) => match @exec toy_group tkround _ (@handle_body toy_group tkround tkg 0 (late 3)) s1 with Ret (s2, _) => List.length (st_queue s2) | _ => 99%nat end
  | _ => 99%nat end.
Definition interleaved (s : tkstate) : nat :=
  match @first toy_group tkround _ 10 (@handle_body toy_group tkround tkg 0 (late 2)) s with
  | Ret (s1, p) => match @exec toy_group tkround _ (@handle_body toy_group tkround tkg 0 (late 3)) s1 with
    | Ret (s2, _) => match @exec toy_group tkround _ p s2 with Ret (s3, _) => List.length (st_queue s3) | _ => 99%nat end
    | _ => 99%nat end
  | _ => 99%nat end.
Example C64_mutex_needed : match tk_run (tk_new k3 1 1 0) [prc] with Ret (s, _) => both_calls s = 2%nat /\ interleaved s = 1%nat | _ => False end.
Proof. vm_compute. split; reflexivity. Qed.

(** An expiry in the middle of a HandleMessage, in an execution of the fine model: goroutine 0 hands over a message at time 5, the
    timer of 10 expires (at 20) before Stop; the callback then ends the protocol. *)
Definition ev (s : tkstate) (es : list (@sevent toy_group)) : bool * nat * Z :=
  match @seq toy_group tkround tkg s es with
  | Ret (s', l) => (st_done s', List.length l, match st_err s' with Some e => pe_RoundNumber e | None => -1 end)
  | _ => (false, 99%nat, -1) end.
Example C64_example : match tk_run (tk_new k3 1 1 10) [prc] with
  | Ret (s, _) => ev s [SExpire 20; SCall (Caller 0 (@CHandle toy_group 5 (late 2))); SCall Timer] = (true, 2%nat, 1) /\
             ev s [SCall (Caller 0 (@CHandle toy_group 5 (late 2))); SExpire 14; SCall Timer] = (false, 2%nat, -1)
  | _ => False end.
Proof. vm_compute. split; reflexivity. Qed.

Print Assumptions C64_linearizable.
Print Assumptions C64_history.
Print Assumptions C64_during.
Print Assumptions C64_finished_final.
Print Assumptions C64_crash.
Print Assumptions C64_no_crash.
Print Assumptions C64_call_ends.
Print Assumptions C64_complete.
Print Assumptions C64_sign.
