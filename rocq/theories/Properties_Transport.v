(** C65: the goroutines of the Channel transport and of UDP (test/internal/communication) and the shutdown in test/frosted.go. *)
From Coq Require Import ZArith Lia List Bool String.
From Coq.Strings Require Import Byte.
From stdpp Require Import base gmap list fin_maps.
From Verif Require Import ZField Primes Bytes Scalar Go Group ToyGroup Spec_Poly PolyAlg Party Poly PolyFacts Zk Eddsa Messages State StateFacts Keygen Sign Helpers Cmd
  Spec_Group Properties_Algebra Spec_Wire CodecFacts Properties_Codec Lift Net Progress NetProgress Lockstep RoundFacts ToyRuns
  Spec_Sign SignFacts SignRun Spec_SignRun Properties_Sign Properties_HonestSign KeygenFacts KeygenRun Spec_Keygen Properties_Keygen Properties_HonestKeygen
  Properties_Cmd Loops LoopsFacts Properties_Loops Harness Properties_Harness Transport TransportFacts.
Import ListNotations.
Local Open Scope Z_scope.

Lemma kg_kinds : List.NoDup [MTNone; MTKeyGen1; MTKeyGen2].
Proof. repeat constructor; cbn; intuition discriminate. Qed.
Lemma sg_kinds : List.NoDup [MTNone; MTSign1; MTSign2].
Proof. repeat constructor; cbn; intuition discriminate. Qed.
(** The test program has come to a halt. *)
Definition t_halted `{Gr : group_ops} {R} (I : RoundI R) (early : bool) (ids : list Z) (c : tconfig) : Prop := forall l c', ~ t_step I early ids c l c'.
(** It waits for States that will never finish, everything else being idle: all started, nothing under way, who is done has returned. *)
Definition t_hangs `{Gr : group_ops} {R} (ids : list Z) (c : @tconfig _ R) : Prop :=
  (exists rest, tc_main c = MWait rest /\ rest <> [] /\ forall k, In k rest -> In k ids /\ st_done (tc_state c k) = false) /\
  forall i, In i ids -> tc_started c i = true /\ tc_out c i = [] /\ tc_bytes c i = [] /\ tc_hand c i = None /\ tc_inc c i = [] /\ tc_ret c i = st_done (tc_state c i).

Section Any.
  Context `{Gr : group_ops} {R : Type} (I : RoundI R) (ROK : round_ok I).
  Context (ids : list Z) (HS : sorted ids) (HV : valid_ids ids) (H2 : (2 <= List.length ids)%nat).
  Context (U W : Message -> Prop) (now timeout : Z -> Z) (r0 : Z -> R) (P : Z -> nat -> R -> list Message -> Prop)
      (F : Z -> R -> option PError -> list Message -> Prop) (s0 : Z -> State R) (t0 t1 t2 : Z) (M1 : Z -> Message) (M2 : Z -> list Message).
  Context (T : three I ids U W now timeout r0 P F s0 t0 t1 t2 M1 M2) (TD : List.NoDup [t0; t1; t2]).
  Context (AD : forall i m, In i ids -> In m (M2 i) -> m_To m = 0 \/ In (m_To m) ids).

  Lemma done_over early ls c : t_trace I early ids (t_init ids s0) ls c -> t_halted I early ids c -> (forall i, In i ids -> st_done (tc_state c i) = true) -> t_over ids c.
  Proof.
    intros HTr Hh HD. destruct (t_stuck I ROK ids HS HV H2 U W now timeout r0 P F s0 t0 t1 t2 M1 M2 T TD AD early ls c HTr Hh) as [_ [X|(rest & _ & Hne & Hr)] ]; auto.
    destruct rest as [|k rest]; [congruence|]. destruct (Hr k (or_introl eq_refl)) as [Hk E]. rewrite HD in E; auto. discriminate.
  Qed.
  Lemma halts_or_hangs early ls c : t_trace I early ids (t_init ids s0) ls c -> t_halted I early ids c -> t_over ids c \/ t_hangs ids c.
  Proof.
    intros HTr Hh. destruct (t_stuck I ROK ids HS HV H2 U W now timeout r0 P F s0 t0 t1 t2 M1 M2 T TD AD early ls c HTr Hh) as [A [X|X] ]; [left|right; split]; auto.
  Qed.
End Any.

(** * Closing the channels *)
Section Closing.
  Context `{Gr : group_ops} {R : Type} (I : RoundI R) (ids : list Z) (HN : List.NoDup ids) (s0 : Z -> State R) (early : bool).
  Notation runs := (t_trace I early ids (t_init ids s0)).

  Lemma closed_true k rest : negb (existsb (Z.eqb k) rest) = true <-> ~ In k rest.
  Proof.
    rewrite negb_true_iff, <- not_true_iff_false, existsb_exists. split; intros H X; apply H; [exists k; split; auto; apply Z.eqb_refl|].
    destruct X as (x & Hx & E). apply Z.eqb_eq in E. now subst.
  Qed.
  Lemma inc_closed_iff (c : tconfig (R := R)) k : inc_closed c k = true <->
    match tc_main c with MWait _ => False | MClose rest => ~ In k rest | MClosing k' rest => k <> k' /\ ~ In k rest end.
  Proof.
    unfold inc_closed. destruct (tc_main c) as [rest|rest|k' rest]; [split; [discriminate|contradiction]|apply closed_true|].
    rewrite closed_true. cbn [In]. split; [intros H; split; intros X; apply H; auto|]. intros [A B] [X|X]; [now apply A|auto].
  Qed.
  Lemma bytes_closed_iff (c : tconfig (R := R)) k : bytes_closed c k = true <-> match tc_fin c with FWait => False | FClose rest => ~ In k rest | FEnd => True end.
  Proof. unfold bytes_closed. destruct (tc_fin c) as [|rest|]; [split; [discriminate|contradiction]|apply closed_true|tauto]. Qed.
  (** What is still to be closed has no duplicates and consists of parties. *)
  Definition to_close (c : tconfig (R := R)) : Prop :=
    match tc_main c with MWait _ => True | MClose rest => List.NoDup rest /\ incl rest ids | MClosing k rest => List.NoDup (k :: rest) /\ incl (k :: rest) ids end /\
    match tc_fin c with FClose rest => List.NoDup rest /\ incl rest ids | _ => True end.
  Lemma to_close_step c l c' : to_close c -> t_step I early ids c l c' -> to_close c'.
  Proof.
    intros [A B] H. destruct H; unfold to_close, set_handler, set_main, set_fin; cbn [tc_main tc_fin]; try (split; assumption); (split; [|first [assumption|exact Logic.I|idtac] ]).
    all: try exact Logic.I; try assumption.
    - split; [exact HN|apply incl_refl].
    - split; [exact HN|apply incl_refl].
    - rewrite H in A. destruct A as [A1 A2]. split.
      + constructor; [now apply NoDup_remove_2 in A1|now apply NoDup_remove_1 in A1].
      + intros x [<-|X]; apply A2; [apply in_elt|]. apply in_app_iff in X. apply in_app_iff. cbn. tauto.
    - rewrite H in A. destruct A as [A1 A2]. split; [now inversion A1|]. intros x X. apply A2. now right.
    - split; [exact HN|apply incl_refl].
    - rewrite H in B. destruct B as [A1 A2]. split; [now apply NoDup_remove_1 in A1|]. intros x X. apply A2. apply in_app_iff in X. apply in_app_iff. cbn. tauto.
  Qed.
  Lemma to_close_runs ls c : runs ls c -> to_close c.
  Proof. induction 1; [split; exact Logic.I|eapply to_close_step; eauto]. Qed.

  Lemma fin_zero ls c : runs ls c -> tc_fin c <> FWait -> wg_zero c.
  Proof.
    induction 1 as [|ls c l c' HT IH Hs]; [cbn; congruence|]. destruct Hs; unfold wg_zero, set_handler, set_main, set_fin in *; cbn [tc_main tc_fin] in *; auto.
    - intros X. specialize (IH X). now rewrite H in IH.
    - intros X. specialize (IH X). now rewrite H in IH.
    - intros X. specialize (IH X). now rewrite H in IH.
    - intros X. specialize (IH X). rewrite H in IH. destruct r1; discriminate IH.
    - intros X. specialize (IH X). now rewrite H in IH.
    - intros _. apply IH. congruence.
    - intros _. apply IH. congruence.
  Qed.
  (** At the beginning no channel is closed; a closed channel stays closed; [incoming] of [k] becomes closed exactly when the test
      program comes to close it in Done of [k], and the byte channel of [k] exactly when waitForFinish closes it, which is after all calls of
      Done have told the WaitGroup. *)
  Theorem C65_closing : forall ls c l c', runs ls c -> t_step I early ids c l c' -> forall k, In k ids ->
    (inc_closed (t_init ids s0) k = false /\ bytes_closed (t_init ids s0) k = false) /\
    (inc_closed c k = true -> inc_closed c' k = true) /\ (bytes_closed c k = true -> bytes_closed c' k = true) /\
    (inc_closed c k = false -> (inc_closed c' k = true <-> exists rest, tc_main c = MClosing k rest /\ tc_main c' = MClose rest)) /\
    (bytes_closed c k = false -> (bytes_closed c' k = true <-> exists r1 r2, tc_fin c = FClose (r1 ++ k :: r2) /\ tc_fin c' = FClose (r1 ++ r2))) /\
    (bytes_closed c k = true -> wg_zero c).
  Proof.
    intros ls c l c' HT Hs k Hk. split; [split; reflexivity|]. pose proof (to_close_runs ls c HT) as [A B].
    assert (bytes_closed c k = true -> wg_zero c) as HW. { intros X. apply (fin_zero ls c HT). intros E. unfold bytes_closed in X. rewrite E in X. discriminate X. }
    assert (forall (m m' : tmain), (exists rest, m = MClosing k rest /\ m' = MClose rest) -> m <> m') as NE by (intros m m' (rest & -> & ->); discriminate).
    assert (forall (f f' : tfin), (exists r1 r2, f = FClose (r1 ++ k :: r2) /\ f' = FClose (r1 ++ r2)) -> f <> f') as NF.
    { intros f f' (r1 & r2 & -> & ->) X. injection X as X. apply (f_equal (@List.length Z)) in X. rewrite !app_length in X. cbn in X. lia. }
    assert (tc_fin c = tc_fin c' -> (bytes_closed c k = true -> bytes_closed c' k = true) /\
      (bytes_closed c k = false -> (bytes_closed c' k = true <-> exists r1 r2, tc_fin c = FClose (r1 ++ k :: r2) /\ tc_fin c' = FClose (r1 ++ r2)))) as KF.
    { intros E. unfold bytes_closed. rewrite <- E. split; [auto|]. intros ->. split; [discriminate|]. intros X. destruct (NF _ _ X). reflexivity. }
    assert (tc_main c = tc_main c' -> (inc_closed c k = true -> inc_closed c' k = true) /\
      (inc_closed c k = false -> (inc_closed c' k = true <-> exists rest, tc_main c = MClosing k rest /\ tc_main c' = MClose rest))) as KM.
    { intros E. unfold inc_closed. rewrite <- E. split; [auto|]. intros ->. split; [discriminate|]. intros X. destruct (NE _ _ X). reflexivity. }
    assert (((inc_closed c k = true -> inc_closed c' k = true) /\
        (inc_closed c k = false -> (inc_closed c' k = true <-> exists rest, tc_main c = MClosing k rest /\ tc_main c' = MClose rest))) /\
      ((bytes_closed c k = true -> bytes_closed c' k = true) /\
        (bytes_closed c k = false -> (bytes_closed c' k = true <-> exists r1 r2, tc_fin c = FClose (r1 ++ k :: r2) /\ tc_fin c' = FClose (r1 ++ r2))))) as G; [|tauto].
    clear HW. destruct Hs; try (split; [apply KM; reflexivity|apply KF; reflexivity]).
    - (* t_wait *) split; [|apply KF; reflexivity]. rewrite <- !not_true_iff_false, !inc_closed_iff. cbn [tc_main set_main]. rewrite H. split; [auto|]. intros _. split; [contradiction|]. intros (r & X & _). discriminate X.
    - split; [|apply KF; reflexivity]. rewrite <- !not_true_iff_false, !inc_closed_iff. cbn [tc_main set_main]. rewrite H. split; [contradiction|]. intros _. split; [contradiction|]. intros (r & X & _). discriminate X.
    - split; [|apply KF; reflexivity]. rewrite <- !not_true_iff_false, !inc_closed_iff. cbn [tc_main set_main]. rewrite H. split; [contradiction|]. intros _. split; [contradiction|]. intros (r & X & _). discriminate X.
    - (* t_wg *) split; [|apply KF; reflexivity]. rewrite <- !not_true_iff_false, !inc_closed_iff. cbn [tc_main set_main]. rewrite H.
      assert (In k (r1 ++ k0 :: r2) <-> k = k0 \/ In k (r1 ++ r2)) as EQ by (rewrite !in_app_iff; cbn [In]; intuition congruence).
      rewrite EQ. split; [intros X; split; intros Y; apply X; auto|]. intros X. split; [|intros (r & Y & _); discriminate Y]. intros [Y Z']. destruct X. intros [->|X]; auto.
    - (* t_close *) split; [|apply KF; reflexivity]. rewrite <- !not_true_iff_false, !inc_closed_iff. cbn [tc_main set_main]. rewrite H. rewrite H in A. destruct A as [A _].
      split; [tauto|]. intros X. split.
      + intros Y. destruct (Z.eq_dec k k0) as [->|N]; [eauto|]. destruct X. auto.
      + intros (r & Y & _). injection Y as -> ->. now inversion A.
    - (* t_zero *) split; [apply KM; reflexivity|]. rewrite <- !not_true_iff_false, !bytes_closed_iff. cbn [tc_fin set_fin]. rewrite H. split; [contradiction|]. intros _. split; [contradiction|]. intros (r1 & r2 & X & _). discriminate X.
    - (* t_closeb *) split; [apply KM; reflexivity|]. rewrite <- !not_true_iff_false, !bytes_closed_iff. cbn [tc_fin set_fin]. rewrite H. rewrite H in B. destruct B as [B _].
      assert (In k (r1 ++ k0 :: r2) <-> k = k0 \/ In k (r1 ++ r2)) as EQ by (rewrite !in_app_iff; cbn [In]; intuition congruence).
      rewrite EQ. split; [tauto|]. intros X. split.
      + intros Y. destruct (Z.eq_dec k k0) as [->|N]; [eauto|]. destruct X. intros [->|X]; auto.
      + intros (x1 & x2 & Y & Y2). injection Y as Y. injection Y2 as Y2. rewrite Y2. rewrite Y in B. now apply NoDup_remove_2 in B.
    - (* t_done *) split; [apply KM; reflexivity|]. rewrite <- !not_true_iff_false, !bytes_closed_iff. cbn [tc_fin set_fin]. rewrite H. split; [auto|]. intros X. destruct X. intros [].
  Qed.
End Closing.

(** * The Channel transport *)
Section ChannelKeygen.
  Context `{L : group_laws} `{Hf : hash_fn}.
  Context (ids : list Z) (thr : Z) (HS : sorted ids) (V : valid_ids ids) (HT : 1 <= thr < Z.of_nat (List.length ids)).
  Context (rg : Z -> rng) (now timeout : Z -> Z) (s0 : Z -> State kround).
  Context (NEW : forall i, In i ids -> NewKeygenState (rg i) (now i) (timeout i) i ids thr = Ret (s0 i)).
  Notation shared := (shared ids thr rg).
  Notation runs := (t_trace keygen_round true ids (t_init ids s0)).

  Lemma kg_addr : forall i m, In i ids -> In m (own_KG2s (rg i) i ids thr) -> m_To m = 0 \/ In (m_To m) ids.
  Proof. intros i m Hi Hm. unfold own_KG2s in Hm. apply in_map_iff in Hm as (k & <- & Hk). right. apply others_of_In in Hk. apply Hk. Qed.

  (** No goroutine ever sends on a channel that was closed, whenever the test program shuts the communicators down. *)
  Theorem C65_keygen_no_panic : forall ls c, runs ls c -> ~ t_panics ids c.
  Proof.
    intros ls c HTr. destruct (keygen_three ids thr V HT rg now timeout s0 NEW) as [r0 T].
    eapply (no_panic keygen_round keygen_round_ok ids HS V (kg_two ids thr HT)); eauto; [exact kg_kinds|exact kg_addr].
  Qed.
  (** No execution is longer than 8 n^2 + 6 n + 3 steps. *)
  Theorem C65_keygen_ends : forall ls c, runs ls c -> (List.length ls <= 8 * (List.length ids * List.length ids) + 6 * List.length ids + 3)%nat.
  Proof.
    intros ls c HTr. destruct (keygen_three ids thr V HT rg now timeout s0 NEW) as [r0 T].
    eapply (t_bound keygen_round keygen_round_ok ids HS V (kg_two ids thr HT)); eauto; [exact kg_kinds|exact kg_addr].
  Qed.
  (** The buffers never make it stop: at its end either all goroutines have returned, or parties wait for messages that were refused. *)
  Theorem C65_keygen_halts : forall ls c, runs ls c -> t_halted keygen_round true ids c -> t_over ids c \/ (t_hangs ids c /\ ~ none_lost (t_hlabels ls)).
  Proof.
    intros ls c HTr Hh. destruct (keygen_three ids thr V HT rg now timeout s0 NEW) as [r0 T].
    destruct (halts_or_hangs keygen_round keygen_round_ok ids HS V (kg_two ids thr HT) _ _ _ _ _ _ _ _ _ _ _ _ _ T kg_kinds kg_addr _ _ _ HTr Hh) as [X|X]; auto. right. split; auto.
    intros HL. destruct (t_stuck_rests keygen_round keygen_round_ok ids HS V (kg_two ids thr HT) _ _ _ _ _ _ _ _ _ _ _ _ _ T kg_kinds kg_addr _ _ _ HTr Hh) as (hc & HR & Hre & HSt).
    destruct X as [(rest & _ & Hne & Hr) _]. destruct rest as [|k rest]; [congruence|]. destruct (Hr k (or_introl eq_refl)) as [Hk E].
    destruct (C47_handler_keygen ids thr HS V HT rg now timeout s0 NEW _ _ HR HL Hre k Hk) as [D _]. rewrite HSt in D. congruence.
  Qed.
  (** If nothing was refused, all goroutines have returned and everybody has the agreed key. *)
  Theorem C65_keygen_good : forall ls c, runs ls c -> t_halted keygen_round true ids c -> none_lost (t_hlabels ls) ->
    t_over ids c /\ forall i, In i ids -> exists pub sk, kg_output (tc_state c i) = mkKOutput (Some pub) (Some sk) /\ pub_PartyIDs pub = ids /\ pub_Threshold pub = thr /\
      geq (pub_GroupKey pub) (gbmul (shared f0)) /\ (forall j, In j ids -> exists A, pub_Shares pub !! j = Some A /\ geq A (gbmul (shared (qof j)))) /\
      sh_ID sk = i /\ sh_Secret sk = shared (qof i).
  Proof.
    intros ls c HTr Hh HL. destruct (keygen_three ids thr V HT rg now timeout s0 NEW) as [r0 T].
    destruct (t_stuck_rests keygen_round keygen_round_ok ids HS V (kg_two ids thr HT) _ _ _ _ _ _ _ _ _ _ _ _ _ T kg_kinds kg_addr _ _ _ HTr Hh) as (hc & HR & Hre & HSt).
    pose proof (C47_handler_keygen ids thr HS V HT rg now timeout s0 NEW _ _ HR HL Hre) as X. split.
    - eapply (done_over keygen_round keygen_round_ok ids HS V (kg_two ids thr HT)); eauto; [exact kg_kinds|exact kg_addr|]. intros i Hi. rewrite <- HSt. apply (X i Hi).
    - intros i Hi. rewrite <- HSt. apply (X i Hi).
  Qed.
  (** Two parties never refuse anything. *)
  Theorem C65_keygen_two : List.length ids = 2%nat -> forall ls c, runs ls c -> none_lost (t_hlabels ls) /\ (t_halted keygen_round true ids c -> t_over ids c).
  Proof.
    intros Hlen ls c HTr. destruct (keygen_three ids thr V HT rg now timeout s0 NEW) as [r0 T].
    destruct (trel_trace keygen_round keygen_round_ok ids HS V (kg_two ids thr HT) _ _ _ _ _ _ _ _ _ _ _ _ _ T kg_kinds kg_addr _ _ _ HTr) as (hc & HR & _).
    assert (none_lost (t_hlabels ls)) as HL by (eapply (C47_two_keygen ids thr HS V HT rg now timeout s0 NEW); eauto).
    split; auto. intros Hh. eapply C65_keygen_good; eauto.
  Qed.
  (** Seen from the Handlers, the goroutines do what the Handlers of Loops.v can do over channels without bound. *)
  Theorem C65_keygen_refines : forall ls c, runs ls c -> exists hc, h_trace keygen_round true ids (h_init s0) (t_hlabels ls) hc /\ forall i, hc_state hc i = tc_state c i.
  Proof.
    intros ls c HTr. destruct (keygen_three ids thr V HT rg now timeout s0 NEW) as [r0 T].
    destruct (trel_trace keygen_round keygen_round_ok ids HS V (kg_two ids thr HT) _ _ _ _ _ _ _ _ _ _ _ _ _ T kg_kinds kg_addr _ _ _ HTr) as (hc & HR & TR).
    exists hc. split; auto. apply TR.
  Qed.
End ChannelKeygen.

Section ChannelSign.
  Context `{L : group_laws} `{Hf : hash_fn} (HH : hash_ok Hf).
  Context (t : nat) (f : list Fq) (ids : list Z) (HS : sorted ids) (Hdeg : degree_le t f) (Hids : valid_ids ids) (Hnum : (t + 1 <= List.length ids)%nat) (H2 : (2 <= List.length ids)%nat).
  Context (message : list byte) (rg : Z -> rng) (pub : Z -> Public) (sh : Z -> SecretShare) (now timeout : Z -> Z) (s0 : Z -> State sround).
  Context (SH : forall i, In i ids -> sh_ID (sh i) = i /\ sh_Secret (sh i) = spoly f (qof i)).
  Context (PUB : forall i j, In i ids -> In j ids -> exists A, pub_Shares (pub i) !! j = Some A /\ geq A (gbmul (spoly f (qof j)))).
  Context (KEY : forall i, In i ids -> geq (pub_GroupKey (pub i)) (gbmul (spoly f f0))).
  Context (NEW : forall i, In i ids -> NewSignState (rg i) (now i) (timeout i) ids (sh i) (pub i) message = Ret (s0 i)).
  Context (NZ : forall i, In i ids -> SetScalarRandom (rg i) 0 <> f0 /\ SetScalarRandom (rg i) 1 <> f0).
  Notation runs := (t_trace sign_round false ids (t_init ids s0)).
  Notation three_sign := (sign_three HH t f ids Hdeg Hids Hnum message rg pub sh now timeout s0 SH PUB KEY NEW NZ).

  Lemma sg_addr : forall i m, In i ids -> In m [NewSign2 i (the_share f ids message rg i)] -> m_To m = 0 \/ In (m_To m) ids.
  Proof. intros i m Hi [<-|[]]. now left. Qed.

  Theorem C65_sign_no_panic : forall ls c, runs ls c -> ~ t_panics ids c.
  Proof.
    intros ls c HTr. destruct three_sign as [r0 T]. eapply (no_panic sign_round sign_round_ok ids HS Hids H2); eauto; [exact sg_kinds|exact sg_addr].
  Qed.
  Theorem C65_sign_ends : forall ls c, runs ls c -> (List.length ls <= 8 * (List.length ids * List.length ids) + 6 * List.length ids + 3)%nat.
  Proof.
    intros ls c HTr. destruct three_sign as [r0 T]. eapply (t_bound sign_round sign_round_ok ids HS Hids H2); eauto; [exact sg_kinds|exact sg_addr].
  Qed.
  Theorem C65_sign_halts : forall ls c, runs ls c -> t_halted sign_round false ids c -> t_over ids c \/ (t_hangs ids c /\ ~ none_lost (t_hlabels ls)).
  Proof.
    intros ls c HTr Hh. destruct three_sign as [r0 T].
    destruct (halts_or_hangs sign_round sign_round_ok ids HS Hids H2 _ _ _ _ _ _ _ _ _ _ _ _ _ T sg_kinds sg_addr _ _ _ HTr Hh) as [X|X]; auto. right. split; auto.
    intros HL. destruct (t_stuck_rests sign_round sign_round_ok ids HS Hids H2 _ _ _ _ _ _ _ _ _ _ _ _ _ T sg_kinds sg_addr _ _ _ HTr Hh) as (hc & HR & Hre & HSt).
    destruct X as [(rest & _ & Hne & Hr) _]. destruct rest as [|k rest]; [congruence|]. destruct (Hr k (or_introl eq_refl)) as [Hk E].
    destruct (C47_handler_sign HH t f ids HS Hdeg Hids Hnum H2 message rg pub sh now timeout s0 SH PUB KEY NEW NZ _ _ HR HL Hre k Hk) as [D _]. rewrite HSt in D. congruence.
  Qed.
  Theorem C65_sign_good : forall ls c, runs ls c -> t_halted sign_round false ids c -> none_lost (t_hlabels ls) ->
    t_over ids c /\ forall i, In i ids -> exists sig, sg_output (tc_state c i) = Some sig /\ Verify (gbmul (spoly f f0)) message sig = true.
  Proof.
    intros ls c HTr Hh HL. destruct three_sign as [r0 T].
    destruct (t_stuck_rests sign_round sign_round_ok ids HS Hids H2 _ _ _ _ _ _ _ _ _ _ _ _ _ T sg_kinds sg_addr _ _ _ HTr Hh) as (hc & HR & Hre & HSt).
    pose proof (C47_handler_sign HH t f ids HS Hdeg Hids Hnum H2 message rg pub sh now timeout s0 SH PUB KEY NEW NZ _ _ HR HL Hre) as X. split.
    - eapply (done_over sign_round sign_round_ok ids HS Hids H2); eauto; [exact sg_kinds|exact sg_addr|]. intros i Hi. rewrite <- HSt. apply (X i Hi).
    - intros i Hi. rewrite <- HSt. apply (X i Hi).
  Qed.
  Theorem C65_sign_two : List.length ids = 2%nat -> forall ls c, runs ls c -> none_lost (t_hlabels ls) /\ (t_halted sign_round false ids c -> t_over ids c).
  Proof.
    intros Hlen ls c HTr. destruct three_sign as [r0 T].
    destruct (trel_trace sign_round sign_round_ok ids HS Hids H2 _ _ _ _ _ _ _ _ _ _ _ _ _ T sg_kinds sg_addr _ _ _ HTr) as (hc & HR & _).
    assert (none_lost (t_hlabels ls)) as HL by (eapply (C47_two_sign HH t f ids HS Hdeg Hids Hnum H2 message rg pub sh now timeout s0 SH PUB KEY NEW NZ); eauto).
    split; auto. intros Hh. eapply C65_sign_good; eauto.
  Qed.
  Theorem C65_sign_refines : forall ls c, runs ls c -> exists hc, h_trace sign_round true ids (h_init s0) (t_hlabels ls) hc /\ forall i, hc_state hc i = tc_state c i.
  Proof.
    intros ls c HTr. destruct three_sign as [r0 T].
    destruct (trel_trace sign_round sign_round_ok ids HS Hids H2 _ _ _ _ _ _ _ _ _ _ _ _ _ T sg_kinds sg_addr _ _ _ HTr) as (hc & HR & TR).
    exists hc. split; auto. apply TR.
  Qed.
End ChannelSign.

(** ** Concrete executions *)
(** What can be seen of a configuration: per party (started, finished, returned, reader returned), what is under way to it, and the other two goroutines. *)
Definition t_view {R} (ids : list Z) (c : @tconfig toy_group R) : list (bool * bool * bool * bool * (nat * nat * nat * nat)) * tmain * tfin :=
  (map (fun i => (tc_started c i, st_done (tc_state c i), tc_ret c i, tc_exit c i,
     (List.length (tc_out c i), List.length (tc_bytes c i), match tc_hand c i with Some _ => 1%nat | None => 0%nat end, List.length (tc_inc c i)))) ids, tc_main c, tc_fin c).
Definition relay (i : Z) : list tact := [XFwd i; XPut i].
Definition take1 (i : Z) : list tact := [XFwd i; XPut i; XRecv i].
(** Everybody sends its commitment, reads the two others, sends its shares, reads the two others, and the test program shuts down. *)
Definition ch_round : list tact := List.concat (map (fun i => [XSend i; XSend i]) k3) ++ List.concat (map (fun i => relay i ++ relay i) k3) ++ List.concat (map (fun i => [XRecv i; XRecv i]) k3).
Definition ch_shut : list tact := map XReturn k3 ++ map XWait k3 ++ [XWaited; XWg 1; XClose; XWg 2; XClose; XWg 3; XZero; XClose; XCloseb 1; XCloseb 2; XCloseb 3; XDone] ++ map XExit k3.
Definition ch_ok : list tact := map XStart k3 ++ ch_round ++ ch_round ++ ch_shut.
Example C65_keygen_example : match @t_exec toy_group tkround tkg k3 (t_init k3 tk0) ch_ok with Some (_, c) => Some (t_view k3 c) | None => None end =
  Some (repeat (true, true, true, true, (0, 0, 0, 0)%nat) 3, MClose [], FEnd).
Proof. vm_compute. reflexivity. Qed.

(** Which incoming channels of 1, 2, 3 and which byte channels are closed while the test program shuts down: before, between the calls of Done, in
    waitForFinish. *)
Definition t_closed {R} (ids : list Z) (c : @tconfig toy_group R) : list bool * list bool := (map (inc_closed c) ids, map (bytes_closed c) ids).
Definition closed_after (n : nat) : option (list bool * list bool) :=
  match @t_exec toy_group tkround tkg k3 (t_init k3 tk0) (map XStart k3 ++ ch_round ++ ch_round ++ firstn n ch_shut) with Some (_, c) => Some (t_closed k3 c) | None => None end.
Example C65_closing_example : map closed_after [6%nat; 8%nat; 9%nat; 11%nat; 13%nat; 14%nat; 16%nat] =
  [Some ([false; false; false], [false; false; false]); Some ([false; false; false], [false; false; false]); Some ([true; false; false], [false; false; false]);
   Some ([true; true; false], [false; false; false]); Some ([true; true; false], [false; false; false]); Some ([true; true; true], [false; false; false]);
   Some ([true; true; true], [true; true; false])].
Proof. vm_compute. reflexivity. Qed.

(** Two signers. *)
Definition ch_sign : list tact :=
  [XStart 1; XSend 1; XStart 3; XSend 3] ++ take1 1 ++ take1 3 ++ [XSend 3; XSend 1] ++ take1 1 ++ [XReturn 1; XWait 1] ++ take1 3 ++
  [XWait 3; XWaited; XWg 3; XReturn 3; XClose; XWg 1; XZero; XCloseb 1; XClose; XCloseb 3; XDone; XExit 1; XExit 3].
Example C65_sign_example : match @t_exec toy_group tsround tsg s13 (t_init s13 ts0) ch_sign with Some (_, c) => Some (t_view s13 c) | None => None end =
  Some (repeat (true, true, true, true, (0, 0, 0, 0)%nat) 2, MClose [], FEnd).
Proof. vm_compute. reflexivity. Qed.

(** Party 2 is slow: it has sent its commitment to 1 and not yet to 3 when 1, which has everything, sends its share to 3.  3 refuses the
    share and waits for it for ever, and the test program waits for 3. *)
Definition ch_hang : list tact :=
  map XStart k3 ++ [XSend 3; XSend 3; XSend 1; XSend 1; XSend 2] ++ take1 1 ++ take1 1 ++ relay 2 ++ relay 2 ++ [XSend 1; XSend 1] ++ take1 3 ++ take1 3 ++
  [XSend 2] ++ take1 3 ++ [XRecv 2; XRecv 2; XSend 2; XSend 2] ++ take1 2 ++ [XSend 3; XSend 3] ++ take1 2 ++ take1 1 ++ take1 1 ++ take1 3 ++
  [XReturn 1; XReturn 2; XWait 1; XWait 2].
Theorem C65_hang_refuted : exists ls c, t_trace tkg true k3 (t_init k3 tk0) ls c /\ t_halted tkg true k3 c /\ ~ t_over k3 c /\
  tc_main c = MWait [3] /\ st_done (tc_state c 3) = false /\ In (HRecv 1 3 true) (t_hlabels ls).
Proof.
  assert (match @t_exec toy_group tkround tkg k3 (t_init k3 tk0) ch_hang with
    | Some (ls, c) => Some (t_view k3 c, existsb (fun l => match l with HRecv 1 3 true => true | _ => false end) (t_hlabels ls)) | None => None end =
    Some ([(true, true, true, false, (0, 0, 0, 0)%nat); (true, true, true, false, (0, 0, 0, 0)%nat); (true, false, false, false, (0, 0, 0, 0)%nat)], MWait [3], FWait, true)) as HV by (vm_compute; reflexivity).
  destruct (@t_exec toy_group tkround tkg k3 (t_init k3 tk0) ch_hang) as [ [ls c]|] eqn:E; [|discriminate].
  pose proof (t_exec_trace tkg true k3 (t_init k3 tk0) ch_hang (t_init k3 tk0) [] ls c (tt_nil _ _ _ _) E) as HTr. cbn [app] in HTr. clear E.
  injection HV as A1 A2 A3 A4 A5 A6 A7 A8 B1 B2 B3 B4 B5 B6 B7 B8 C1 C2 C3 C4 C5 C6 C7 C8 Hm Hf Hl.
  assert (st_done (tc_state c 3) = false) as D3 by assumption.
  exists ls, c. split; [exact HTr|]. split.
  { unfold t_halted. apply (t_dead tkg true k3 c [3]); [|exact Hm|discriminate|intros k [<-|[] ]; exact D3|exact Hf].
    assert (forall A (o : option A), match o with Some _ => 1%nat | None => 0%nat end = 0%nat -> o = None) as HO by (intros A [x|]; [discriminate|reflexivity]).
    assert (forall A (l : list A), List.length l = 0%nat -> l = []) as HN by (intros A [|x l]; [reflexivity|discriminate]).
    intros i [<-|[<-|[<-|[] ] ] ]; repeat split; try assumption; try (apply HN; assumption); try (apply HO; assumption); congruence. }
  split. { intros [X _]. congruence. }
  split; [exact Hm|]. split; [exact D3|].
  apply existsb_exists in Hl as (l & Hin & E). destruct l as [|j i lost]; [discriminate|].
  assert (j = 1 /\ i = 3 /\ lost = true) as (-> & -> & ->); [|exact Hin].
  destruct j as [|[p|p|]|]; try discriminate; destruct i as [|[ [p|p|]|p|]|]; try discriminate; destruct lost; try discriminate. auto.
Qed.

(** * UDP *)
Section Udp.
  Context `{L : group_laws}.
  (** udp.go:99-105 Done, after its first call: the channel is closed, the socket still open. *)
  Definition u_closing (c : uconfig) : uconfig := mkUconfig (uc_sock c) (uc_hand c) (uc_inc c) true (uc_conn c).

  (** Done makes the program crash ("send on closed channel") when a datagram is waiting that the reader did not pass on; frosted.go:162
      says that it should not panic.  When none is waiting and none comes, it does not. *)
  Theorem C65_udp_refuted : forall peers c, uc_conn c = true -> uc_closed c = false -> (uc_hand c <> None \/ uc_sock c <> []) ->
    u_step peers false c (u_closing c) /\ exists c', u_steps peers false (u_closing c) c' /\ u_panics c'.
  Proof.
    intros peers c Hc Ho H. split; [now apply u_close|]. destruct (uc_hand c) as [m|] eqn:Eh.
    - exists (u_closing c). split; [constructor|]. unfold u_panics. cbn. rewrite Eh. split; [discriminate|reflexivity].
    - destruct H as [H|H]; [congruence|]. destruct (uc_sock c) as [|b l] eqn:Es; [congruence|]. destruct (C60_udp_any peers b) as (m & Em & _).
      exists (mkUconfig l (Some m) (uc_inc c) true (uc_conn c)). split.
      + eapply us_step; [constructor|]. eapply (u_read peers false (u_closing c)); eauto.
      + split; [discriminate|reflexivity].
  Qed.
  (** Even when nothing is waiting: a datagram that comes between the two calls of Done. *)
  Theorem C65_udp_late_refuted : forall peers c, uc_conn c = true -> uc_closed c = false -> uc_hand c = None -> forall b,
    exists c1 c2, u_step peers true (u_closing c) c1 /\ uc_sock c1 = uc_sock c ++ [b] /\ u_steps peers true c1 c2 /\ u_panics c2.
  Proof.
    intros peers c Hc Ho Hh b. exists (mkUconfig (uc_sock c ++ [b]) (uc_hand c) (uc_inc c) true (uc_conn c)).
    destruct (uc_sock c) as [|x l] eqn:Es.
    - destruct (C60_udp_any peers b) as (m & Em & _). exists (mkUconfig [] (Some m) (uc_inc c) true (uc_conn c)). repeat split.
      + rewrite <- Es at 1. exact (u_arrive peers true (u_closing c) b eq_refl Hc).
      + eapply us_step; [constructor|]. apply (u_read peers true (mkUconfig [b] (uc_hand c) (uc_inc c) true (uc_conn c)) b [] m); auto.
      + discriminate.
    - destruct (C60_udp_any peers x) as (m & Em & _). exists (mkUconfig (l ++ [b]) (Some m) (uc_inc c) true (uc_conn c)). repeat split.
      + rewrite <- Es at 1. exact (u_arrive peers true (u_closing c) b eq_refl Hc).
      + eapply us_step; [constructor|]. apply (u_read peers true (mkUconfig (x :: l ++ [b]) (uc_hand c) (uc_inc c) true (uc_conn c)) x (l ++ [b]) m); auto.
      + discriminate.
  Qed.
  Lemma u_quiet peers c c' : u_steps peers false c c' -> uc_hand c = None -> uc_sock c = [] -> uc_hand c' = None /\ uc_sock c' = [].
  Proof.
    induction 1 as [|c c1 c2 _ IH HS]; intros Hh Hs; auto. destruct (IH Hh Hs) as [A B]. clear IH.
    destruct HS; cbn; auto; try discriminate; congruence.
  Qed.
  Theorem C65_udp_safe : forall peers c, uc_hand c = None -> uc_sock c = [] -> forall c', u_steps peers false (u_closing c) c' -> ~ u_panics c'.
  Proof. intros peers c Hh Hs c' HS [X _]. apply X. now apply (u_quiet peers _ _ HS). Qed.
  (** The reader gets stuck only on a full channel, and a running Handler makes room. *)
  Theorem C65_udp_reads : forall peers c, uc_conn c = true -> uc_closed c = false -> (uc_hand c <> None \/ uc_sock c <> []) -> (List.length (uc_inc c) < udp_capacity)%nat ->
    exists c', u_step peers false c c' /\ uc_closed c' = false /\ (List.length (uc_sock c') + List.length (uc_sock c') + (match uc_hand c' with Some _ => 1 | None => 0 end) <
      List.length (uc_sock c) + List.length (uc_sock c) + (match uc_hand c with Some _ => 1 | None => 0 end))%nat.
  Proof.
    intros peers c Hc Ho H Hl. destruct (uc_hand c) as [m|] eqn:Eh.
    - eexists. split; [eapply u_put; eauto|]. cbn. split; auto. lia.
    - destruct H as [H|H]; [congruence|]. destruct (uc_sock c) as [|b l] eqn:Es; [congruence|]. destruct (C60_udp_any peers b) as (m & Em & _).
      eexists. split; [eapply u_read; eauto|]. cbn. split; auto. lia.
  Qed.
End Udp.

(** ** A datagram that is still unread when the Handlers are done *)
Example C65_udp_example : exists c', u_steps (Gr := toy_group) 3 true u_init c' /\ u_panics c'.
Proof.
  set (c1 := @mkUconfig toy_group [ [] ] None [] false true).
  assert (u_step 3 true u_init c1) as S1 by (exact (u_arrive 3 true u_init [] eq_refl eq_refl)).
  assert (@udp_receive toy_group 3 [] = Ret zero_message) as E by reflexivity.
  exists (mkUconfig [] (Some zero_message) [] true true). split; [|split; [discriminate|reflexivity] ].
  eapply us_step; [eapply us_step; [eapply us_step; [constructor|exact S1]|exact (u_close 3 true c1 eq_refl)]|].
  exact (u_read 3 true (@mkUconfig toy_group [ [] ] None [] true true) [] [] zero_message eq_refl eq_refl eq_refl E).
Qed.

Print Assumptions C65_closing.
Print Assumptions C65_keygen_no_panic.
Print Assumptions C65_keygen_ends.
Print Assumptions C65_keygen_halts.
Print Assumptions C65_keygen_good.
Print Assumptions C65_keygen_two.
Print Assumptions C65_keygen_refines.
Print Assumptions C65_sign_no_panic.
Print Assumptions C65_sign_ends.
Print Assumptions C65_sign_halts.
Print Assumptions C65_sign_good.
Print Assumptions C65_sign_two.
Print Assumptions C65_sign_refines.
Print Assumptions C65_hang_refuted.
Print Assumptions C65_udp_refuted.
Print Assumptions C65_udp_late_refuted.
Print Assumptions C65_udp_safe.
Print Assumptions C65_udp_reads.
