(** C47: the message loops that accompany the library, example/main.go and test/internal/communication. *)
From Coq Require Import ZArith Lia List Bool String.
From Coq.Strings Require Import Byte.
From stdpp Require Import base gmap list fin_maps.
From Verif Require Import ZField Primes Bytes Scalar Go Group ToyGroup Spec_Poly PolyAlg Party Poly PolyFacts Zk Eddsa Messages State StateFacts Keygen Sign Helpers Cmd
  Spec_Group Properties_Algebra Spec_Wire CodecFacts Properties_Codec Lift Net Progress NetProgress Lockstep RoundFacts ToyRuns
  Spec_Sign SignFacts SignRun Spec_SignRun Properties_Sign Properties_HonestSign KeygenFacts KeygenRun Spec_Keygen Properties_Keygen Properties_HonestKeygen
  Properties_Cmd Loops LoopsFacts.
Import ListNotations.
Local Open Scope Z_scope.

(** * The loop of the example
    It calls ProcessAll only after a message that HandleMessage did not refuse, and a State that was never processed refuses every
    message of another party ("already received": round 0 waits for nobody, but has an entry for everybody).  So nobody starts. *)
Section Example.
  Context `{Gr : group_ops} `{Hf : hash_fn}.

  (** Whatever others send: a party that runs MessageRoutine on a new keygen State emits nothing and stays in round 0. *)
  Theorem C47_example_keygen_refuted : forall rg now timeout self ids thr s0 es s out, sorted ids ->
    NewKeygenState rg now timeout self ids thr = Ret s0 -> Forall (from_others self) es -> routine keygen_round s0 es = Ret (s, out) ->
    out = [] /\ st_done s = false /\ st_roundNumber s = 0 /\ kg_output s = mkKOutput None None.
  Proof.
    intros rg now timeout self ids thr s0 es s out HS NEW HE E. destruct (NewKeygenState_round _ _ _ _ _ _ _ NEW) as (r & A & ->).
    unfold kg_NewRound in A. destruct (thr =? 0); [discriminate|]. destruct (_ <? thr); [discriminate|].
    destruct (NewBaseRound self ids) as [[s1 i1]| |] eqn:EB; try discriminate. cbn [obind fst snd] in A. apply Ret_inj in A. subst r.
    assert (s1 = self /\ i1 = ids) as [-> ->]. { unfold NewBaseRound in EB. destruct (Contains _ _); inversion EB; auto. }
    apply (routine_silent keygen_round) in E; [|exact HS|exact HE]. destruct E as (-> & N & [(D & Er & _)|(_ & _ & X & _)]); [|discriminate].
    split; auto. split; auto. split; auto. unfold kg_output. now rewrite Er.
  Qed.
  (** And when the time is up, the whole program crashes: the timer resets a polynomial that does not exist yet. *)
  Theorem C47_example_crash_refuted : forall rg now timeout self ids thr s0 t, 0 < timeout -> now + timeout <= t ->
    NewKeygenState rg now timeout self ids thr = Ret s0 ->
    routine keygen_round s0 [LExpire t; LCallback] = Panics "invalid memory address or nil pointer dereference".
  Proof.
    intros rg now timeout self ids thr s0 t H1 H2 NEW. destruct (NewKeygenState_round _ _ _ _ _ _ _ NEW) as (r & A & ->).
    unfold kg_NewRound in A. destruct (thr =? 0); [discriminate|]. destruct (_ <? thr); [discriminate|].
    destruct (NewBaseRound self ids) as [[s1 i1]| |] eqn:EB; try discriminate. cbn [obind fst snd] in A. apply Ret_inj in A. subst r.
    cbn [routine routine_step step obind fst snd]. unfold NewBaseState, timerExpire, newTimer. cbn [st_timer tm_deadline tm_d tm_pending].
    rewrite (proj2 (Z.ltb_lt 0 timeout) H1), (proj2 (Z.leb_le _ _) H2). reflexivity.
  Qed.
  (** The same for signing; there the timeout is an ordinary abort. *)
  Theorem C47_example_sign_refuted : forall rg now timeout ids sh pub message s0 es s out, sorted ids ->
    NewSignState rg now timeout ids sh pub message = Ret s0 -> Forall (from_others (sh_ID sh)) es -> routine sign_round s0 es = Ret (s, out) ->
    out = [] /\ st_roundNumber s = 0 /\ sg_output s = None /\
    (st_done s = false \/ (st_done s = true /\ In LCallback es /\ exists e, st_err s = Some e /\ pe_PartyID e = 0 /\ pe_text e = "message timeout"%string)).
  Proof.
    intros rg now timeout ids sh pub message s0 es s out HS NEW HE E. destruct (NewSignState_round _ _ _ _ _ _ _ _ NEW) as (r & A & ->).
    assert (sr_self r = sh_ID sh /\ sr_ids r = ids /\ sr_out r = None) as (Es & Ei & Eo).
    { unfold sg_NewRound in A. repeat (match type of A with (if ?b then _ else _) = _ => destruct b; [discriminate|] end).
      destruct (sg_setup _ _); try discriminate. cbn [obind] in A. destruct (Lagrange _ _); try discriminate. cbn [obind] in A. apply Ret_inj in A. subst r. auto. }
    apply (routine_silent sign_round) in E; [|cbn; now rewrite Ei|cbn; now rewrite Es].
    destruct E as (-> & N & [(D & Er & _)|(D & He & X & Hin)]); (split; [reflexivity|]; split; [exact N|]).
    - unfold sg_output. rewrite Er. auto.
    - split; [|right; eauto 6]. cbn in X. unfold sg_Reset in X. apply Ret_inj in X. unfold sg_output. rewrite <- X. exact Eo.
  Qed.
End Example.

(** * The Handlers of the tests over the Channel transport
    They call ProcessAll at the start and after every message, refused or not.  A message that is refused is gone: nothing is sent twice. *)
Section HandleKeygen.
  Context `{L : group_laws} `{Hf : hash_fn}.
  Context (ids : list Z) (thr : Z) (HS : sorted ids) (V : valid_ids ids) (HT : 1 <= thr < Z.of_nat (List.length ids)).
  Context (rg : Z -> rng) (now timeout : Z -> Z) (s0 : Z -> State kround).
  Context (NEW : forall i, In i ids -> NewKeygenState (rg i) (now i) (timeout i) i ids thr = Ret (s0 i)).
  Notation shared := (shared ids thr rg).

  Lemma kg_types : List.NoDup [MTNone; MTKeyGen1; MTKeyGen2].
  Proof. repeat constructor; cbn; intuition discriminate. Qed.
  Lemma kg_two : (2 <= List.length ids)%nat. Proof. lia. Qed.
  Definition kg_good (c : @hconfig _ kround) : Prop := forall i, In i ids -> st_done (hc_state c i) = true /\
    exists pub sk, kg_output (hc_state c i) = mkKOutput (Some pub) (Some sk) /\ pub_PartyIDs pub = ids /\ pub_Threshold pub = thr /\
      geq (pub_GroupKey pub) (gbmul (shared f0)) /\ (forall j, In j ids -> exists A, pub_Shares pub !! j = Some A /\ geq A (gbmul (shared (qof j)))) /\
      sh_ID sk = i /\ sh_Secret sk = shared (qof i).
  Lemma kg_end fifo ls c : h_trace keygen_round fifo ids (h_init s0) ls c -> (forall i, In i ids -> st_done (hc_state c i) = true /\ st_err (hc_state c i) = None) -> kg_good c.
  Proof.
    intros HTr HD i Hi. destruct (HD i Hi) as [D E]. split; auto. destruct (trace_net keygen_round _ _ _ _ _ HTr) as (cf & HR & HSt & _).
    pose proof (C04_honest ids thr V (thr_u16 ids thr V HT) rg now timeout s0 NEW cf i HR Hi) as X. rewrite HSt in X. specialize (X D). rewrite E in X.
    destruct X as (pub & sk & X1 & X2 & X3 & _ & X4 & X5 & X6 & X7 & _). exists pub, sk. auto 10.
  Qed.

  (** If no Handler refuses a message while its party is running, then once nothing is left to do everybody has the agreed key. *)
  Theorem C47_handler_keygen : forall ls c, h_trace keygen_round true ids (h_init s0) ls c -> none_lost ls -> h_rests ids c -> kg_good c.
  Proof.
    intros ls c HTr HL HR. destruct (keygen_three ids thr V HT rg now timeout s0 NEW) as [r0 T]. eapply kg_end; [exact HTr|].
    eapply (rests_done keygen_round ids V kg_two) with (ls := ls); [exact T|exact kg_types| |exact HR].
    eapply (trace_hinv keygen_round keygen_round_ok ids HS V kg_two); eauto. exact kg_types.
  Qed.
  (** Two parties never refuse a message, so for them this always holds. *)
  Theorem C47_two_keygen : List.length ids = 2%nat -> forall ls c, h_trace keygen_round true ids (h_init s0) ls c -> none_lost ls /\ (h_rests ids c -> kg_good c).
  Proof.
    intros Hlen ls c HTr. destruct (keygen_three ids thr V HT rg now timeout s0 NEW) as [r0 T].
    assert (none_lost ls) as HL by (eapply (pair_trace keygen_round keygen_round_ok ids HS V kg_two); eauto; exact kg_types).
    split; auto. intros HR. eapply C47_handler_keygen; eauto.
  Qed.
  (** An execution has at most 2n^2 steps; when none is possible everybody has started and who runs has read all its messages; at most
      2 (n-1) messages wait for a party, and the buffers of the Channel transport hold 2n. *)
  Theorem C47_keygen_ends : forall ls c, h_trace keygen_round true ids (h_init s0) ls c ->
    (List.length ls <= 2 * (List.length ids * List.length ids))%nat /\ ((forall l c', ~ h_step keygen_round true ids c l c') -> h_rests ids c).
  Proof.
    intros ls c HTr. destruct (keygen_three ids thr V HT rg now timeout s0 NEW) as [r0 T]. split.
    - eapply (trace_bound keygen_round keygen_round_ok ids HS V kg_two); eauto. exact kg_types.
    - eapply (stuck_rests keygen_round keygen_round_ok ids HS V kg_two); eauto. exact kg_types.
  Qed.
  Theorem C47_keygen_capacity : forall ls c i, h_trace keygen_round true ids (h_init s0) ls c -> In i ids ->
    (list_sum (map (fun j => List.length (hc_chan c j i)) ids) <= 2 * (List.length ids - 1))%nat.
  Proof.
    intros ls c i HTr Hi. destruct (keygen_three ids thr V HT rg now timeout s0 NEW) as [r0 T].
    eapply (waiting_bound keygen_round keygen_round_ok ids HS V kg_two); eauto. exact kg_types.
  Qed.
End HandleKeygen.

Section HandleSign.
  Context `{L : group_laws} `{Hf : hash_fn} (HH : hash_ok Hf).
  Context (t : nat) (f : list Fq) (ids : list Z) (HS : sorted ids) (Hdeg : degree_le t f) (Hids : valid_ids ids) (Hnum : (t + 1 <= List.length ids)%nat) (H2 : (2 <= List.length ids)%nat).
  Context (message : list byte) (rg : Z -> rng) (pub : Z -> Public) (sh : Z -> SecretShare) (now timeout : Z -> Z) (s0 : Z -> State sround).
  Context (SH : forall i, In i ids -> sh_ID (sh i) = i /\ sh_Secret (sh i) = spoly f (qof i)).
  Context (PUB : forall i j, In i ids -> In j ids -> exists A, pub_Shares (pub i) !! j = Some A /\ geq A (gbmul (spoly f (qof j)))).
  Context (KEY : forall i, In i ids -> geq (pub_GroupKey (pub i)) (gbmul (spoly f f0))).
  Context (NEW : forall i, In i ids -> NewSignState (rg i) (now i) (timeout i) ids (sh i) (pub i) message = Ret (s0 i)).
  Context (NZ : forall i, In i ids -> SetScalarRandom (rg i) 0 <> f0 /\ SetScalarRandom (rg i) 1 <> f0).

  Lemma sg_types : List.NoDup [MTNone; MTSign1; MTSign2].
  Proof. repeat constructor; cbn; intuition discriminate. Qed.
  Definition sg_good (c : @hconfig _ sround) : Prop :=
    forall i, In i ids -> st_done (hc_state c i) = true /\ exists sig, sg_output (hc_state c i) = Some sig /\ Verify (gbmul (spoly f f0)) message sig = true.
  Lemma sg_end fifo ls c : h_trace sign_round fifo ids (h_init s0) ls c -> (forall i, In i ids -> st_done (hc_state c i) = true /\ st_err (hc_state c i) = None) -> sg_good c.
  Proof.
    intros HTr HD i Hi. destruct (HD i Hi) as [D E]. split; auto. destruct (trace_net sign_round _ _ _ _ _ HTr) as (cf & HR & HSt & _).
    pose proof (C02_honest HH t f ids Hdeg Hids Hnum message rg pub sh now timeout s0 SH PUB KEY NEW NZ cf i HR Hi) as X. rewrite HSt in X. specialize (X D). rewrite E in X.
    destruct X as (sig & X1 & _ & _ & X2). eauto.
  Qed.
  Theorem C47_handler_sign : forall ls c, h_trace sign_round true ids (h_init s0) ls c -> none_lost ls -> h_rests ids c -> sg_good c.
  Proof.
    intros ls c HTr HL HR. destruct (sign_three HH t f ids Hdeg Hids Hnum message rg pub sh now timeout s0 SH PUB KEY NEW NZ) as [r0 T]. eapply sg_end; [exact HTr|].
    eapply (rests_done sign_round ids Hids H2) with (ls := ls); [exact T|exact sg_types| |exact HR].
    eapply (trace_hinv sign_round sign_round_ok ids HS Hids H2); eauto. exact sg_types.
  Qed.
  Theorem C47_two_sign : List.length ids = 2%nat -> forall ls c, h_trace sign_round true ids (h_init s0) ls c -> none_lost ls /\ (h_rests ids c -> sg_good c).
  Proof.
    intros Hlen ls c HTr. destruct (sign_three HH t f ids Hdeg Hids Hnum message rg pub sh now timeout s0 SH PUB KEY NEW NZ) as [r0 T].
    assert (none_lost ls) as HL by (eapply (pair_trace sign_round sign_round_ok ids HS Hids H2); eauto; exact sg_types).
    split; auto. intros HR. eapply C47_handler_sign; eauto.
  Qed.
  Theorem C47_sign_ends : forall ls c, h_trace sign_round true ids (h_init s0) ls c ->
    (List.length ls <= 2 * (List.length ids * List.length ids))%nat /\ ((forall l c', ~ h_step sign_round true ids c l c') -> h_rests ids c).
  Proof.
    intros ls c HTr. destruct (sign_three HH t f ids Hdeg Hids Hnum message rg pub sh now timeout s0 SH PUB KEY NEW NZ) as [r0 T]. split.
    - eapply (trace_bound sign_round sign_round_ok ids HS Hids H2); eauto. exact sg_types.
    - eapply (stuck_rests sign_round sign_round_ok ids HS Hids H2); eauto. exact sg_types.
  Qed.
  Theorem C47_sign_capacity : forall ls c i, h_trace sign_round true ids (h_init s0) ls c -> In i ids ->
    (list_sum (map (fun j => List.length (hc_chan c j i)) ids) <= 2 * (List.length ids - 1))%nat.
  Proof.
    intros ls c i HTr Hi. destruct (sign_three HH t f ids Hdeg Hids Hnum message rg pub sh now timeout s0 SH PUB KEY NEW NZ) as [r0 T].
    eapply (waiting_bound sign_round sign_round_ok ids HS Hids H2); eauto. exact sg_types.
  Qed.
End HandleSign.

(** * Three parties, or reordering: executions that get stuck *)
(** What a configuration at rest looks like: per party (started, finished, round), and the number of messages still on their way. *)
Definition h_view {R} (ids : list Z) (c : @hconfig toy_group R) : list (bool * bool * Z) * nat :=
  (map (fun i => (hc_started c i, st_done (hc_state c i), st_roundNumber (hc_state c i))) ids,
   list_sum (map (fun i => list_sum (map (fun j => List.length (hc_chan c j i)) ids)) ids)).
Lemma view_rests {R} ids (c : @hconfig toy_group R) : snd (h_view ids c) = 0%nat -> forallb (hc_started c) ids = true -> h_rests ids c.
Proof.
  cbn [h_view snd]. intros H0 HSt i Hi. split; [rewrite forallb_forall in HSt; auto|]. right. intros j Hj.
  assert (forall (g : Z -> nat) l, list_sum (map g l) = 0%nat -> forall x, In x l -> g x = 0%nat) as Hz.
  { intros g. induction l as [|y l IH]; intros E x Hx; [contradiction|]. cbn in E. destruct Hx as [->|Hx]; [lia|apply IH; auto; unfold list_sum; lia]. }
  pose proof (Hz _ _ (Hz _ _ H0 i Hi) j Hj) as X. cbn in X. now destruct (hc_chan c j i).
Qed.

(** Three honest parties, the Channel transport, nothing lost in transit, no timeout: 1's share for 3 reaches 3 before 2's commitment
    (1 has everything it needs to go on), 3 refuses it because it already holds a message of 1, and waits for it for ever. *)
Definition stuck3 : list hact :=
  [AStart 1; AStart 2; AStart 3; ARecv 2 1 0; ARecv 3 1 0; ARecv 1 2 0; ARecv 3 2 0; ARecv 1 3 0; ARecv 1 3 0; ARecv 2 3 0;
   ARecv 1 2 0; ARecv 2 1 0; ARecv 2 3 0; ARecv 3 1 0; ARecv 3 2 0].
Definition ok3 : list hact :=
  [AStart 1; AStart 2; AStart 3; ARecv 2 1 0; ARecv 3 1 0; ARecv 1 2 0; ARecv 3 2 0; ARecv 1 3 0; ARecv 2 3 0;
   ARecv 1 3 0; ARecv 1 2 0; ARecv 2 1 0; ARecv 2 3 0; ARecv 3 1 0; ARecv 3 2 0].
Theorem C47_handler_three_refuted : exists ls c, h_trace tkg true k3 (h_init tk0) ls c /\ h_rests k3 c /\
  st_done (hc_state c 1) = true /\ st_done (hc_state c 2) = true /\ st_done (hc_state c 3) = false /\ st_roundNumber (hc_state c 3) = 2.
Proof.
  assert (match @h_exec toy_group tkround tkg k3 (h_init tk0) stuck3 with Some c => Some (h_view k3 c) | None => None end =
          Some ([(true, true, 2); (true, true, 2); (true, false, 2)], 0%nat)) as HV by (vm_compute; reflexivity).
  destruct (@h_exec toy_group tkround tkg k3 (h_init tk0) stuck3) as [c|] eqn:E; [|discriminate].
  pose proof (exec_trace tkg true k3 (h_init tk0) stuck3 [] (h_init tk0) c (ht_nil _ _ _ _) ltac:(intros _; repeat constructor) E) as HTr. cbn [app] in HTr.
  assert (h_view k3 c = ([(true, true, 2); (true, true, 2); (true, false, 2)], 0%nat)) as HV' by congruence. clear HV E.
  exists (h_labels tkg k3 (h_init tk0) stuck3), c. split; auto. unfold h_view in HV'. pose proof HV' as X. cbn [map k3] in X. injection X as A1 A2 A3 B1 B2 B3 C1 C2 C3 Hn. split; auto.
  apply view_rests; [unfold h_view; now rewrite HV'|]. cbn. now rewrite A1, B1, C1.
Qed.
(** The same parties when every message arrives in time. *)
Example C47_handler_three_example : match @h_exec toy_group tkround tkg k3 (h_init tk0) ok3 with Some c => Some (h_view k3 c) | None => None end =
  Some ([(true, true, 2); (true, true, 2); (true, true, 2)], 0%nat).
Proof. vm_compute. reflexivity. Qed.

(** Two honest signers over a transport that reorders (UDP), where nothing is lost and nothing refused: 3's share reaches 1 before 3's
    commitment.  The share is kept for later; the commitment then takes 1 to round 2, where ProcessAll is not called again, although
    everything needed is there. *)
Definition stuck2 : list hact := [AStart 1; AStart 3; ARecv 1 3 0; ARecv 3 1 1; ARecv 3 1 0; ARecv 1 3 0].
Theorem C47_reorder_refuted : exists ls c, h_trace tsg false s13 (h_init ts0) ls c /\ none_lost ls /\ h_rests s13 c /\
  st_done (hc_state c 3) = true /\ st_done (hc_state c 1) = false /\ st_roundNumber (hc_state c 1) = 2 /\
  (exists s' o, ProcessAll tsg [] [] (hc_state c 1) = Ret (s', o) /\ st_done s' = true /\ st_err s' = None).
Proof.
  assert (exists c, @h_exec toy_group tsround tsg s13 (h_init ts0) stuck2 = Some c /\ hc_started c 1 = true /\ hc_started c 3 = true /\ snd (h_view s13 c) = 0%nat /\
    st_done (hc_state c 3) = true /\ st_done (hc_state c 1) = false /\ st_roundNumber (hc_state c 1) = 2 /\
    exists s' o, ProcessAll tsg [] [] (hc_state c 1) = Ret (s', o) /\ st_done s' = true /\ st_err s' = None) as (c & E & A1 & B1 & Hn & B2 & A2 & A3 & HP).
  { assert (match @h_exec toy_group tsround tsg s13 (h_init ts0) stuck2 with
          | Some c => Some (h_view s13 c, match ProcessAll tsg [] [] (hc_state c 1) with Ret (s', _) => Some (st_done s', match st_err s' with None => true | _ => false end) | _ => None end)
          | None => None end = Some ([(true, false, 2); (true, true, 2)], 0%nat, Some (true, true))) as HV by (vm_compute; reflexivity).
    revert HV. generalize (@h_exec toy_group tsround tsg s13 (h_init ts0) stuck2). intros [c|] HV; [|discriminate]. exists c. split; [reflexivity|].
    revert HV. generalize (ProcessAll tsg [] [] (hc_state c 1)). intros x HV. injection HV as A1 A2 A3 B1 B2 B3 Hn HP.
    split; [exact A1|]. split; [exact B1|]. split; [exact Hn|]. split; [exact B2|]. split; [exact A2|]. split; [exact A3|].
    destruct x as [[s' o]| |]; try discriminate. exists s', o. split; [reflexivity|]. injection HP as X Y. split; [exact X|]. destruct (st_err s'); [discriminate|reflexivity]. }
  exists (h_labels tsg s13 (h_init ts0) stuck2), c. split.
  { exact (exec_trace tsg false s13 (h_init ts0) stuck2 [] (h_init ts0) c (ht_nil _ _ _ _) ltac:(discriminate) E). }
  split.
  { assert (forallb (fun l => match l with HRecv _ _ lost => negb lost | _ => true end) (h_labels tsg s13 (h_init ts0) stuck2) = true) as HN by (vm_compute; reflexivity).
    intros j i Hin. rewrite forallb_forall in HN. specialize (HN _ Hin). discriminate. }
  split; [|split; [exact B2|split; [exact A2|split; [exact A3|exact HP]]]].
  apply view_rests; [exact Hn|]. cbn [forallb s13]. rewrite A1, B1. reflexivity.
Qed.
(** In the order sent the same signers finish. *)
Example C47_two_example : match @h_exec toy_group tsround tsg s13 (h_init ts0) [AStart 1; AStart 3; ARecv 1 3 0; ARecv 3 1 0; ARecv 3 1 0; ARecv 1 3 0] with Some c => Some (h_view s13 c) | None => None end =
  Some ([(true, true, 2); (true, true, 2)], 0%nat).
Proof. vm_compute. reflexivity. Qed.
(** The commitment of 2 and even a second one do not start party 1 of the example; a message that claims to come from 1 itself would. *)
Example C47_example_example :
  let view r := match r with Ret (s, out) => Some (st_roundNumber s, st_done s, List.length out) | _ => None end in
  let msg m := @LMsg toy_group 0 [] [] m in
  view (routine tkg (tk0 1) (map msg (kg1_of 2 ++ kg1_of 3 ++ kg1_of 2))) = Some (0, false, 0%nat) /\
  Forall (from_others 1) (map msg (kg1_of 2 ++ kg1_of 3 ++ kg1_of 2)) /\
  view (routine tkg (tk0 1) (map msg (kg1_of 1))) = Some (1, false, 1%nat).
Proof. cbv zeta. split; [vm_compute; reflexivity|]. split; [|vm_compute; reflexivity].
  assert (forallb (fun m => negb (m_From m =? 1) && (m_To m =? 0)) (kg1_of 2 ++ kg1_of 3 ++ kg1_of 2) = true) as H by (vm_compute; reflexivity).
  revert H. generalize (kg1_of 2 ++ kg1_of 3 ++ kg1_of 2). intros l H. apply List.Forall_forall. intros e He. apply in_map_iff in He as (m & <- & Hm).
  rewrite forallb_forall in H. specialize (H m Hm). apply andb_true_iff in H as [H1 H2]. apply negb_true_iff, Z.eqb_neq in H1. apply Z.eqb_eq in H2. split; auto.
Qed.

Print Assumptions C47_example_keygen_refuted.
Print Assumptions C47_example_crash_refuted.
Print Assumptions C47_example_sign_refuted.
Print Assumptions C47_handler_keygen.
Print Assumptions C47_two_keygen.
Print Assumptions C47_keygen_ends.
Print Assumptions C47_keygen_capacity.
Print Assumptions C47_handler_sign.
Print Assumptions C47_two_sign.
Print Assumptions C47_sign_ends.
Print Assumptions C47_sign_capacity.
Print Assumptions C47_handler_three_refuted.
Print Assumptions C47_reorder_refuted.
