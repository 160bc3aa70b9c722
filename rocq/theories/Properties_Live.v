(** C43: retransmission is enough for honest parties to finish, and they are never stuck. *)
From Coq Require Import ZArith Lia List Bool String Permutation.
From Coq.Strings Require Import Byte.
From stdpp Require Import base gmap list fin_maps.
From Verif Require Import ZField Primes Bytes Scalar Go Group ToyGroup Party Poly PolyFacts Zk Eddsa Messages State StateFacts Spec_State
  Keygen Sign RoundFacts Lift Net Spec_Live Progress NetProgress NetLive Spec_Poly PolyAlg Spec_Group Spec_Wire Spec_Sign Spec_SignRun SignFacts SignRun
  Spec_Keygen KeygenFacts KeygenRun Properties_Algebra Properties_Codec Properties_Sign Properties_HonestSign Properties_ZeroNonce Properties_Keygen Properties_HonestKeygen ToyRuns.
Import ListNotations.
Local Open Scope Z_scope.

Local Opaque SetScalarRandom.

Section LiveSign.
  Context `{L : group_laws} `{Hf : hash_fn} (HH : hash_ok Hf).
  (** The honest signers of C02. *)
  Context (t : nat) (f : list Fq) (ids : list Z) (Hdeg : degree_le t f) (Hids : valid_ids ids) (Hsorted : sorted ids) (Hnum : (t + 1 <= List.length ids)%nat).
  Context (message : list byte) (rg : Z -> rng) (pub : Z -> Public) (sh : Z -> SecretShare) (now timeout : Z -> Z) (s0 : Z -> State sround).
  Context (SH : forall i, In i ids -> sh_ID (sh i) = i /\ sh_Secret (sh i) = spoly f (qof i)).
  Context (PUB : forall i j, In i ids -> In j ids -> exists A, pub_Shares (pub i) !! j = Some A /\ geq A (gbmul (spoly f (qof j)))).
  Context (KEY : forall i, In i ids -> geq (pub_GroupKey (pub i)) (gbmul (spoly f f0))).
  Context (NEW : forall i, In i ids -> NewSignState (rg i) (now i) (timeout i) ids (sh i) (pub i) message = Ret (s0 i)).

  Notation W := (HW f ids message rg).
  Notation M1 := (fun i => NewSign1 i (gbmul (SetScalarRandom (rg i) 0)) (gbmul (SetScalarRandom (rg i) 1))).
  Notation M2 := (fun i (_ : Z) => NewSign2 i (the_share f ids message rg i)).

  Lemma sign_r0 : exists r0 : Z -> sround, forall i, In i ids -> sg_NewRound (rg i) ids (sh i) (pub i) message = Ret (r0 i) /\ s0 i = NewBaseState sign_round (now i) (timeout i) (r0 i).
  Proof.
    destruct (choice_ids (fun i r => sg_NewRound (rg i) ids (sh i) (pub i) message = Ret r /\ s0 i = NewBaseState sign_round (now i) (timeout i) r) ids
       (mkSround 0 0 [] [] ∅ gid f0 f0 f0 f0 gid true None (rg 0))) as [r0 Hr0]; [|eauto].
    intros i Hi. destruct (NewSignState_round _ _ _ _ _ _ _ _ (NEW i Hi)) as (r & A & B). eauto.
  Qed.
  Lemma sign_out1 i n r out : In i ids -> PS W (rg i) ids (sh i) (pub i) message n r out -> (1 <= n)%nat -> In (M1 i) out.
  Proof.
    intros Hi (_ & _ & H) Hn. destruct (SH i Hi) as [Hid _]. destruct n as [|[|[|n]]]; [lia| | |contradiction].
    - destruct H as (_ & ->). left. unfold own_Sign1. now rewrite Hid.
    - destruct H as (_ & _ & ->). left. unfold own_Sign1. now rewrite Hid.
  Qed.
  Lemma sign_out2 i n r out : In i ids -> PS W (rg i) ids (sh i) (pub i) message n r out -> (2 <= n)%nat -> forall j, In j (others_of i ids) -> In (M2 i j) out.
  Proof.
    intros Hi HP Hn j Hj. destruct (SH i Hi) as [Hid _].
    destruct (PS_out _ _ _ _ _ _ _ _ _ HP) as [->|[->|(cl & HV & ->)]].
    - destruct HP as (_ & _ & H). destruct n as [|[|[|n]]]; [lia|lia| |contradiction]. now destruct H as (_ & _ & H).
    - destruct HP as (_ & _ & H). destruct n as [|[|[|n]]]; [lia|lia| |contradiction]. now destruct H as (_ & _ & H).
    - right. left. rewrite (own_z_eq t f ids Hids Hnum message rg pub sh SH KEY i cl Hi (cl_unique f ids message rg sh SH i cl Hi HV)). now rewrite Hid.
  Qed.
  Lemma sign_outF i r out : In i ids -> FS W (rg i) ids (sh i) (pub i) message r None out -> In (M1 i) out /\ forall j, In j (others_of i ids) -> In (M2 i j) out.
  Proof.
    intros Hi [_ H]. destruct (SH i Hi) as [Hid _]. destruct H as (cl & zs & sg & _ & HV & _ & -> & _).
    split; [left; unfold own_Sign1; now rewrite Hid|]. intros j Hj. right. left.
    rewrite (own_z_eq t f ids Hids Hnum message rg pub sh SH KEY i cl Hi (cl_unique f ids message rg sh SH i cl Hi HV)). now rewrite Hid.
  Qed.
  (** Wherever the network of signers is - whatever was lost, duplicated or reordered - and nobody has given up: if everything sent
      is delivered again and ProcessAll is called afterwards, three times over, every signer has finished, with the signature of C02. *)
  Theorem C43_sign : forall c l1 c1 l2 c2 l3 c3, net_reach sign_round ids (mkConfig s0 []) c ->
    net_trace sign_round ids c l1 c1 -> sweep ids c l1 -> net_trace sign_round ids c1 l2 c2 -> sweep ids c1 l2 -> net_trace sign_round ids c2 l3 c3 -> sweep ids c2 l3 ->
    (forall i, In i ids -> st_err (cf_state c3 i) = None) ->
    forall i, In i ids -> st_done (cf_state c3 i) = true /\ exists sig, sg_output (cf_state c3 i) = Some sig /\ Verify (gbmul (spoly f f0)) message sig = true.
  Proof.
    intros c l1 c1 l2 c2 l3 c3 HR T1 S1 T2 S2 T3 S3 He i Hi. destruct sign_r0 as [r0 Hr0].
    assert (st_done (cf_state c3 i) = true) as D.
    { eapply (three_sweeps sign_round sign_round_ok ids Hsorted Hids (HU0 f ids message rg) W (HUW f ids message rg) now timeout r0
        (fun i => PS W (rg i) ids (sh i) (pub i) message) (fun i => FS W (rg i) ids (sh i) (pub i) message) s0) with
        (t0 := MTNone) (t1 := MTSign1) (t2 := MTSign2) (M1 := M1) (M2 := M2) (c := c) (c1 := c1) (c2 := c2) (l1 := l1) (l2 := l2) (l3 := l3); auto.
      - intros j Hj. apply (Hr0 j Hj).
      - intros j Hj. destruct (Hr0 j Hj) as [Ea Eb]. destruct (new_round W _ _ _ _ _ _ Ea) as (_ & _ & _ & _ & X & _). destruct (SH j Hj) as [Hid _].
        cbn [sign_round r_self r_ids]. split; [rewrite <- Hid at 2|]; apply X.
      - intros j es s out Hj HE E. destruct (Hr0 j Hj) as [Ea Eb]. rewrite Eb in E. eapply sign_run; [exact HH|exact Ea|apply Hids|now apply valid_u16|exact HE|exact E].
      - exact (honest_out HH t f ids Hids Hnum message rg pub sh now timeout s0 SH KEY NEW).
      - intros j n r out (_ & _ & H). destruct n as [|[|[|n]]]; [lia|lia|lia|contradiction].
      - exact sign_out1.
      - exact sign_out2.
      - exact sign_outF. }
    split; auto. pose proof (net_reach_trans _ _ _ _ _ HR (trace_reach _ _ _ _ _ T1)) as R1. pose proof (net_reach_trans _ _ _ _ _ R1 (trace_reach _ _ _ _ _ T2)) as R2.
    pose proof (net_reach_trans _ _ _ _ _ R2 (trace_reach _ _ _ _ _ T3)) as R3.
    pose proof (C02_every_nonce HH t f ids Hdeg Hids Hnum message rg pub sh now timeout s0 SH PUB KEY NEW c3 i R3 Hi D) as X.
    rewrite (He i Hi) in X. destruct X as ((sig & X1 & _ & _ & X2) & _). eauto.
  Qed.

  (** From here on nobody's nonce is 0: otherwise the others stop (C02_zero_stops). *)
  Context (NZ : forall i, In i ids -> SetScalarRandom (rg i) 0 <> f0 /\ SetScalarRandom (rg i) 1 <> f0).
  Lemma sign_noerr i es es' s1 o1 s out : In i ids -> Forall (event_ok W) (es ++ es') -> Forall (fun e => e <> ECallback) es' ->
    run sign_round (s0 i) es = Ret (s1, o1) -> st_err s1 = None -> run sign_round s1 es' = Ret (s, out) -> st_err s = None.
  Proof.
    intros Hi HE HC E1 Er1 E2. destruct (st_err s) as [err|] eqn:Er; auto. exfalso. pose proof HE as HE'. apply Forall_app in HE' as [HE1 HE2].
    assert (run sign_round (s0 i) (es ++ es') = Ret (s, o1 ++ out)) as E. { rewrite run_app, E1. cbn [obind fst snd]. rewrite E2. reflexivity. }
    destruct (honest_run HH f ids Hids message rg pub sh now timeout s0 NEW i _ _ _ Hi HE E) as (r & A & HL).
    destruct (honest_run HH f ids Hids message rg pub sh now timeout s0 NEW i _ _ _ Hi HE1 E1) as (r' & A' & HL1).
    assert (st_done s = true) as D. { destruct (st_done s) eqn:D; auto. rewrite (inv_err _ s (li_inv _ _ _ _ _ _ _ HL) D) in Er. discriminate. }
    pose proof (honest_noerr HH t f ids Hdeg Hids Hnum message rg pub sh now timeout s0 SH PUB KEY NEW NZ i _ _ _ Hi HE E D) as H. rewrite Er in H. destruct H as [_ H].
    destruct (run_err_source sign_round sign_round_ok es' s1 s out err E2) as [(r1 & m & r2 & c & X)|(sc & r1 & r2 & c & X)]; auto.
    - apply HL1.
    - now apply sg_process_text in X.
    - now apply sg_generate_text in X.
  Qed.

  (** No deadlock: from every such situation there is a continuation in which every signer finishes without error. *)
  Theorem C43_sign_never_stuck : forall c, net_reach sign_round ids (mkConfig s0 []) c -> (forall i, In i ids -> st_err (cf_state c i) = None) ->
    exists l c', net_trace sign_round ids c l c' /\ no_callback l /\ forall i, In i ids -> st_done (cf_state c' i) = true /\ st_err (cf_state c' i) = None.
  Proof.
    intros c HR He. destruct sign_r0 as [r0 Hr0].
    eapply (can_finish sign_round sign_round_ok ids Hsorted Hids (HU0 f ids message rg) W (HUW f ids message rg) now timeout r0
        (fun i => PS W (rg i) ids (sh i) (pub i) message) (fun i => FS W (rg i) ids (sh i) (pub i) message) s0) with
        (t0 := MTNone) (t1 := MTSign1) (t2 := MTSign2) (M1 := M1) (M2 := M2); auto.
    - intros j Hj. apply (Hr0 j Hj).
    - intros j Hj. destruct (Hr0 j Hj) as [Ea Eb]. destruct (new_round W _ _ _ _ _ _ Ea) as (_ & _ & _ & _ & X & _). destruct (SH j Hj) as [Hid _].
      cbn [sign_round r_self r_ids]. split; [rewrite <- Hid at 2|]; apply X.
    - intros j es s out Hj HE E. destruct (Hr0 j Hj) as [Ea Eb]. rewrite Eb in E. eapply sign_run; [exact HH|exact Ea|apply Hids|now apply valid_u16|exact HE|exact E].
    - exact (honest_out HH t f ids Hids Hnum message rg pub sh now timeout s0 SH KEY NEW).
    - intros j n r out (_ & _ & H). destruct n as [|[|[|n]]]; [lia|lia|lia|contradiction].
    - exact sign_out1.
    - exact sign_out2.
    - exact sign_outF.
    - intros c0 j ev HR0 Hj _ Hev. exact (C02_no_crash HH t f ids Hids Hnum message rg pub sh now timeout s0 SH KEY NEW c0 j ev HR0 Hj Hev).
    - exact sign_noerr.
  Qed.
End LiveSign.

Section LiveKeygen.
  Context `{L : group_laws} `{Hf : hash_fn}.
  (** The honest parties of C04. *)
  Context (ids : list Z) (thr : Z) (V : valid_ids ids) (Hsorted : sorted ids) (HT : is_u16 thr).
  Context (rg : Z -> rng) (now timeout : Z -> Z) (s0 : Z -> State kround).
  Context (NEW : forall i, In i ids -> NewKeygenState (rg i) (now i) (timeout i) i ids thr = Ret (s0 i)).
  Notation W := (KW ids thr rg).
  Notation M1 := (fun i => own_KG1 (rg i) i thr).
  Notation M2 := (fun i j => NewKeyGen2 i j (peval (p0 (rg i) thr) (idF j))).

  Lemma keygen_r0 : exists r0 : Z -> kround, forall i, In i ids -> kg_NewRound (rg i) i ids thr = Ret (r0 i) /\ s0 i = NewBaseState keygen_round (now i) (timeout i) (r0 i).
  Proof.
    destruct (choice_ids (fun i r => kg_NewRound (rg i) i ids thr = Ret r /\ s0 i = NewBaseState keygen_round (now i) (timeout i) r) ids
       (mkKround 0 0 [] 0 f0 None None ∅ true (mkKOutput None None) (rg 0))) as [r0 Hr0]; [|eauto].
    intros i Hi. destruct (NewKeygenState_round _ _ _ _ _ _ _ (NEW i Hi)) as (r & A & B). eauto.
  Qed.
  Lemma keygen_out1 i n r out : In i ids -> PK W (rg i) i ids thr n r out -> (1 <= n)%nat -> In (M1 i) out.
  Proof.
    intros Hi (_ & _ & H) Hn. destruct n as [|[|[|n]]]; [lia| | |contradiction].
    - destruct H as (_ & _ & _ & _ & ->). now left.
    - destruct H as (_ & _ & -> & _). now left.
  Qed.
  Lemma keygen_out2 i n r out : In i ids -> PK W (rg i) i ids thr n r out -> (2 <= n)%nat -> forall j, In j (others_of i ids) -> In (M2 i j) out.
  Proof.
    intros Hi (_ & _ & H) Hn j Hj. destruct n as [|[|[|n]]]; [lia|lia| |contradiction].
    destruct H as (_ & _ & -> & _). right. apply in_map_iff. eauto.
  Qed.
  Lemma keygen_outF i r out : In i ids -> FK W (rg i) i ids thr r None out -> In (M1 i) out /\ forall j, In j (others_of i ids) -> In (M2 i j) out.
  Proof.
    intros Hi [_ H]. destruct H as (_ & _ & _ & _ & _ & _ & _ & -> & _). split; [now left|]. intros j Hj. right. apply in_map_iff. eauto.
  Qed.
  Lemma keygen_noerr i es es' s1 o1 s out : In i ids -> Forall (event_ok W) (es ++ es') -> Forall (fun e => e <> ECallback) es' ->
    run keygen_round (s0 i) es = Ret (s1, o1) -> st_err s1 = None -> run keygen_round s1 es' = Ret (s, out) -> st_err s = None.
  Proof.
    exact (khonest_noerr_from ids thr V HT rg now timeout s0 NEW i es es' s1 o1 s out).
  Qed.
  Lemma keygen_nocrash c i ev : net_reach keygen_round ids (mkConfig s0 []) c -> In i ids -> ev <> ECallback ->
    (forall nw m, ev = EHandle nw m -> exists m0, In m0 (cf_sent c) /\ same_msg m0 m) -> exists s' o, step keygen_round (cf_state c i) ev = Ret (s', o).
  Proof.
    intros HR Hi Hne _. destruct (net_local_W keygen_round (KU ids thr rg) W ids s0 c (KUW ids thr rg) (khonest_out ids thr V HT rg now timeout s0 NEW) HR i) as (es & out & HE & E).
    destruct (khonest_run ids thr V HT rg now timeout s0 NEW i _ _ _ Hi HE E) as (r & A & _ & HL).
    eapply (keygen_step_nopanic W (rg i) i ids thr r A V HT); eauto.
    - intros m Hm. apply (kw_ok ids thr rg m Hm).
    - intros m Hm. apply (kw_ok ids thr rg m Hm).
  Qed.

  (** The same for key generation. *)
  Theorem C43_keygen : forall c l1 c1 l2 c2 l3 c3, net_reach keygen_round ids (mkConfig s0 []) c ->
    net_trace keygen_round ids c l1 c1 -> sweep ids c l1 -> net_trace keygen_round ids c1 l2 c2 -> sweep ids c1 l2 -> net_trace keygen_round ids c2 l3 c3 -> sweep ids c2 l3 ->
    (forall i, In i ids -> st_err (cf_state c3 i) = None) ->
    forall i, In i ids -> st_done (cf_state c3 i) = true /\
      exists pub sk, kg_output (cf_state c3 i) = mkKOutput (Some pub) (Some sk) /\ geq (pub_GroupKey pub) (gbmul (shared ids thr rg f0)) /\ sh_Secret sk = shared ids thr rg (qof i).
  Proof.
    intros c l1 c1 l2 c2 l3 c3 HR T1 S1 T2 S2 T3 S3 He i Hi. destruct keygen_r0 as [r0 Hr0].
    assert (st_done (cf_state c3 i) = true) as D.
    { eapply (three_sweeps keygen_round keygen_round_ok ids Hsorted V (KU ids thr rg) W (KUW ids thr rg) now timeout r0
        (fun i => PK W (rg i) i ids thr) (fun i => FK W (rg i) i ids thr) s0) with
        (t0 := MTNone) (t1 := MTKeyGen1) (t2 := MTKeyGen2) (M1 := M1) (M2 := M2) (c := c) (c1 := c1) (c2 := c2) (l1 := l1) (l2 := l2) (l3 := l3); auto.
      - intros j Hj. apply (Hr0 j Hj).
      - intros j Hj. destruct (Hr0 j Hj) as [Ea Eb]. split; [eapply (kr0_self W)|eapply (kr0_ids W)]; eauto.
      - intros j es s out Hj HE E. destruct (Hr0 j Hj) as [Ea Eb]. rewrite Eb in E. eapply keygen_run; eauto.
      - exact (khonest_out ids thr V HT rg now timeout s0 NEW).
      - intros j n r out (_ & _ & H). destruct n as [|[|[|n]]]; [lia|lia|lia|contradiction].
      - exact keygen_out1.
      - exact keygen_out2.
      - exact keygen_outF. }
    split; auto. pose proof (net_reach_trans _ _ _ _ _ HR (trace_reach _ _ _ _ _ T1)) as R1. pose proof (net_reach_trans _ _ _ _ _ R1 (trace_reach _ _ _ _ _ T2)) as R2.
    pose proof (net_reach_trans _ _ _ _ _ R2 (trace_reach _ _ _ _ _ T3)) as R3.
    pose proof (C04_honest ids thr V HT rg now timeout s0 NEW c3 i R3 Hi D) as X.
    rewrite (He i Hi) in X. destruct X as (pub & sk & X1 & _ & X2 & _ & _ & _ & X3 & _). eauto.
  Qed.

  Theorem C43_keygen_never_stuck : forall c, net_reach keygen_round ids (mkConfig s0 []) c -> (forall i, In i ids -> st_err (cf_state c i) = None) ->
    exists l c', net_trace keygen_round ids c l c' /\ no_callback l /\ forall i, In i ids -> st_done (cf_state c' i) = true /\ st_err (cf_state c' i) = None.
  Proof.
    intros c HR He. destruct keygen_r0 as [r0 Hr0].
    eapply (can_finish keygen_round keygen_round_ok ids Hsorted V (KU ids thr rg) W (KUW ids thr rg) now timeout r0
        (fun i => PK W (rg i) i ids thr) (fun i => FK W (rg i) i ids thr) s0) with
        (t0 := MTNone) (t1 := MTKeyGen1) (t2 := MTKeyGen2) (M1 := M1) (M2 := M2); auto.
    - intros j Hj. apply (Hr0 j Hj).
    - intros j Hj. destruct (Hr0 j Hj) as [Ea Eb]. split; [eapply (kr0_self W)|eapply (kr0_ids W)]; eauto.
    - intros j es s out Hj HE E. destruct (Hr0 j Hj) as [Ea Eb]. rewrite Eb in E. eapply keygen_run; eauto.
    - exact (khonest_out ids thr V HT rg now timeout s0 NEW).
    - intros j n r out (_ & _ & H). destruct n as [|[|[|n]]]; [lia|lia|lia|contradiction].
    - exact keygen_out1.
    - exact keygen_out2.
    - exact keygen_outF.
    - exact keygen_nocrash.
    - exact keygen_noerr.
  Qed.
End LiveKeygen.

(** ** A concrete case: the signers of C02_example, where 3's commitment was lost on its way to 1; two sweeps are not enough, three are *)
Definition sweep_acts (ids : list Z) (sent : nat) : list act := flat_map (fun i => map (ADeliver i) (seq 0 sent) ++ [AProcess i]) ids.
Definition live_start : list act := [AProcess 1; AProcess 3; ADeliver 3 0].
Example C43_example : sorted s13 /\
  (let fin acts := match @net_exec toy_group tsround tsg s13 (@mkConfig toy_group tsround ts0 []) acts with
     | Some c => Some (List.length (cf_sent c), map (fun i => (st_done (cf_state c i), match st_err (cf_state c i) with None => true | _ => false end)) s13) | None => None end in
   fin live_start = Some (2%nat, [(false, true); (false, true)]) /\
   fin (sweep_acts s13 0) = Some (2%nat, [(false, true); (false, true)]) /\
   fin (sweep_acts s13 0 ++ sweep_acts s13 2) = Some (4%nat, [(false, true); (false, true)]) /\
   fin (sweep_acts s13 0 ++ sweep_acts s13 2 ++ sweep_acts s13 4) = Some (4%nat, [(true, true); (true, true)]) /\
   fin (live_start ++ sweep_acts s13 2 ++ sweep_acts s13 4) = Some (4%nat, [(true, true); (true, true)])).
Proof. split; [repeat constructor; lia|]. vm_compute. repeat split; reflexivity. Qed.
Example C43_keygen_example : sorted k3 /\
  (let fin acts := match @net_exec toy_group tkround tkg k3 (@mkConfig toy_group tkround tk0 []) acts with
     | Some c => Some (List.length (cf_sent c), map (fun i => (st_done (cf_state c i), match st_err (cf_state c i) with None => true | _ => false end)) k3) | None => None end in
   fin (sweep_acts k3 0 ++ sweep_acts k3 3) = Some (9%nat, [(false, true); (false, true); (false, true)]) /\
   fin (sweep_acts k3 0 ++ sweep_acts k3 3 ++ sweep_acts k3 9) = Some (9%nat, [(true, true); (true, true); (true, true)])).
Proof. split; [repeat constructor; lia|]. vm_compute. repeat split; reflexivity. Qed.

Print Assumptions C43_sign.
Print Assumptions C43_sign_never_stuck.
Print Assumptions C43_keygen.
Print Assumptions C43_keygen_never_stuck.
