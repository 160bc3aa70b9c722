(** C02 and C09 for all nonces, also those that are 0: such a signer is the only one an honest run can name. *)
From Coq Require Import ZArith Lia List Bool String Permutation Sorted Ring Setoid Morphisms.
From Coq.Strings Require Import Byte.
From stdpp Require Import base gmap list fin_maps.
From Verif Require Import ZField Primes Bytes Scalar Go Group ToyGroup Party Poly PolyFacts Zk Eddsa Messages State StateFacts Spec_State
  Keygen Sign RoundFacts Lift Net Progress NetProgress Spec_Poly PolyAlg Spec_Group Spec_Wire Spec_Sign Spec_SignRun SignFacts SignRun Properties_Algebra Properties_Codec
  Properties_State Properties_Sign ToyRuns Properties_HonestSign.
Import ListNotations.
Local Open Scope Z_scope.

Local Opaque SetScalarRandom.

Section Honest.
  (** As in C02, without any assumption on the nonces. *)
  Context `{L : group_laws} `{Hf : hash_fn} (HH : hash_ok Hf).
  Context (t : nat) (f : list Fq) (ids : list Z) (Hdeg : degree_le t f) (Hids : valid_ids ids) (Hnum : (t + 1 <= List.length ids)%nat).
  Context (message : list byte) (rg : Z -> rng) (pub : Z -> Public) (sh : Z -> SecretShare) (now timeout : Z -> Z) (s0 : Z -> State sround).
  Context (SH : forall i, In i ids -> sh_ID (sh i) = i /\ sh_Secret (sh i) = spoly f (qof i)).
  Context (PUB : forall i j, In i ids -> In j ids -> exists A, pub_Shares (pub i) !! j = Some A /\ geq A (gbmul (spoly f (qof j)))).
  Context (KEY : forall i, In i ids -> geq (pub_GroupKey (pub i)) (gbmul (spoly f f0))).
  Context (NEW : forall i, In i ids -> NewSignState (rg i) (now i) (timeout i) ids (sh i) (pub i) message = Ret (s0 i)).
  (** [j] has drawn a nonce that is 0. *)
  Definition zero_nonce (j : Z) : Prop := SetScalarRandom (rg j) 0 = f0 \/ SetScalarRandom (rg j) 1 = f0.
  Notation HW := (HW f ids message rg).
  Notation the_share := (the_share f ids message rg).

  (** The messages of honest signers: a share only if nobody else's nonce is 0. *)
  Definition ZU (m : Message) : Prop := exists i, In i ids /\ (m = NewSign1 i (gbmul (SetScalarRandom (rg i) 0)) (gbmul (SetScalarRandom (rg i) 1)) \/
    (m = NewSign2 i (the_share i) /\ forall j, In j ids -> j <> i -> ~ zero_nonce j)).
  Definition ZW (m : Message) : Prop := exists m0, ZU m0 /\ same_msg m0 m.
  Lemma ZW_HW m : ZW m -> HW m.
  Proof. intros (m0 & (i & Hi & [X|[X _] ]) & HS); exists m0; (split; [exists i; auto|auto]). Qed.
  Lemma ZW_events es : Forall (event_ok ZW) es -> Forall (event_ok HW) es.
  Proof. apply List.Forall_impl. intros [nw m| | |]; cbn; auto. apply ZW_HW. Qed.

  Lemma view_nonzero i cl : In i ids -> view_ok HW (rg i) ids (sh i) cl -> forall j, In j ids -> j <> i -> ~ zero_nonce j.
  Proof.
    intros Hi HV j Hj Hne HZ. destruct (SH i Hi) as [Hid _]. rewrite <- (vo_ids _ _ _ _ _ HV) in Hj. apply In_fst in Hj as [[D E] Hin].
    destruct (vo_other _ _ _ _ _ HV j D E Hin) as (m & Hm & Hfr & Ht & Hb & N1 & N2); [now rewrite Hid|].
    destruct (hw_sign1 f ids message rg m _ Hm Ht Hb) as (_ & X1 & X2). cbn [s1_Di s1_Ei] in X1, X2. rewrite Hfr in X1, X2.
    destruct HZ as [HZ|HZ]; [apply N1; rewrite X1|apply N2; rewrite X2]; rewrite HZ; symmetry; apply gb_id.
  Qed.
  Lemma zero_out i es s out : In i ids -> Forall (event_ok ZW) es -> run sign_round (s0 i) es = Ret (s, out) -> Forall ZU out.
  Proof.
    intros Hi HE E. apply ZW_events in HE. destruct (honest_run HH f ids Hids message rg pub sh now timeout s0 NEW i es s out Hi HE E) as (r0 & E1 & HL). destruct (SH i Hi) as [Hid _].
    assert (out_ok HW (rg i) ids (sh i) (pub i) message out) as HO.
    { destruct (st_done s) eqn:D; [apply (li_F _ _ _ _ _ _ _ HL D)|]. destruct (li_P _ _ _ _ _ _ _ HL D) as (n & _ & _ & HP). eapply PS_out; eauto. }
    assert (ZU (own_Sign1 (rg i) (sh i))) as H1. { exists i. split; auto. left. unfold own_Sign1. now rewrite Hid. }
    destruct HO as [->|[->|(cl & HV & ->)] ]; [constructor|constructor; [exact H1|constructor]|].
    constructor; [exact H1|]. constructor; [|constructor]. exists i. split; auto. right. split; [|exact (view_nonzero i cl Hi HV)].
    pose proof (cl_unique f ids message rg sh SH i cl Hi HV) as HC. rewrite (own_z_eq t f ids Hids Hnum message rg pub sh SH KEY i cl Hi HC). now rewrite Hid.
  Qed.
  Lemma zero_local c i : net_reach sign_round ids (mkConfig s0 []) c -> exists es out, Forall (event_ok ZW) es /\ run sign_round (s0 i) es = Ret (cf_state c i, out).
  Proof. intros HR. apply (net_local_W sign_round ZU ZW ids s0 c); [|exact zero_out|exact HR]. intros m m' H1 H2. exists m. auto. Qed.

  (** C02 for all nonces.  An honest signer ends by timeout, or names another signer with a nonce that is 0, or outputs the Schnorr signature
      r + c s; in the last case all nonces were different from 0, except possibly that of a sole signer. *)
  Theorem C02_every_nonce : forall c i, net_reach sign_round ids (mkConfig s0 []) c -> In i ids -> st_done (cf_state c i) = true ->
    match st_err (cf_state c i) with
    | Some err => (pe_PartyID err = 0 /\ pe_text err = "message timeout"%string) \/
        (pe_text err = "commitment Ei or Di was the identity"%string /\ In (pe_PartyID err) ids /\ pe_PartyID err <> i /\ zero_nonce (pe_PartyID err))
    | None => (exists sig, sg_output (cf_state c i) = Some sig /\ geq (sig_R sig) (gbmul (the_nonce ids message rg)) /\ sig_S sig = the_S f ids message rg /\
                Verify (gbmul (spoly f f0)) message sig = true) /\ ((2 <= List.length ids)%nat -> forall j, In j ids -> ~ zero_nonce j)
    end.
  Proof.
    intros c i HR Hi D. destruct (zero_local c i HR) as (es & out & HE0 & E). pose proof (ZW_events es HE0) as HE.
    pose proof (honest_any HH t f ids Hdeg Hids Hnum message rg pub sh now timeout s0 SH PUB KEY NEW i es _ out Hi HE E D) as X.
    destruct (st_err (cf_state c i)) as [err|] eqn:Er; [exact X|]. split; [exact X|]. clear X. intros H2.
    (* the messages were those of ZW *)
    destruct (NewSignState_round _ _ _ _ _ _ _ _ (NEW i Hi)) as (r0 & E1 & E2). pose proof E as E'. rewrite E2 in E'.
    pose proof (sign_run HH ZW (rg i) ids (sh i) (pub i) message r0 E1 (proj1 Hids) (valid_u16 _ Hids) (now i) (timeout i) es _ out HE0 E') as HL.
    pose proof (li_F _ _ _ _ _ _ _ HL D) as [_ HF]. rewrite Er in HF. destruct HF as (cl & zs & sg & _ & HV & (G1 & G2 & G3) & _). destruct (SH i Hi) as [Hid _].
    assert (view_ok HW (rg i) ids (sh i) cl) as HV'. { split; [apply HV|apply HV|]. intros j D0 E0 Hin Hne. destruct (vo_other _ _ _ _ _ HV j D0 E0 Hin Hne) as (m & Hm & X). exists m. split; [now apply ZW_HW|exact X]. }
    intros j Hj. destruct (Z.eq_dec j i) as [->|Hne]; [|exact (view_nonzero i cl Hi HV' j Hj Hne)].
    (* somebody else has sent a share *)
    assert (exists k, In k ids /\ k <> i) as (k & Hk & Hki).
    { destruct ids as [|a [|b l] ]; cbn in H2; [lia|lia|]. destruct (Z.eq_dec a i) as [->|N]; [|exists a; split; [now left|exact N] ].
      exists b. split; [right; now left|]. destruct Hids as [ND _]. inversion ND as [|? ? Hni _]; subst. intros ->. apply Hni. now left. }
    rewrite <- G1 in Hk. apply In_fst in Hk as [z Hz]. destruct (G3 k z Hz) as (_ & m & Hm & Hfr & Ht & Hb); [now rewrite Hid|].
    destruct Hm as (m0 & (k' & Hk' & [->|[-> HN] ]) & HS); [rewrite (same_type _ _ HS) in Ht; discriminate|].
    apply HN; auto. intros ->. apply Hki. rewrite <- Hfr, (same_from _ _ HS). reflexivity.
  Qed.

  Lemma zero_round1 i j es s out : In i ids -> In j ids -> j <> i -> zero_nonce j -> Forall (event_ok ZW) es -> run sign_round (s0 i) es = Ret (s, out) ->
    (st_done s = false -> st_roundNumber s <= 1) /\ (st_done s = true -> st_err s <> None) /\ sg_output s = None.
  Proof.
    intros Hi Hj Hne HZ HE E. apply ZW_events in HE. destruct (honest_run HH f ids Hids message rg pub sh now timeout s0 NEW i es s out Hi HE E) as (r0 & E1 & HL).
    assert (st_done s = true -> st_err s <> None) as A.
    { intros D Er. pose proof (li_F _ _ _ _ _ _ _ HL D) as [_ HF]. rewrite Er in HF. destruct HF as (cl & zs & sg & _ & HV & _). exact (view_nonzero i cl Hi HV j Hj Hne HZ). }
    split; [|split; [exact A|] ].
    - intros D. destruct (li_P _ _ _ _ _ _ _ HL D) as (n & -> & _ & (_ & Hn & HP)). destruct n as [|[|[|n] ] ]; [lia|lia| |contradiction].
      destruct HP as (_ & HP & _). exfalso. refine (view_nonzero i _ Hi _ j Hj Hne HZ). apply HP.
    - apply (C01_no_output_otherwise (rg i) (now i) (timeout i) ids (sh i) (pub i) message (s0 i) (NEW i Hi) s out); [exists es; exact E|]. destruct (st_done s); auto.
  Qed.
  (** Once somebody else's nonce is 0, a signer never gets beyond the commitments, sends no share, outputs no signature, and if it ends, with an error. *)
  Theorem C02_zero_stops : forall c i j, net_reach sign_round ids (mkConfig s0 []) c -> In i ids -> In j ids -> j <> i -> zero_nonce j ->
    (st_done (cf_state c i) = false -> st_roundNumber (cf_state c i) <= 1) /\ sg_output (cf_state c i) = None /\
    (st_done (cf_state c i) = true -> st_err (cf_state c i) <> None) /\ forall m, In m (cf_sent c) -> m_From m = i -> m_Type m <> MTSign2.
  Proof.
    intros c i j HR Hi Hj Hne HZ. destruct (zero_local c i HR) as (es & out & HE & E). destruct (zero_round1 i j es _ out Hi Hj Hne HZ HE E) as (A & B & C). split; [exact A|]. split; [exact C|]. split; [exact B|].
    intros m Hm Hfr Ht. assert (Forall ZU (cf_sent c)) as HF. { apply (net_closed sign_round ZU ZW ids s0 c); [|exact zero_out|exact HR]. intros x y X Y. exists x. auto. }
    rewrite List.Forall_forall in HF. destruct (HF m Hm) as (k & Hk & [->|[-> HN] ]); [discriminate|]. cbn in Hfr. subst k. exact (HN j Hj Hne HZ).
  Qed.
  (** ... and the error occurs: in some execution without any timeout the signer names one whose nonce is 0. *)
  Theorem C02_zero_names : forall i j, sorted ids -> In i ids -> In j ids -> j <> i -> zero_nonce j -> exists c err, net_reach sign_round ids (mkConfig s0 []) c /\
    st_done (cf_state c i) = true /\ st_err (cf_state c i) = Some err /\ In (pe_PartyID err) ids /\ pe_PartyID err <> i /\ zero_nonce (pe_PartyID err) /\
    pe_text err = "commitment Ei or Di was the identity"%string.
  Proof.
    intros i j HS Hi Hj Hne HZ.
    destruct (choice_ids (fun i r => sg_NewRound (rg i) ids (sh i) (pub i) message = Ret r /\ s0 i = NewBaseState sign_round (now i) (timeout i) r) ids
       (mkSround 0 0 [] [] ∅ gid f0 f0 f0 f0 gid true None (rg 0))) as [r0 Hr0].
    { intros k Hk. destruct (NewSignState_round _ _ _ _ _ _ _ _ (NEW k Hk)) as (r & A & B). eauto. }
    assert (forall k es, In k ids -> Forall (event_ok HW) es -> exists s o, run sign_round (s0 k) es = Ret (s, o)) as NP.
    { intros k es Hk HE. destruct (Hr0 k Hk) as [Ea Eb]. rewrite Eb. destruct (sign_nopanic HH HW (rg k) ids (sh k) (pub k) message (r0 k) Ea (proj1 Hids) (valid_u16 _ Hids)) with (now := now k) (t := timeout k) (es := es) as (s & o & E' & _); eauto.
      intros m Hm. now apply (hw_body f ids message rg). }
    (* everybody starts *)
    destruct (choice_ids (fun k x => run sign_round (s0 k) [EProcess [] []] = Ret (fst x, snd x)) ids (s0 i, [] : list Message)) as [S1 HS1].
    { intros k Hk. destruct (NP k [EProcess [] []] Hk) as (s & o & E); [constructor; cbn; auto|]. exists (s, o). exact E. }
    destruct (net_phase sign_round ids (fun _ => [EProcess [] []]) (fun k => fst (S1 k)) (fun k => snd (S1 k)) ids (incl_refl _) (proj1 Hids) (mkConfig s0 [])) as (c1 & HR1 & HC1 & _ & _ & HO1).
    { intros k Hk. apply (HS1 k Hk). } { intros k nw m _ [X|[] ]. discriminate X. }
    set (M1 := fun k => NewSign1 k (gbmul (SetScalarRandom (rg k) 0)) (gbmul (SetScalarRandom (rg k) 1))).
    assert (forall k, In k ids -> HW (M1 k)) as HM1. { intros k Hk. exists (M1 k). split; [exists k; auto|apply same_refl]. }
    assert (forall k, In k ids -> st_done (fst (S1 k)) = false /\ st_roundNumber (fst (S1 k)) = 1 /\ st_received (fst (S1 k)) = ∅ /\ st_queue (fst (S1 k)) = [] /\ In (M1 k) (snd (S1 k))) as H1.
    { intros k Hk. assert (exists l, In l ids /\ l <> k) as (l & Hl & Hlk). { destruct (Z.eq_dec k i) as [->|N]; [exists j; auto|exists i; split; auto]. }
      destruct (Hr0 k Hk) as [Ea Eb]. destruct (SH k Hk) as [Hid _]. pose proof (HS1 k Hk) as E. pose proof E as E'. rewrite Eb in E'.
      pose proof (sign_run HH (fun _ => False) (rg k) ids (sh k) (pub k) message (r0 k) Ea (proj1 Hids) (valid_u16 _ Hids) (now k) (timeout k) [EProcess [] []] _ _ ltac:(repeat constructor) E') as HL.
      assert (forall cl, view_ok (fun _ => False) (rg k) ids (sh k) cl -> False) as NV.
      { intros cl HV. rewrite <- (vo_ids _ _ _ _ _ HV) in Hl. apply In_fst in Hl as [[D0 E0] Hin]. destruct (vo_other _ _ _ _ _ HV l D0 E0 Hin) as (m & [] & _). now rewrite Hid. }
      destruct (new_round (fun _ => False) _ _ _ _ _ _ Ea) as (_ & _ & _ & _ & RI & _).
      assert (st_done (fst (S1 k)) = false) as D.
      { destruct (st_done (fst (S1 k))) eqn:D; [exfalso|reflexivity]. pose proof (li_F _ _ _ _ _ _ _ HL D) as [_ HF]. destruct (st_err (fst (S1 k))) as [err|] eqn:Er.
        - destruct HF as [_ [H|[H|[H|H] ] ] ].
          + destruct H as [_ H]. destruct (run_err_source sign_round sign_round_ok [EProcess [] []] (s0 k) _ _ err E) as [(r1 & m & r' & c & X)|(sc & r1 & r' & c & X)].
            * rewrite Eb. apply inv_init.
            * rewrite Eb. reflexivity.
            * exact Er.
            * constructor; [discriminate|constructor].
            * now apply sg_process_text in X.
            * now apply sg_generate_text in X.
          + destruct H as (_ & _ & _ & m & b & [] & _).
          + destruct H as (_ & _ & _ & cl & m & b & HV & _). eauto.
          + destruct H as (_ & _ & cl & zs & R & HV & _). eauto.
        - destruct HF as (cl & zs & sg & _ & HV & _). eauto. }
      destruct (stage0_step sign_round (now k) (timeout k) (r0 k) MTNone MTSign1 MTSign2) with (s1 := fst (S1 k)) (o1 := snd (S1 k)) (a := @nil Z) (b := @nil Z) as (X1 & X2 & X3); auto.
      { cbn [sign_round r_ids r_self]. destruct RI as [_ RI]. cbn in RI. rewrite RI. exact Hids. }
      { cbn [sign_round r_ids r_self]. destruct RI as [RI0 RI]. cbn in RI, RI0. rewrite RI, RI0, Hid. exact Hk. }
      split; [exact D|]. split; [exact X1|]. split; [exact X2|]. split; [exact X3|].
      destruct (li_P _ _ _ _ _ _ _ HL D) as (n & En & _ & (_ & _ & HP)). assert (n = 1)%nat as -> by lia. destruct HP as (_ & ->). left. unfold own_Sign1, M1. now rewrite Hid. }
    (* i receives all commitments *)
    set (ms := map M1 (others_of i ids)). set (es1 := map (EHandle 0) ms ++ [EProcess [] []]).
    assert (forall m, In m ms -> exists k, In k ids /\ k <> i /\ m = M1 k) as Hms. { intros m Hm. apply in_map_iff in Hm as (k & <- & Hk). apply others_of_In in Hk as [A B]. eauto. }
    destruct (NP i ([EProcess [] []] ++ es1) Hi) as (s2 & o2 & E2).
    { constructor; [exact Logic.I|]. apply Forall_app. split; [|repeat constructor]. apply List.Forall_forall. intros ev Hev. apply in_map_iff in Hev as (m & <- & Hm). cbn. destruct (Hms m Hm) as (k & Hk & _ & ->). auto. }
    pose proof E2 as E2'. rewrite run_app, (HS1 i Hi) in E2'. cbn [obind fst snd] in E2'. apply obind_ret in E2' as ([s2' o3] & E3 & E4). apply Ret_inj in E4. inversion E4; subst s2'. clear E4. cbn [fst snd] in *.
    assert (Forall (event_ok ZW) ([EProcess [] []] ++ es1)) as HEZ.
    { constructor; [exact Logic.I|]. apply Forall_app. split; [|repeat constructor]. apply List.Forall_forall. intros ev Hev. apply in_map_iff in Hev as (m & <- & Hm). cbn. destruct (Hms m Hm) as (k & Hk & _ & ->).
      exists (M1 k). split; [exists k; auto|apply same_refl]. }
    destruct (zero_round1 i j _ _ _ Hi Hj Hne HZ HEZ E2) as (Z1 & Z2 & _).
    destruct (H1 i Hi) as (D1 & R1 & Rc & Rq & _).
    destruct (honest_run HH f ids Hids message rg pub sh now timeout s0 NEW i [EProcess [] []] _ _ Hi ltac:(repeat constructor) (HS1 i Hi)) as (r1 & Er1 & HL1).
    destruct (new_round HW _ _ _ _ _ _ Er1) as (_ & _ & _ & _ & RX & _). destruct RX as [RI0 RI _ _ _ _ _ _ _ _]. destruct (SH i Hi) as [Hid _]. rewrite Hid in RI0.
    pose proof (li_self _ _ _ _ _ _ _ HL1) as Es. pose proof (li_ids _ _ _ _ _ _ _ HL1) as Ei. cbn [sign_round r_self r_ids] in RI0, RI.
    assert (r_self sign_round (st_round (fst (S1 i))) = i) as Es' by (rewrite Es; exact RI0). assert (r_ids sign_round (st_round (fst (S1 i))) = ids) as Ei' by (rewrite Ei; exact RI). clear Es Ei.
    destruct (li_P _ _ _ _ _ _ _ HL1 D1) as (n & En & Ea & _). assert (n = 1)%nat as -> by lia.
    assert (st_done s2 = true) as D2.
    { destruct (round_step sign_round (fst (S1 i)) ms 0 [] [] s2 o3 MTSign1 [MTSign2]) as [X|(Y1 & _ & _ & Y2)]; auto; try (rewrite ?Es', ?Ei'; auto; fail).
      - apply HL1.
      - unfold others_s. rewrite Es', Ei'. split.
        + unfold ms. rewrite map_map. rewrite (map_ext _ id); [now rewrite map_id|]. reflexivity.
        + apply List.Forall_forall. intros m Hm. destruct (Hms m Hm) as (k & _ & _ & ->). reflexivity.
        + apply List.Forall_forall. intros m Hm. destruct (Hms m Hm) as (k & _ & _ & ->). now left.
      - specialize (Z1 Y2). lia. }
    destruct (net_run sign_round ids i es1 Hi c1 s2 o3) as (c2 & HR2 & HC2 & _).
    { intros nw m Hin. apply in_app_iff in Hin as [Hin|[Hin|[] ] ]; [|discriminate Hin]. apply in_map_iff in Hin as (m' & X & Hm). injection X as _ ->. destruct (Hms m Hm) as (k & Hk & _ & ->). apply (HO1 k Hk). apply (H1 k Hk). }
    { rewrite (HC1 i Hi). exact E3. }
    pose proof (honest_any HH t f ids Hdeg Hids Hnum message rg pub sh now timeout s0 SH PUB KEY NEW i _ _ _ Hi (ZW_events _ HEZ) E2 D2) as X.
    destruct (st_err s2) as [err|] eqn:Er; [|destruct (Z2 D2); reflexivity]. exists c2, err. rewrite HC2. split; [eapply net_reach_trans; [exact HR1|exact HR2]|]. split; [exact D2|]. split; [exact Er|].
    destruct X as [[_ X]|(X1 & X2 & X3 & X4)]; [|auto]. exfalso. destruct (Hr0 i Hi) as [Ea' Eb].
    destruct (run_err_source sign_round sign_round_ok _ (s0 i) _ _ err E2) as [(r' & m & r'' & c & Y)|(sc & r' & r'' & c & Y)].
    - rewrite Eb. apply inv_init.
    - rewrite Eb. reflexivity.
    - exact Er.
    - constructor; [discriminate|]. apply Forall_app. split; [|constructor; [discriminate|constructor] ]. apply List.Forall_forall. intros ev Hev. apply in_map_iff in Hev as (m & <- & _). discriminate.
    - now apply sg_process_text in Y.
    - now apply sg_generate_text in Y.
  Qed.

End Honest.

(** * C09 for all nonces *)
Section Blame.
  (** As in C09_sign_blame, without the assumption on j's nonces. *)
  Context `{L : group_laws} `{Hf : hash_fn} (HH : hash_ok Hf).
  Context (ids : list Z) (message : list byte) (ND : List.NoDup ids) (HU : Forall is_u16 ids).
  Context (rg rgj : rng) (now nowj t tj : Z) (sec secj : SecretShare) (pub pubj : Public) (s0 s0j : State sround).
  Context (NEW : NewSignState rg now t ids sec pub message = Ret s0) (NEWj : NewSignState rgj nowj tj ids secj pubj message = Ret s0j).
  Notation j := (sh_ID secj).
  Context (KEY : geq (pub_GroupKey pub) (pub_GroupKey pubj)).
  Context (SHARE : exists A, pub_Shares pub !! j = Some A /\ geq A (gbmul (sh_Secret secj))).
  Context (es esj : list event) (s sj : State sround) (out outj : list Message).
  Context (RUN : run sign_round s0 es = Ret (s, out)) (RUNj : run sign_round s0j esj = Ret (sj, outj)).
  Context (AUTH : forall m, given es m -> m_From m = j -> exists m0, In m0 outj /\ same_msg m0 m).
  Context (BC : forall m m' b b', given es m \/ In m out -> given esj m' \/ In m' outj -> m_Type m = MTSign1 -> m_Type m' = MTSign1 ->
     m_From m = m_From m' -> m_Sign1 m = Some b -> m_Sign1 m' = Some b' -> geq (s1_Di b) (s1_Di b') /\ geq (s1_Ei b) (s1_Ei b')).

  (** An honest party can only be named if one of its two nonces is 0. *)
  Theorem C09_sign_every_nonce : forall err, st_err s = Some err -> pe_PartyID err = j -> SetScalarRandom rgj 0 = f0 \/ SetScalarRandom rgj 1 = f0.
  Proof.
    intros err Er Hj. destruct (F_eq_dec (SetScalarRandom rgj 0) f0) as [Z0|Z0]; [now left|]. destruct (F_eq_dec (SetScalarRandom rgj 1) f0) as [Z1|Z1]; [now right|]. exfalso.
    exact (C09_sign_blame HH ids message ND HU rg rgj now nowj t tj sec secj pub pubj s0 s0j NEW NEWj KEY SHARE (conj Z0 Z1) es esj s sj out outj RUN RUNj AUTH BC err Er Hj).
  Qed.
End Blame.

(** ** A concrete case: signers 1 and 3, where 1 draws zeros *)
Definition zero_rng : rng := fun _ => 0.
Definition z_rng (i : Z) : rng := if i =? 1 then zero_rng else toy_rng i.
Definition z0 (i : Z) : tsstate := match @NewSignState toy_group toy_hash (z_rng i) 0 0 s13 (t_secret i) t_public t_message with Ret s => s | _ => ts0 i end.
Example C02_zero_example :
  zero_nonce z_rng 1 /\ ~ zero_nonce z_rng 3 /\
  (forall i, In i s13 -> @NewSignState toy_group toy_hash (z_rng i) 0 0 s13 (t_secret i) t_public t_message = Ret (z0 i)) /\
  match @net_exec toy_group tsround tsg s13 (@mkConfig toy_group tsround z0 []) [AProcess 1; AProcess 3; ADeliver 3 0; ADeliver 1 1; AProcess 1; AProcess 3] with
  | Some c => map (fun i => (st_done (cf_state c i), match st_err (cf_state c i) with Some e => Some (pe_PartyID e) | None => None end, st_roundNumber (cf_state c i))) s13
  | None => [] end = [(false, None, 2); (true, Some 1, 1)].
Proof.
  split. { left. apply feqb_eq. vm_compute. reflexivity. }
  split. { intros [E|E]; apply (f_equal fz) in E; vm_compute in E; discriminate. }
  split. { intros i [<-|[<-|[] ] ]; apply ret_default; vm_compute; reflexivity. }
  vm_compute. reflexivity.
Qed.

Print Assumptions C02_every_nonce.
Print Assumptions C02_zero_stops.
Print Assumptions C02_zero_names.
Print Assumptions C09_sign_every_nonce.
