(** C60: what the test program test/frosted.go says about a run, and what its UDP transport delivers. *)
From Coq Require Import ZArith Lia List Bool String Permutation Sorted.
From Coq.Strings Require Import Byte.
From stdpp Require Import base gmap list fin_maps.
From Verif Require Import ZField Primes Bytes Scalar Go Group ToyGroup Spec_Poly PolyAlg Party Poly PolyFacts Zk Eddsa Messages State StateFacts Spec_State Keygen Sign Helpers Cmd
  Spec_Group Properties_Algebra Spec_Wire CodecFacts Properties_Codec Lift Net Progress NetProgress Lockstep RoundFacts ToyRuns
  Spec_Sign SignFacts SignRun Spec_SignRun Properties_Sign Properties_HonestSign KeygenFacts KeygenRun Spec_Keygen Properties_Keygen Properties_HonestKeygen
  Properties_Cmd Loops LoopsFacts Properties_Loops Harness.
Import ListNotations.
Local Open Scope Z_scope.

(** * Setup *)
Definition test_ids (n : Z) : list Z := map (fun k => 42 + Z.of_nat k) (seq 0 (Z.to_nat n)).
Lemma test_ids_In n i : 0 <= n -> In i (test_ids n) <-> 42 <= i < 42 + n.
Proof.
  intros Hn. unfold test_ids. rewrite in_map_iff. split.
  - intros (k & <- & Hk). apply in_seq in Hk. lia.
  - intros H. exists (Z.to_nat (i - 42)). rewrite in_seq. lia.
Qed.
Lemma test_ids_sorted n : sorted (test_ids n).
Proof.
  unfold test_ids, sorted. generalize 0%nat. induction (Z.to_nat n) as [|k IH]; intros s; cbn; constructor; [apply IH|].
  apply List.Forall_forall. intros x Hx. apply in_map_iff in Hx as (y & <- & Hy). apply in_seq in Hy. lia.
Qed.
Lemma test_ids_valid n : 0 <= n <= 65494 -> valid_ids (test_ids n).
Proof.
  intros Hn. split.
  - unfold test_ids. apply FinFun.Injective_map_NoDup; [|apply seq_NoDup]. intros a b. lia.
  - apply List.Forall_forall. intros i Hi. apply test_ids_In in Hi; lia.
Qed.
Lemma test_ids_length n : List.length (test_ids n) = Z.to_nat n.
Proof. unfold test_ids. now rewrite map_length, seq_length. Qed.
Lemma test_ids_firstn n m : 0 <= m <= n -> firstn (Z.to_nat m) (test_ids n) = test_ids m.
Proof.
  intros H. unfold test_ids. rewrite firstn_map. f_equal. rewrite <- (firstn_all (seq 0 (Z.to_nat m))), seq_length.
  replace (Z.to_nat n) with (Z.to_nat m + (Z.to_nat n - Z.to_nat m))%nat by lia. rewrite seq_app, firstn_app, seq_length, Nat.sub_diag, firstn_O, app_nil_r. reflexivity.
Qed.
(** The IDs are 42, 43, ...; the first T+1 of them sign. *)
Theorem C60_setup : forall N T, 0 <= T < N -> N <= 65494 ->
  Setup N T = (list_byte_of_string "hello", test_ids N, test_ids (T + 1)) /\ valid_ids (test_ids N) /\ sorted (test_ids N) /\
  NewIDSlice (test_ids N) = test_ids N /\ incl (test_ids (T + 1)) (test_ids N).
Proof.
  intros N T HT HN. split; [|split; [apply test_ids_valid; lia|split; [apply test_ids_sorted|split]]].
  - unfold Setup. assert (map (fun k => u16 (42 + Z.of_nat k)) (seq 0 (Z.to_nat N)) = test_ids N) as ->.
    { apply map_ext_in. intros k Hk. apply in_seq in Hk. unfold u16. rewrite Z.mod_small; lia. }
    assert (u16 (T + 1) = T + 1) as -> by (unfold u16; rewrite Z.mod_small; lia). rewrite test_ids_firstn by lia. rewrite test_ids_length.
    replace (Z.to_nat (T + 1) - Z.to_nat N)%nat with 0%nat by lia. cbn [repeat]. now rewrite app_nil_r.
  - symmetry. apply C26_NewIDSlice_unique; [reflexivity|apply test_ids_sorted].
  - intros i. rewrite !test_ids_In by lia. lia.
Qed.

Section Harness.
  Context `{L : group_laws} `{Hf : hash_fn} (HH : hash_ok Hf).
  Context (N T : Z) (HT : 0 < T < N) (HN : N <= 65494).
  Notation kids := (test_ids N).
  Notation sids := (test_ids (T + 1)).

  Lemma kids_slice : NewIDSlice kids = kids. Proof. apply (C60_setup N T); lia. Qed.
  Lemma sids_slice : NewIDSlice sids = sids. Proof. symmetry. apply C26_NewIDSlice_unique; [reflexivity|apply test_ids_sorted]. Qed.
  Lemma kids_valid : valid_ids kids. Proof. apply test_ids_valid. lia. Qed.
  Lemma sids_valid : valid_ids sids. Proof. apply test_ids_valid. lia. Qed.
  Lemma thr_ok : is_u16 T. Proof. unfold is_u16. lia. Qed.

  Lemma ofold_states {R} (mk : Z -> outcome (State R)) : forall l acc, (forall i, In i l -> exists s, mk i = Ret s) ->
    exists sts, ofold (fun (acc : gmap Z (State R)) id => let* s := mk id in Ret (<[id := s]> acc)) acc l = Ret sts /\
      forall i, (In i l -> exists s, mk i = Ret s /\ sts !! i = Some s) /\ (~ In i l -> sts !! i = acc !! i).
  Proof.
    induction l as [|a l IH]; intros acc H; cbn [ofold].
    - exists acc. split; [reflexivity|]. intros i. split; [intros []|auto].
    - destruct (H a (or_introl eq_refl)) as [s Es]. rewrite Es. cbn [obind]. destruct (IH (<[a := s]> acc)) as (sts & E & HI); [intros i Hi; apply H; now right|].
      exists sts. split; [exact E|]. intros i. destruct (HI i) as [H1 H2]. split.
      + intros [->|Hi]; [|auto]. destruct (in_dec Z.eq_dec i l) as [Hin|Hnin]; auto. exists s. split; auto. rewrite H2 by auto. now rewrite lookup_insert.
      + intros Hn. rewrite H2 by (intros X; apply Hn; now right). rewrite lookup_insert_ne; auto. intros ->. apply Hn. now left.
  Qed.
  (** All Handlers can be made. *)
  Theorem C60_keygen_handlers : forall rg now timeout, exists sts, keygen_handlers rg now timeout T kids = Ret sts /\
    forall i, In i kids -> exists s, sts !! i = Some s /\ NewKeygenState (rg i) (now i) timeout i kids T = Ret s.
  Proof.
    intros rg now timeout. unfold keygen_handlers. rewrite kids_slice.
    destruct (ofold_states (fun id => NewKeygenState (rg id) (now id) timeout id kids T) kids ∅) as (sts & E & HI).
    - intros i Hi. apply C35_accepts_iff; [apply test_ids_sorted|apply kids_valid|apply thr_ok|]. rewrite test_ids_length. split; [exact Hi|lia].
    - exists sts. split; [exact E|]. intros i Hi. destruct (proj1 (HI i) Hi) as (s & A & B). eauto.
  Qed.

  (** ** Key generation, over a network that loses, repeats and reorders *)
  Section Keygen.
    Context (rg : Z -> rng) (now : Z -> Z) (timeout : Z) (s0 : Z -> State kround).
    Context (NEW : forall i, In i kids -> NewKeygenState (rg i) (now i) timeout i kids T = Ret (s0 i)).
    Notation shared := (shared kids T rg).
    (** The right key data. *)
    Definition key_right (public : Public) (secrets : gmap Z (option SecretShare)) : Prop :=
      pub_PartyIDs public = kids /\ pub_Threshold public = T /\ geq (pub_GroupKey public) (gbmul (shared f0)) /\
      (forall i, In i kids -> exists A, pub_Shares public !! i = Some A /\ geq A (gbmul (shared (qof i)))) /\
      forall i, In i kids -> exists sk, secrets !! i = Some (Some sk) /\ sh_ID sk = i /\ sh_Secret sk = shared (qof i).
    (** DoKeygen blocks only if somebody does not finish, reports an error only if somebody timed out, and returns the right key otherwise. *)
    Theorem C60_keygen : forall cf order, net_reach keygen_round kids (mkConfig s0 []) cf -> Permutation order kids ->
      match collect_keygen order (cf_state cf) None ∅ with
      | None => exists i, In i kids /\ st_done (cf_state cf i) = false
      | Some (Ret (Some public, secrets)) => key_right public secrets
      | Some (Fail _) => exists i err, In i kids /\ st_err (cf_state cf i) = Some err /\ pe_PartyID err = 0 /\ pe_text err = "message timeout"%string
      | _ => False
      end.
    Proof.
      intros cf order HR HP.
      assert (forall l pub0 secrets0, incl l kids ->
        match collect_keygen l (cf_state cf) pub0 secrets0 with
        | None => exists i, In i l /\ st_done (cf_state cf i) = false
        | Some (Ret (pub, secrets)) => (l = [] /\ pub = pub0 \/ exists i, In i l /\ st_done (cf_state cf i) = true /\ st_err (cf_state cf i) = None /\ pub = ko_Public (kg_output (cf_state cf i))) /\
           (forall i, ~ In i l -> secrets !! i = secrets0 !! i) /\
           (forall i, In i l -> st_done (cf_state cf i) = true /\ st_err (cf_state cf i) = None /\ secrets !! i = Some (ko_SecretKey (kg_output (cf_state cf i))))
        | Some (Fail _) => exists i err, In i l /\ st_done (cf_state cf i) = true /\ st_err (cf_state cf i) = Some err
        | _ => False
        end) as X.
      { induction l as [|a l IH]; intros pub0 secrets0 HI; cbn [collect_keygen].
        - split; [now left|]. split; [auto|intros i []].
        - unfold wait_error. destruct (st_done (cf_state cf a)) eqn:D; [|exists a; split; [now left|exact D]].
          destruct (st_err (cf_state cf a)) as [err|] eqn:E; [exists a, err; split; [now left|auto]|].
          specialize (IH (ko_Public (kg_output (cf_state cf a))) (<[a := ko_SecretKey (kg_output (cf_state cf a))]> secrets0) ltac:(intros x Hx; apply HI; now right)).
          destruct (collect_keygen l _ _ _) as [ [[pub secrets]|w|w]|]; [|destruct IH as (i & err & Hi & B); exists i, err; split; [now right|auto]|contradiction|destruct IH as (i & Hi & B); exists i; split; [now right|auto]].
          destruct IH as (A1 & A2 & A3). split; [|split].
          + right. destruct A1 as [ [-> ->]|(i & Hi & B)]; [exists a; repeat split; auto; now left|exists i; split; [now right|auto]].
          + intros i Hn. rewrite A2 by (intros Y; apply Hn; now right). rewrite lookup_insert_ne; auto. intros ->. apply Hn. now left.
          + intros i Hi. destruct (in_dec Z.eq_dec i l) as [Hin|Hnin]; [auto|]. destruct Hi as [->|Hi]; [|contradiction]. rewrite A2 by auto. rewrite lookup_insert. auto. }
      assert (incl order kids) as HI by (intros i Hi; eapply Permutation_in; eauto).
      assert (incl kids order) as HI' by (intros i Hi; eapply Permutation_in; [symmetry|]; eauto).
      specialize (X order None ∅ HI). pose proof (fun i Hi => C04_honest kids T kids_valid thr_ok rg now (fun _ => timeout) s0 NEW cf i HR Hi) as CH.
      destruct (collect_keygen order _ _ _) as [ [[pub secrets]|w|w]|].
      - destruct X as (A1 & _ & A3).
        assert (exists public, pub = Some public /\ pub_PartyIDs public = kids /\ pub_Threshold public = T /\ geq (pub_GroupKey public) (gbmul (shared f0)) /\
          (forall j, In j kids -> exists A, pub_Shares public !! j = Some A /\ geq A (gbmul (shared (qof j))))) as (public & -> & B1 & B2 & B3 & B4).
        { destruct A1 as [ [E _]|(i & Hi & D & E & ->)].
          - exfalso. assert (In 42 kids) as H42 by (apply test_ids_In; lia). apply HI' in H42. rewrite E in H42. destruct H42.
          - specialize (CH i (HI i Hi) D). rewrite E in CH. destruct CH as (p & sk & C0 & _ & _ & _ & C1 & C2 & C3 & C4 & _). exists p. rewrite C0. auto. }
        split; [exact B1|]. split; [exact B2|]. split; [exact B3|]. split; [exact B4|]. intros i Hi. destruct (A3 i (HI' i Hi)) as (D & E & ->).
        specialize (CH i Hi D). rewrite E in CH. destruct CH as (p & sk & C0 & C1 & C2 & _). exists sk. rewrite C0. auto.
      - destruct X as (i & err & Hi & D & E). specialize (CH i (HI i Hi) D). rewrite E in CH. exists i, err. auto.
      - exact X.
      - destruct X as (i & Hi & D). eauto.
    Qed.

    Lemma keygen_all_done : forall c order, (forall i, In i kids -> st_done (hc_state c i) = true /\ st_err (hc_state c i) = None) ->
      (exists cf, net_reach keygen_round kids (mkConfig s0 []) cf /\ (forall i, cf_state cf i = hc_state c i)) -> Permutation order kids ->
      exists public secrets, collect_keygen order (hc_state c) None ∅ = Some (Ret (Some public, secrets)) /\ key_right public secrets.
    Proof.
      intros c order HD (cf & HR & HSt) HP. pose proof (C60_keygen cf order HR HP) as X.
      assert (forall l p q, collect_keygen l (cf_state cf) p q = collect_keygen l (hc_state c) p q) as EQ.
      { induction l as [|a l IH]; intros p q; cbn [collect_keygen]; [reflexivity|]. rewrite HSt. destruct (wait_error _) as [ [?|]|]; auto. }
      rewrite EQ in X. destruct (collect_keygen order _ _ _) as [ [[ [public|] secrets]|w|w]|]; try contradiction.
      - eauto.
      - destruct X as (i & err & Hi & E & _). rewrite HSt in E. destruct (HD i Hi). congruence.
      - destruct X as (i & Hi & E). rewrite HSt in E. destruct (HD i Hi). congruence.
    Qed.
    (** Over the Channel transport, unless a Handler refuses a message of a party that is ahead (C47): DoKeygen returns the right key. *)
    Theorem C60_channel_keygen : forall ls c order, h_trace keygen_round true kids (h_init s0) ls c -> none_lost ls \/ N = 2 -> h_rests kids c -> Permutation order kids ->
      exists public secrets, collect_keygen order (hc_state c) None ∅ = Some (Ret (Some public, secrets)) /\ key_right public secrets.
    Proof.
      intros ls c order HTr HL HR HP.
      assert (1 <= T < Z.of_nat (List.length kids)) as HT' by (rewrite test_ids_length; lia). pose proof (kg_two kids T HT') as H2.
      destruct (keygen_three kids T kids_valid HT' rg now (fun _ => timeout) s0 NEW) as [r0 TH].
      eapply keygen_all_done; [|destruct (trace_net keygen_round _ _ _ _ _ HTr) as (cf & A & B & _); eauto|exact HP].
      eapply (rests_done keygen_round kids kids_valid H2) with (ls := ls); [exact TH|exact (kg_types kids T HT')| |exact HR]. destruct HL as [HL|HL].
      - eapply (trace_hinv keygen_round keygen_round_ok kids (test_ids_sorted N) kids_valid H2); eauto. exact (kg_types kids T HT').
      - eapply (pair_trace keygen_round keygen_round_ok kids (test_ids_sorted N) kids_valid H2); [exact TH|exact (kg_types kids T HT')|rewrite test_ids_length, HL; reflexivity|exact HTr].
    Qed.
  End Keygen.

  (** ** Signing *)
  Section Sign.
    Context (rg0 : Z -> rng) (public : Public) (secrets : gmap Z (option SecretShare)) (KR : key_right rg0 public secrets).
    Context (message : list byte).
    Notation shared := (shared kids T rg0).
    Theorem C60_sign_handlers : forall rg now timeout, exists sts, sign_handlers rg now timeout sids (Some public) secrets message = Ret sts /\
      forall i, In i sids -> exists s sk, sts !! i = Some s /\ secrets !! i = Some (Some sk) /\ NewSignState (rg i) (now i) timeout sids sk public message = Ret s.
    Proof.
      intros rg now timeout. unfold sign_handlers. rewrite sids_slice. destruct KR as (K1 & _ & _ & K4 & K5).
      assert (forall i, In i sids -> In i kids) as HI by (intros i; rewrite !test_ids_In by lia; lia).
      set (mk := fun id => match secrets !! id with Some (Some sk) => NewSignState (rg id) (now id) timeout sids sk public message | _ => Panics "nil SecretShare" end).
      assert (forall l acc, ofold (fun (acc : gmap Z (State sround)) id => match secrets !! id with
         | Some (Some sk) => let* s := NewSignState (rg id) (now id) timeout sids sk public message in Ret (<[id := s]> acc) | _ => Panics "nil SecretShare" end) acc l =
         ofold (fun (acc : gmap Z (State sround)) id => let* s := mk id in Ret (<[id := s]> acc)) acc l) as EQ.
      { induction l as [|a l IH]; intros acc; cbn [ofold]; [reflexivity|]. unfold mk at 1. destruct (secrets !! a) as [ [sk|]|]; cbn [obind]; auto.
        destruct (NewSignState _ _ _ _ _ _ _); cbn [obind]; auto. }
      rewrite EQ. destruct (ofold_states mk sids ∅) as (sts & E & HS).
      - intros i Hi. destruct (K5 i (HI i Hi)) as (sk & E & Hid & _). unfold mk. rewrite E. apply C36_accepts.
        + apply test_ids_sorted.
        + rewrite K1. apply test_ids_sorted.
        + apply List.Forall_forall. intros j Hj. apply test_ids_In in Hj; [|lia]. unfold is_u16. lia.
        + now rewrite Hid.
        + intros j Hj. rewrite K1. split; [auto|]. split; [apply test_ids_In in Hj; lia|]. destruct (K4 j (HI j Hj)) as (A & EA & _). eauto.
      - exists sts. split; [exact E|]. intros i Hi. destruct (proj1 (HS i) Hi) as (s & A & B). destruct (K5 i (HI i Hi)) as (sk & E' & _). exists s, sk. unfold mk in A. rewrite E' in A. auto.
    Qed.

    Context (rg : Z -> rng) (now : Z -> Z) (timeout : Z) (s0 : Z -> State sround).
    Context (NEW : forall i, In i sids -> exists sk, secrets !! i = Some (Some sk) /\ NewSignState (rg i) (now i) timeout sids sk public message = Ret (s0 i)).
    Context (NZ : forall i, In i sids -> SetScalarRandom (rg i) 0 <> f0 /\ SetScalarRandom (rg i) 1 <> f0).
    Context (edv : list byte -> list byte -> list byte -> bool).
    Context (EDV : forall Y sig, Verify Y message sig = true -> edv (pk_ToEd25519 Y) message (sig_ToEd25519 sig) = true).
    (** DoSign blocks only if somebody does not finish, reports an error only if somebody timed out, and otherwise has checked a signature of everybody. *)
    Theorem C60_sign : forall cf order, net_reach sign_round sids (mkConfig s0 []) cf -> Permutation order sids ->
      match collect_sign edv (pub_GroupKey public) message order (cf_state cf) with
      | None => exists i, In i sids /\ st_done (cf_state cf i) = false
      | Some (Ret tt) => forall i, In i sids -> exists sig, sg_output (cf_state cf i) = Some sig /\ Verify (pub_GroupKey public) message sig = true
      | Some (Fail _) => exists i err, In i sids /\ st_err (cf_state cf i) = Some err /\ pe_PartyID err = 0 /\ pe_text err = "message timeout"%string
      | _ => False
      end.
    Proof.
      intros cf order HR HP.
      assert (incl order sids) as HI by (intros i Hi; eapply Permutation_in; eauto).
      assert (incl sids order) as HI' by (intros i Hi; eapply Permutation_in; [symmetry|]; eauto).
      destruct KR as (K1 & K2 & K3 & K4 & K5). assert (forall i, In i sids -> In i kids) as HS by (intros i; rewrite !test_ids_In by lia; lia).
      destruct (C04_degree kids T rg0) as (g & Hg & Eg).
      set (sh := fun i => match secrets !! i with Some (Some sk) => sk | _ => NewSecretShare i f0 end).
      assert (forall i, In i sids -> sh_ID (sh i) = i /\ sh_Secret (sh i) = spoly g (qof i)) as SH.
      { intros i Hi. destruct (K5 i (HS i Hi)) as (sk & E & A & B). unfold sh. rewrite E, <- Eg. auto. }
      assert (forall i, In i sids -> st_done (cf_state cf i) = true -> match st_err (cf_state cf i) with
        | Some err => pe_PartyID err = 0 /\ pe_text err = "message timeout"%string
        | None => exists sig, sg_output (cf_state cf i) = Some sig /\ Verify (pub_GroupKey public) message sig = true end) as CH.
      { intros i Hi D.
        assert ((Z.to_nat T + 1 <= List.length sids)%nat) as HL by (rewrite test_ids_length; lia).
        pose proof (C02_honest HH (Z.to_nat T) g sids Hg sids_valid HL message rg (fun _ => public) sh now (fun _ => timeout) s0 SH) as X.
        specialize (X ltac:(intros a j _ Hj; destruct (K4 j (HS j Hj)) as (A & EA & HA); exists A; rewrite <- Eg; auto) ltac:(intros a _; rewrite <- Eg; exact K3)).
        specialize (X ltac:(intros a Ha; destruct (NEW a Ha) as (sk & E & HNew); unfold sh; rewrite E; exact HNew) NZ cf i HR Hi D).
        destruct (st_err (cf_state cf i)); [exact X|]. destruct X as (sig & A & _ & _ & B). exists sig. split; [exact A|].
        apply Verify_iff; auto. apply Verify_iff in B; auto. eapply schnorr_valid_proper; [|reflexivity|exact B]. rewrite <- Eg. exact K3. }
      assert (forall l n, incl l sids -> 0 <= n -> match count_failures edv (pub_GroupKey public) message l (cf_state cf) n with
        | None => exists i, In i l /\ st_done (cf_state cf i) = false
        | Some k => n <= k /\ (forall i, In i l -> st_done (cf_state cf i) = true) /\ (n < k -> exists i err, In i l /\ st_err (cf_state cf i) = Some err) /\ (n = k -> forall i, In i l -> st_err (cf_state cf i) = None)
        end) as X.
      { induction l as [|a l IH]; intros n Hl Hn; cbn [count_failures].
        - split; [lia|]. split; [intros i []|]. split; [lia|intros _ i []].
        - unfold wait_error. destruct (st_done (cf_state cf a)) eqn:D; [|exists a; split; [now left|exact D]]. pose proof (CH a (Hl a (or_introl eq_refl)) D) as CA.
          assert (incl l sids) as Hl' by (intros x Hx; apply Hl; now right).
          destruct (st_err (cf_state cf a)) as [err|] eqn:E.
          + specialize (IH (n + 1) Hl' ltac:(lia)). destruct (count_failures _ _ _ _ _ _) as [k|]; [|destruct IH as (i & Hi & B); exists i; split; [now right|auto] ].
            destruct IH as (A1 & A2 & A3 & A4). split; [lia|]. split; [intros i [<-|Hi]; auto|]. split; [intros _; exists a, err; split; [now left|exact E]|]. lia.
          + destruct CA as (sig & Es & Ev). rewrite Es, Ev, (EDV _ _ Ev). cbn [negb orb].
            specialize (IH n Hl' Hn). destruct (count_failures _ _ _ _ _ _) as [k|]; [|destruct IH as (i & Hi & B); exists i; split; [now right|auto] ].
            destruct IH as (A1 & A2 & A3 & A4). split; [exact A1|]. split; [intros i [<-|Hi]; auto|]. split.
            * intros Hk. destruct (A3 Hk) as (i & err & Hi & B). exists i, err. split; [now right|exact B].
            * intros Hk i [<-|Hi]; auto. }
      specialize (X order 0 HI ltac:(lia)). unfold collect_sign. destruct (count_failures _ _ _ _ _ _) as [k|]; [|destruct X as (i & Hi & D); eauto].
      destruct X as (A1 & A2 & A3 & A4). destruct (Z.eqb_spec k 0) as [->|Hk].
      - intros i Hi. pose proof (CH i Hi (A2 i (HI' i Hi))) as CA. rewrite (A4 eq_refl i (HI' i Hi)) in CA. exact CA.
      - destruct A3 as (i & err & Hi & E); [lia|]. exists i, err. pose proof (CH i (HI i Hi) (A2 i Hi)) as CA. rewrite E in CA. split; [auto|]. split; [exact E|exact CA].
    Qed.
    (** Over the Channel transport, unless a Handler refuses a message of a party that is ahead: DoSign reports success. *)
    Theorem C60_channel_sign : forall ls c order, h_trace sign_round true sids (h_init s0) ls c -> none_lost ls \/ T = 1 -> h_rests sids c -> Permutation order sids ->
      collect_sign edv (pub_GroupKey public) message order (hc_state c) = Some (Ret tt).
    Proof.
      intros ls c order HTr HL HR HP. destruct KR as (K1 & K2 & K3 & K4 & K5).
      assert (forall i, In i sids -> In i kids) as HS by (intros i; rewrite !test_ids_In by lia; lia).
      destruct (C04_degree kids T rg0) as (g & Hg & Eg).
      set (sh := fun i => match secrets !! i with Some (Some sk) => sk | _ => NewSecretShare i f0 end).
      assert (forall i, In i sids -> sh_ID (sh i) = i /\ sh_Secret (sh i) = spoly g (qof i)) as SH.
      { intros i Hi. destruct (K5 i (HS i Hi)) as (sk & E & A & B). unfold sh. rewrite E, <- Eg. auto. }
      assert ((Z.to_nat T + 1 <= List.length sids)%nat) as Hlen by (rewrite test_ids_length; lia).
      assert ((2 <= List.length sids)%nat) as H2 by (rewrite test_ids_length; lia).
      pose proof (sign_three HH (Z.to_nat T) g sids Hg sids_valid Hlen message rg (fun _ => public) sh now (fun _ => timeout) s0 SH) as X.
      specialize (X ltac:(intros a j _ Hj; destruct (K4 j (HS j Hj)) as (A & EA & HA); exists A; rewrite <- Eg; auto) ltac:(intros a _; rewrite <- Eg; exact K3)).
      specialize (X ltac:(intros a Ha; destruct (NEW a Ha) as (sk & E & HNew); unfold sh; rewrite E; exact HNew) NZ). destruct X as [r0 TH].
      assert (forall i, In i sids -> st_done (hc_state c i) = true /\ st_err (hc_state c i) = None) as HD.
      { eapply (rests_done sign_round sids sids_valid H2) with (ls := ls); [exact TH|exact sg_types| |exact HR]. destruct HL as [HL|HL].
        - eapply (trace_hinv sign_round sign_round_ok sids (test_ids_sorted (T + 1)) sids_valid H2); eauto. exact sg_types.
        - eapply (pair_trace sign_round sign_round_ok sids (test_ids_sorted (T + 1)) sids_valid H2); [exact TH|exact sg_types| |exact HTr]. rewrite test_ids_length, HL. reflexivity. }
      destruct (trace_net sign_round _ _ _ _ _ HTr) as (cf & HN' & HSt & _). pose proof (C60_sign cf order HN' HP) as X.
      assert (forall l n, count_failures edv (pub_GroupKey public) message l (cf_state cf) n = count_failures edv (pub_GroupKey public) message l (hc_state c) n) as EQ.
      { induction l as [|a l IH]; intros n; cbn [count_failures]; [reflexivity|]. rewrite HSt. destruct (wait_error _) as [ [?|]|]; auto. }
      unfold collect_sign in *. rewrite EQ in X. destruct (count_failures _ _ _ _ _ _) as [k|].
      - destruct (k =? 0); [reflexivity|]. destruct X as (i & err & Hi & E & _). rewrite HSt in E. destruct (HD i Hi). congruence.
      - destruct X as (i & Hi & E). rewrite HSt in E. destruct (HD i Hi). congruence.
    Qed.
  End Sign.
End Harness.

(** ** Success of the test means something, whoever the others are and whatever is on the network *)
Section Sound.
  Context `{Gr : group_ops} `{Hf : hash_fn}.
  Theorem C60_sound : forall edv public message order (rg : Z -> rng) now timeout ids (sh : Z -> SecretShare) (s0 fin : Z -> State sround) out,
    (forall i, In i order -> NewSignState (rg i) (now i) (timeout i) ids (sh i) public message = Ret (s0 i) /\ reaches sign_round (s0 i) (fin i) (out i)) ->
    collect_sign edv (pub_GroupKey public) message order fin = Some (Ret tt) ->
    forall i, In i order -> exists sig, sg_output (fin i) = Some sig /\ Verify (pub_GroupKey public) message sig = true /\
      edv (pk_ToEd25519 (pub_GroupKey public)) message (sig_ToEd25519 sig) = true.
  Proof.
    intros edv public message order rg now timeout ids sh s0 fin out HR HC.
    assert (forall l n k, 0 <= n -> count_failures edv (pub_GroupKey public) message l fin n = Some k -> n <= k) as M.
    { induction l as [|a l IH]; intros n k Hn E; cbn [count_failures] in E; [injection E as <-; lia|].
      destruct (wait_error (fin a)) as [ [err|]|]; [apply IH in E; lia| |discriminate].
      match type of E with context [if ?b then _ else _] => destruct b end; apply IH in E; lia. }
    unfold collect_sign in HC. destruct (count_failures _ _ _ _ _ _) as [k|] eqn:EC; [|discriminate]. destruct (Z.eqb_spec k 0) as [->|]; [|discriminate]. clear HC.
    induction order as [|a l IH]; [intros i []|]. cbn [count_failures] in EC. unfold wait_error in EC. destruct (st_done (fin a)) eqn:D; [|discriminate].
    destruct (st_err (fin a)) as [err|] eqn:E; [apply M in EC; lia|].
    destruct (HR a (or_introl eq_refl)) as [NEW RE]. destruct (C01_success _ _ _ _ _ _ _ _ NEW _ _ RE D E) as (sig & Es & Ev). rewrite Es, Ev in EC. cbn [negb orb] in EC.
    destruct (edv _ _ (sig_ToEd25519 sig)) eqn:Ee; cbn [negb] in EC; [|apply M in EC; lia].
    intros i [<-|Hi]; [eauto|]. apply IH; auto. intros j Hj. apply HR. now right.
  Qed.
  (** One party that ended with an error, or does not end: the test does not succeed. *)
  Theorem C60_notices : forall edv Y message order fin i, In i order -> st_done (fin i) = false \/ st_err (fin i) <> None ->
    collect_sign edv Y message order fin <> Some (Ret tt).
  Proof.
    intros edv Y message order fin i Hi HB.
    assert (forall l n k, 0 <= n -> count_failures edv Y message l fin n = Some k -> n <= k /\ (In i l -> n < k)) as M.
    { induction l as [|a l IH]; intros n k Hn E; cbn [count_failures] in E; [injection E as <-; split; [lia|intros []]|].
      unfold wait_error in E. destruct (st_done (fin a)) eqn:D; [|discriminate].
      destruct (st_err (fin a)) as [err|] eqn:Er; [apply IH in E; [|lia]; split; lia|].
      match type of E with context [if ?b then _ else _] => destruct b end; (apply IH in E; [|lia]; split; [lia|]; intros [->|Hl]; [|lia || (destruct E; auto; lia)]; destruct HB; congruence). }
    unfold collect_sign. destruct (count_failures _ _ _ _ _ _) as [k|] eqn:EC; [|discriminate]. apply M in EC as [_ EC]; [|lia]. specialize (EC Hi).
    destruct (Z.eqb_spec k 0); [lia|discriminate].
  Qed.
  (** The verdict of DoSign (frosted.go:57-73) on arbitrary States: it waits for ever exactly if one of them is not done; it succeeds exactly
      if all ended without error and all signatures there are (a nil one is passed over) verify both ways. *)
  Theorem C60_verdict : forall edv Y message order fin,
    match collect_sign edv Y message order fin with
    | None => exists i, In i order /\ st_done (fin i) = false
    | Some (Ret _) => forall i, In i order -> st_done (fin i) = true /\ st_err (fin i) = None /\
        forall sig, sg_output (fin i) = Some sig -> Verify Y message sig = true /\ edv (pk_ToEd25519 Y) message (sig_ToEd25519 sig) = true
    | Some (Fail _) => (forall i, In i order -> st_done (fin i) = true) /\ exists i, In i order /\ (st_err (fin i) <> None \/
        exists sig, st_err (fin i) = None /\ sg_output (fin i) = Some sig /\ (Verify Y message sig = false \/ edv (pk_ToEd25519 Y) message (sig_ToEd25519 sig) = false))
    | Some (Panics _) => False
    end.
  Proof.
    intros edv Y message order fin.
    set (good := fun i => st_err (fin i) = None /\ forall sig, sg_output (fin i) = Some sig -> Verify Y message sig = true /\ edv (pk_ToEd25519 Y) message (sig_ToEd25519 sig) = true).
    set (bad := fun i => st_err (fin i) <> None \/ exists sig, st_err (fin i) = None /\ sg_output (fin i) = Some sig /\ (Verify Y message sig = false \/ edv (pk_ToEd25519 Y) message (sig_ToEd25519 sig) = false)).
    assert (forall l n, 0 <= n -> match count_failures edv Y message l fin n with
      | None => exists i, In i l /\ st_done (fin i) = false
      | Some k => n <= k /\ (forall i, In i l -> st_done (fin i) = true) /\ (k = n -> forall i, In i l -> good i) /\ (n < k -> exists i, In i l /\ bad i) end) as M.
    { induction l as [|a l IH]; intros n Hn; cbn [count_failures]. { split; [lia|]. split; [intros i []|]. split; [intros _ i []|lia]. }
      unfold wait_error. destruct (st_done (fin a)) eqn:D; [|exists a; split; [now left|exact D]].
      assert (forall b : bool, (b = true -> bad a) -> (b = false -> good a) ->
         match count_failures edv Y message l fin (if b then n + 1 else n) with
         | None => exists i, In i (a :: l) /\ st_done (fin i) = false
         | Some k => n <= k /\ (forall i, In i (a :: l) -> st_done (fin i) = true) /\ (k = n -> forall i, In i (a :: l) -> good i) /\ (n < k -> exists i, In i (a :: l) /\ bad i) end) as X.
      { intros b Hb Hg. destruct b.
        - specialize (IH (n + 1) ltac:(lia)). destruct (count_failures _ _ _ _ _ _) as [k|]; [|destruct IH as (i & Hi & B); exists i; split; [now right|auto] ].
          destruct IH as (A & B & C & E). split; [lia|]. split; [intros i [<-|Hi]; auto|]. split; [lia|]. intros _. exists a. split; [now left|auto].
        - specialize (IH n Hn). destruct (count_failures _ _ _ _ _ _) as [k|]; [|destruct IH as (i & Hi & B); exists i; split; [now right|auto] ].
          destruct IH as (A & B & C & E). split; [lia|]. split; [intros i [<-|Hi]; auto|]. split; [intros Hk i [<-|Hi]; auto|]. intros Hk. destruct (E Hk) as (i & Hi & Hb'). exists i. split; [now right|auto]. }
      destruct (st_err (fin a)) as [err|] eqn:Er.
      - apply (X true); [|discriminate]. intros _. left. congruence.
      - apply X; destruct (sg_output (fin a)) as [sig|] eqn:Es; try discriminate.
        + intros Hb. right. exists sig. split; auto. split; auto. apply orb_true_iff in Hb as [Hb|Hb]; apply negb_true_iff in Hb; auto.
        + intros Hb. apply orb_false_iff in Hb as [Hb1 Hb2]. apply negb_false_iff in Hb1, Hb2. split; auto. intros sig' E'. rewrite Es in E'. injection E' as <-. auto.
        + intros _. split; auto. intros sig' E'. congruence. }
    specialize (M order 0 ltac:(lia)). unfold collect_sign. destruct (count_failures _ _ _ _ _ _) as [k|]; [|exact M].
    destruct M as (A & B & C & E). destruct (Z.eqb_spec k 0) as [->|Hk].
    - intros i Hi. split; [auto|]. now apply C.
    - split; [auto|]. apply E. lia.
  Qed.
  (** "What should NOT work" (frosted.go:162-179): with T = 0 or T >= N no Handler is made. *)
  Theorem C60_rejects : forall rg now timeout N T, 0 < N <= 65494 -> T = 0 \/ N <= T < 65536 -> exists e, keygen_handlers rg now timeout T (test_ids N) = Fail e.
  Proof.
    intros rg now timeout N T HN HT. unfold keygen_handlers.
    assert (NewIDSlice (test_ids N) = test_ids N) as -> by (symmetry; apply C26_NewIDSlice_unique; [reflexivity|apply test_ids_sorted]).
    assert (exists l, test_ids N = 42 :: l) as (l & El). { unfold test_ids. assert (exists k, Z.to_nat N = S k) as (k & ->) by (exists (Z.to_nat (N - 1)); lia). cbn [seq map]. eexists. reflexivity. }
    match goal with |- exists e, ofold ?f ∅ _ = _ => set (F := f) end. rewrite El. cbn [ofold]. unfold F. unfold NewKeygenState, kg_NewRound. destruct (Z.eqb_spec T 0); [eexists; reflexivity|].
    assert (u16 (N_ids (test_ids N) - 1) = N - 1) as ->. { unfold N_ids. rewrite test_ids_length. rewrite Z2Nat.id by lia. unfold u16. rewrite (Z.mod_small N) by lia. apply Z.mod_small. lia. }
    rewrite (proj2 (Z.ltb_lt _ _)) by lia. eexists. reflexivity.
  Qed.
  (** No parties at all: key generation "succeeds" without a key, and signing crashes. *)
  Theorem C60_empty_refuted : forall rg now timeout T fin rg' now' message, keygen_handlers rg now timeout T (snd (fst (Setup 0 T))) = Ret ∅ /\
    collect_keygen [] fin None ∅ = Some (Ret (None, ∅)) /\ exists w, sign_handlers rg' now' timeout (snd (Setup 0 T)) None ∅ message = Panics w.
  Proof. intros. split; [reflexivity|]. split; [reflexivity|]. eexists. reflexivity. Qed.
End Sound.

(** * The UDP transport *)
Section Udp.
  Context `{L : group_laws} `{Hf : hash_fn} (HH : hash_ok Hf).
  Lemma udp_buffer_ge p : 128 <= Z.of_nat (udp_buffer p). Proof. unfold udp_buffer. lia. Qed.
  Lemma udp_round_trip m peers : built m -> msg_Size m <= Z.of_nat (udp_buffer peers) ->
    exists b m', msg_MarshalBinary m = Ret b /\ udp_receive peers b = Ret m' /\ msg_Equal m m' = true /\ m_Header m' = m_Header m.
  Proof.
    intros B HS. destruct (C20_round_trip m zero_message B) as (b & m' & E1 & E2 & E3 & E4 & E5). exists b, m'. split; [exact E1|]. split; [|auto].
    unfold udp_receive. rewrite firstn_all2 by lia. now rewrite E3.
  Qed.
  (** Whatever a party of a key generation is given, each message it sends is received whole by the others. *)
  Theorem C60_udp_keygen : forall rg now t self ids thr s0 es s out m, sorted ids -> valid_ids ids -> is_u16 thr ->
    NewKeygenState rg now t self ids thr = Ret s0 -> run keygen_round s0 es = Ret (s, out) -> In m out ->
    exists b m', msg_MarshalBinary m = Ret b /\ udp_receive (List.length ids - 1) b = Ret m' /\ msg_Equal m m' = true /\ m_Header m' = m_Header m.
  Proof.
    intros rg now t self ids thr s0 es s out m HS V HT NEW RUN Hm.
    destruct (proj1 (C35_accepts_iff rg now t self ids thr HS V HT) (ex_intro _ s0 NEW)) as [Hin Hthr].
    pose proof (proj1 (List.Forall_forall _ _) (proj2 V)) as Hall. pose proof (Hall self Hin) as Hself. cbn beta in Hself. pose proof HT as HT'. unfold is_u16 in HT'.
    pose proof (ids_len_lt ids V) as Hlen.
    assert (0 < Z.of_nat (List.length ids)) as HL by (destruct ids; [destruct Hin|cbn; lia]).
    assert (forall A : list G, List.length A = S (Z.to_nat thr) -> 71 + 32 * Z.of_nat (List.length A) <= Z.of_nat (udp_buffer (List.length ids - 1))) as HB by (intros A HA; unfold udp_buffer; lia).
    assert (List.length (commitment (dealt rg (Z.to_nat thr))) = S (Z.to_nat thr)) as HC by (unfold commitment, dealt; now rewrite !map_length, seq_length).
    assert (forall pr, exists b m', msg_MarshalBinary (NewKeyGen1 self pr (commitment (dealt rg (Z.to_nat thr)))) = Ret b /\ udp_receive (List.length ids - 1) b = Ret m' /\
      msg_Equal (NewKeyGen1 self pr (commitment (dealt rg (Z.to_nat thr)))) m' = true /\ m_Header m' = m_Header (NewKeyGen1 self pr (commitment (dealt rg (Z.to_nat thr))))) as HK.
    { intros pr. apply udp_round_trip; [apply built_k1; lia|]. unfold msg_Size, m_Type. cbn [m_Header NewKeyGen1 h_Type m_KeyGen1]. change (MTKeyGen1 =? MTKeyGen1) with true. cbv iota. cbn [osize k1_Commitments].
      unfold exp_size, headerSize. specialize (HB _ HC). lia. }
    destruct (C08_sent rg now t self ids thr s0 NEW V HT es s out RUN) as [->|(pr & _ & [->| ->])]; [destruct Hm|destruct Hm as [<-|[]]; apply HK|].
    destruct Hm as [<-|Hm]; [apply HK|]. apply in_map_iff in Hm as (i & <- & Hi). unfold others_of in Hi. apply filter_In in Hi as [Hi _]. pose proof (Hall i Hi) as Hi'. cbn beta in Hi'.
    apply udp_round_trip; [apply built_k2; lia|]. eapply Z.le_trans; [|apply udp_buffer_ge]. unfold msg_Size, m_Type, headerSize. cbn. lia.
  Qed.
  Theorem C60_udp_sign : forall rg now t ids secret shares message s0 es s out m, List.NoDup ids -> Forall is_u16 ids -> 1 <= sh_ID secret < 65536 ->
    NewSignState rg now t ids secret shares message = Ret s0 -> run sign_round s0 es = Ret (s, out) -> In m out ->
    exists b m', msg_MarshalBinary m = Ret b /\ udp_receive (List.length ids - 1) b = Ret m' /\ msg_Equal m m' = true /\ m_Header m' = m_Header m.
  Proof.
    intros rg now t ids secret shares message s0 es s out m ND HU HI NEW RUN Hm.
    assert (forall a b, exists bs m', msg_MarshalBinary (NewSign1 (sh_ID secret) a b) = Ret bs /\ udp_receive (List.length ids - 1) bs = Ret m' /\
      msg_Equal (NewSign1 (sh_ID secret) a b) m' = true /\ m_Header m' = m_Header (NewSign1 (sh_ID secret) a b)) as HK.
    { intros a b. apply udp_round_trip; [apply built_s1; lia|]. eapply Z.le_trans; [|apply udp_buffer_ge]. unfold msg_Size, m_Type, headerSize. cbn. lia. }
    destruct (C14_same_nonces HH rg now t ids secret shares message s0 NEW ND HU es s out RUN) as [->|[->|(cl & _ & ->)]]; [destruct Hm|destruct Hm as [<-|[]]; apply HK|].
    destruct Hm as [<-|[<-|[]]]; [apply HK|]. apply udp_round_trip; [apply built_s2; lia|]. eapply Z.le_trans; [|apply udp_buffer_ge]. unfold msg_Size, m_Type, headerSize. cbn. lia.
  Qed.
  (** Exactly how long a commitment vector may be: the 64 bytes per peer (udp.go:51) hold a first message of key generation if and only if it fits
      as a whole; one that is cut still has its header, but no body, and so crashes the State that gets it (C19_keygen_exact). *)
  Theorem C60_udp_exact : forall from pr (A : list G) peers, 1 <= from < 65536 -> (1 <= List.length A)%nat -> Z.of_nat (List.length A) <= 65535 ->
    exists b m', msg_MarshalBinary (NewKeyGen1 from pr A) = Ret b /\ udp_receive peers b = Ret m' /\ m_Header m' = m_Header (NewKeyGen1 from pr A) /\
      if 71 + 32 * Z.of_nat (List.length A) <=? 64 * (Z.of_nat peers + 2) then msg_Equal (NewKeyGen1 from pr A) m' = true
      else m_KeyGen1 m' = None.
  Proof.
    intros from pr A peers Hf1 HA1 HA2. pose proof (built_k1 from pr A Hf1 HA1 HA2) as B.
    assert (msg_Size (NewKeyGen1 from pr A) = 71 + 32 * Z.of_nat (List.length A)) as HS.
    { unfold msg_Size, m_Type. cbn [m_Header NewKeyGen1 h_Type m_KeyGen1]. change (MTKeyGen1 =? MTKeyGen1) with true. cbv iota. cbn [osize k1_Commitments]. unfold exp_size, headerSize. lia. }
    destruct (Z.leb_spec (71 + 32 * Z.of_nat (List.length A)) (64 * (Z.of_nat peers + 2))) as [Hle|Hgt].
    - destruct (udp_round_trip _ peers B) as (b & m' & E1 & E2 & E3 & E4); [rewrite HS; unfold udp_buffer; lia|]. exists b, m'. auto.
    - destruct (C20_round_trip _ zero_message B) as (b & m1 & E1 & E2 & E3 & E4 & E5). exists b. rewrite HS in E2.
      unfold msg_UnmarshalBinary in E3. apply obind_ret in E3 as (h & EH & E3).
      assert (h = m_Header (NewKeyGen1 from pr A)) as Eh.
      { rewrite <- E5. cbv zeta in E3. cbn [zero_message] in E3.
        repeat match type of E3 with (if ?b then _ else _) = _ => destruct b end; try discriminate;
        (match type of E3 with obind (assign None ?r) _ = _ => destruct r end; cbn [assign obind] in E3; try discriminate; apply Ret_inj in E3; subst m1; reflexivity). }
      assert (header_unmarshal (firstn (udp_buffer peers) b) = Ret h) as EH'.
      { rewrite <- EH. assert (5 <= udp_buffer peers)%nat as H5 by (unfold udp_buffer; lia). destruct (udp_buffer peers) as [|[|[|[|[|k]]]]]; try lia.
        destruct b as [|? [|? [|? [|? [|? l]]]]]; reflexivity. }
      exists (mkMessage h None None None None). split; [exact E1|]. split; [|split; [exact Eh|reflexivity]].
      unfold udp_receive, msg_UnmarshalBinary. rewrite EH'. cbn [obind zero_message]. cbv zeta. rewrite Eh. cbn [m_Header NewKeyGen1 h_Type]. change (MTKeyGen1 =? MTKeyGen1) with true. cbv iota.
      set (body := skipn headerSize (firstn (udp_buffer peers) b)).
      assert (exists e, k1_unmarshal body = Fail e) as [e ->]; [|reflexivity].
      assert (Z.of_nat (List.length body) = 64 * (Z.of_nat peers + 2) - 5) as Hb.
      { unfold body. rewrite skipn_length, firstn_length. unfold udp_buffer, headerSize in *. lia. }
      pose proof (k1_unmarshal_total body) as NP. revert NP. unfold k1_unmarshal. destruct (Nat.ltb _ _); [eauto|]. destruct (schnorr_unmarshal _) as [p|e|w]; cbn [obind]; [|eauto|discriminate].
      unfold exp_unmarshal. destruct (FromBytes _) as [d|e|w]; cbn [obind]; [|eauto|discriminate].
      assert (Z.of_nat (List.length (skipn 2 (skipn 64 body))) = 32 * (2 * Z.of_nat peers + 1) + 25) as -> by (rewrite !skipn_length; lia).
      assert ((32 * (2 * Z.of_nat peers + 1) + 25) mod 32 = 25) as ->. { rewrite Z.add_comm, Z.mul_comm, Z.mod_add by lia. reflexivity. }
      cbn [Z.eqb negb]. change (25 =? 0) with false. cbn [negb obind]. eauto.
  Qed.
  (** Any datagram gives a message, never a panic; one without a proper header gives the empty message, and a State where 0 is no party is not changed by that. *)
  Theorem C60_udp_any : forall peers data, exists m, udp_receive peers data = Ret m /\
    (m = zero_message \/ exists h, header_unmarshal data = Ret h /\ m_Header m = h /\ 1 <= m_From m).
  Proof.
    intros peers data. unfold udp_receive. pose proof (C19_decode_never_panics zero_message (firstn (udp_buffer peers) data)) as NP.
    destruct (msg_UnmarshalBinary _ _) as [m|w|w] eqn:E; [|eauto|discriminate]. exists m. split; [reflexivity|]. right. unfold msg_UnmarshalBinary in E.
    destruct (header_unmarshal _) as [h| |] eqn:EH; try discriminate. cbn [obind] in E. cbv zeta in E. cbn [zero_message] in E.
    assert (m_Header m = h) as Em.
    { repeat match type of E with (if ?b then _ else _) = _ => destruct b end; try discriminate;
        (match type of E with obind (assign None ?r) _ = _ => destruct r end; cbn [assign obind] in E; try discriminate; apply Ret_inj in E; subst m; reflexivity). }
    exists h. unfold m_From. rewrite Em. unfold header_unmarshal in EH |- *.
    assert (firstn 5 (firstn (udp_buffer peers) data) = firstn 5 data) as EF by (rewrite firstn_firstn; f_equal; unfold udp_buffer; lia).
    destruct (firstn (udp_buffer peers) data) as [|a [|b [|c [|d [|e l]]]]]; try discriminate.
    destruct data as [|a' [|b' [|c' [|d' [|e' l']]]]]; try discriminate. cbn [firstn] in EF. injection EF as -> -> -> -> ->.
    split; [exact EH|]. split; [reflexivity|]. destruct (header_check _ _) as [u| |] eqn:EC; try discriminate. cbn [obind] in EH. apply Ret_inj in EH. subst h. cbn [h_From].
    destruct u. apply header_check_iff in EC. cbn [h_Type h_From h_To] in EC. pose proof (be16_val_range b' c'). lia.
  Qed.
  Theorem C60_udp_malformed : forall {R} (I : RoundI R) now s, ~ In 0 (r_ids I (st_round s)) -> fst (HandleMessage I now s zero_message) = s.
  Proof.
    intros R I now s H0. unfold HandleMessage. destruct (st_done s); [reflexivity|]. destruct (st_accepted s); [reflexivity|].
    destruct (_ =? _); [reflexivity|]. destruct (_ && _); [reflexivity|].
    destruct (Contains (r_ids I (st_round s)) (m_From zero_message)) eqn:E; [|reflexivity]. apply Contains_true_In in E. contradiction.
  Qed.
End Udp.

(** * Concrete cases *)
(** The whole test with two parties and threshold 1 over the Channel transport; the maps are gone through backwards. *)
Definition get_state {R} (sts : gmap Z R) (dflt : R) : Z -> R := fun i => match sts !! i with Some s => s | None => dflt end.
Definition acts2 : list hact := [AStart 42; AStart 43; ARecv 42 43 0; ARecv 43 42 0; ARecv 42 43 0; ARecv 43 42 0].
Definition test_channel (N T : Z) (acts_k acts_s : list hact) : option (option (outcome unit)) :=
  let '(message, kids, sids) := Setup N T in
  match @keygen_handlers toy_group toy_hash toy_rng (fun _ => 0) 0 T kids with
  | Ret sts =>
    match head (map snd (map_to_list sts)) with
    | Some d =>
      match @h_exec toy_group tkround tkg kids (h_init (get_state sts d)) acts_k with
      | Some c =>
        match @collect_keygen toy_group (rev kids) (hc_state c) None ∅ with
        | Some (Ret (shares, secrets)) =>
          match @sign_handlers toy_group toy_hash (fun i => toy_rng (i + 7)) (fun _ => 0) 0 sids shares secrets message with
          | Ret sts' =>
            match head (map snd (map_to_list sts')), shares with
            | Some d', Some public =>
              match @h_exec toy_group tsround tsg sids (h_init (get_state sts' d')) acts_s with
              | Some c' => Some (@collect_sign toy_group toy_hash (fun _ _ _ => true) (pub_GroupKey public) message (rev sids) (hc_state c'))
              | None => None
              end
            | _, _ => None
            end
          | _ => None
          end
        | _ => None
        end
      | None => None
      end
    | None => None
    end
  | _ => None
  end.
Example C60_example_two : test_channel 2 1 acts2 acts2 = Some (Some (Ret tt)).
Proof. vm_compute. reflexivity. Qed.
(** Signing stopped before the last message: DoSign waits for ever. *)
Example C60_example_waits : test_channel 2 1 acts2 [AStart 42; AStart 43; ARecv 42 43 0; ARecv 43 42 0; ARecv 42 43 0] = Some None.
Proof. vm_compute. reflexivity. Qed.
(** Three parties make a key, two of them sign; here no message is refused. *)
Definition acts3 : list hact := [AStart 42; AStart 43; AStart 44; ARecv 42 43 0; ARecv 44 43 0; ARecv 42 44 0; ARecv 43 44 0; ARecv 43 42 0; ARecv 44 42 0;
  ARecv 42 43 0; ARecv 44 43 0; ARecv 42 44 0; ARecv 43 44 0; ARecv 43 42 0; ARecv 44 42 0].
Example C60_example_three : test_channel 3 1 acts3 acts2 = Some (Some (Ret tt)).
Proof. vm_compute. reflexivity. Qed.
(** A datagram longer than the buffer: the message arrives with its header and without its content. *)
Definition cut_view (r : outcome (@Message toy_group)) : option (Z * Z * Z * bool) :=
  match r with Ret m => Some (m_Type m, m_From m, m_To m, match m_KeyGen1 m with Some _ => true | None => false end) | _ => None end.
Definition long_datagram : list byte :=
  match @msg_MarshalBinary toy_group (@NewKeyGen1 toy_group 7 (mkSchnorr (qof 1) (qof 2)) (repeat (qof 3) 9)) with Ret b => b | _ => [] end.
Example C60_example_cut : List.length long_datagram = 359%nat /\ cut_view (@udp_receive toy_group 1 long_datagram) = Some (1, 7, 0, false) /\
  cut_view (@udp_receive toy_group 8 long_datagram) = Some (1, 7, 0, true) /\ cut_view (@udp_receive toy_group 8 (firstn 4 long_datagram)) = Some (0, 0, 0, false).
Proof. split; [vm_compute; reflexivity|]. split; [vm_compute; reflexivity|]. split; vm_compute; reflexivity. Qed.

Print Assumptions C60_setup.
Print Assumptions C60_keygen_handlers.
Print Assumptions C60_keygen.
Print Assumptions C60_channel_keygen.
Print Assumptions C60_sign_handlers.
Print Assumptions C60_sign.
Print Assumptions C60_channel_sign.
Print Assumptions C60_sound.
Print Assumptions C60_notices.
Print Assumptions C60_verdict.
Print Assumptions C60_rejects.
Print Assumptions C60_empty_refuted.
Print Assumptions C60_udp_keygen.
Print Assumptions C60_udp_sign.
Print Assumptions C60_udp_exact.
Print Assumptions C60_udp_any.
Print Assumptions C60_udp_malformed.
