(** C01, C10, C14, C18 (signing), C19 (signing), C36: one signing party against arbitrary peers. *)
From Coq Require Import ZArith Lia List Bool String Permutation Sorted Ring Setoid Morphisms.
From Coq.Strings Require Import Byte.
From stdpp Require Import base gmap list fin_maps.
From Verif Require Import ZField Primes Bytes Scalar Go Group ToyGroup Party Poly PolyFacts Zk Eddsa Messages State StateFacts Spec_State
  Keygen Sign RoundFacts Lift Spec_Poly PolyAlg Spec_Group Spec_Wire Spec_Sign Spec_SignRun SignFacts SignRun Properties_Algebra Properties_Codec ToyRuns.
Import ListNotations.
Local Open Scope Z_scope.

Lemma NewSignState_round `{Gr : group_ops} `{Hf : hash_fn} rg now t ids secret shares message s0 :
  NewSignState rg now t ids secret shares message = Ret s0 ->
  exists r0, sg_NewRound rg ids secret shares message = Ret r0 /\ s0 = NewBaseState sign_round now t r0.
Proof. unfold NewSignState. intros E. apply obind_ret in E as (r0 & E1 & E2). apply Ret_inj in E2. eauto. Qed.

Lemma NewRound_fields `{Gr : group_ops} `{Hf : hash_fn} rg ids secret shares message r0 :
  sg_NewRound rg ids secret shares message = Ret r0 ->
  sr_no r0 = 0%nat /\ sr_outp r0 = true /\ sr_out r0 = None /\ sr_GroupKey r0 = pub_GroupKey shares /\ sr_Message r0 = message /\
  sr_self r0 = sh_ID secret /\ sr_ids r0 = ids.
Proof.
  unfold sg_NewRound. repeat (destruct (negb _); [discriminate|]). intros E. apply obind_ret in E as (ps & _ & E).
  apply obind_ret in E as (lg & _ & E). apply Ret_inj in E. subst. cbn. auto 10.
Qed.

Section Sign1.
  Context `{Gr : group_ops} `{Hf : hash_fn}.
  Context (rg : rng) (now t : Z) (ids : list Z) (secret : SecretShare) (shares : Public) (message : list byte) (s0 : State sround).
  Context (NEW : NewSignState rg now t ids secret shares message = Ret s0).

  (** * C01, for every party list, share, message and history, and no assumption on group or hash *)
  Theorem C01_success : forall s out, reaches sign_round s0 s out -> st_done s = true -> st_err s = None ->
    exists sig, sg_output s = Some sig /\ Verify (pub_GroupKey shares) message sig = true.
  Proof.
    intros s out [es E] D Er. destruct (NewSignState_round _ _ _ _ _ _ _ _ NEW) as (r0 & E1 & ->).
    destruct (NewRound_fields _ _ _ _ _ _ E1) as (A1 & A2 & A3 & A4 & A5 & _).
    pose proof (li_F _ _ _ _ _ _ _ (output_run r0 (conj A1 (conj A2 A3)) _ _ _ _ _ E) D) as (_ & _ & H).
    rewrite Er in H. destruct H as (sg & H1 & H2). exists sg. rewrite A4, A5 in H2. auto.
  Qed.
  Theorem C01_no_output_otherwise : forall s out, reaches sign_round s0 s out -> st_done s = false \/ st_err s <> None -> sg_output s = None.
  Proof.
    intros s out [es E] H. destruct (NewSignState_round _ _ _ _ _ _ _ _ NEW) as (r0 & E1 & ->).
    destruct (NewRound_fields _ _ _ _ _ _ E1) as (A1 & A2 & A3 & A4 & A5 & _).
    pose proof (output_run r0 (conj A1 (conj A2 A3)) _ _ _ _ _ E) as HL. unfold sg_output. destruct (st_done s) eqn:D.
    - pose proof (li_F _ _ _ _ _ _ _ HL D) as (_ & _ & HF). destruct H as [H|H]; [discriminate|].
      destruct (st_err s); [exact HF|congruence].
    - destruct (li_P _ _ _ _ _ _ _ HL D) as (n & _ & _ & HP). apply HP.
  Qed.

  (** * C18 for signing *)
  Theorem C18_sign : forall s out, reaches sign_round s0 s out -> st_done s = true ->
    let r := st_round s in
    sr_SecretKeyShare r = f0 /\ sr_d r = f0 /\ sr_e r = f0 /\ sr_C r = f0 /\ (forall i, sr_Parties r !! i = None) /\ sr_Message r = [].
  Proof.
    intros s out [es E] D. destruct (NewSignState_round _ _ _ _ _ _ _ _ NEW) as (r0 & E1 & ->).
    destruct (NewRound_fields _ _ _ _ _ _ E1) as (A1 & A2 & A3 & A4 & A5 & _).
    pose proof (li_F _ _ _ _ _ _ _ (output_run r0 (conj A1 (conj A2 A3)) _ _ _ _ _ E) D) as ((B1 & B2 & B3 & B4 & B5 & B6 & _) & _).
    cbv zeta. rewrite B2. repeat split; auto.
  Qed.

  (** * C14 *)
  Theorem C14_at_most_one : forall s out, reaches sign_round s0 s out ->
    map m_Type out = [] \/ map m_Type out = [MTSign1] \/ map m_Type out = [MTSign1; MTSign2].
  Proof.
    intros s out [es E]. destruct (NewSignState_round _ _ _ _ _ _ _ _ NEW) as (r0 & E1 & ->).
    destruct (NewRound_fields _ _ _ _ _ _ E1) as (A1 & A2 & A3 & A4 & A5 & _).
    pose proof (output_run r0 (conj A1 (conj A2 A3)) _ _ _ _ _ E) as HL.
    assert (exists n, map m_Type out = firstn n [MTSign1; MTSign2]) as [n ->].
    { destruct (st_done s) eqn:D.
      - apply (li_F _ _ _ _ _ _ _ HL D).
      - destruct (li_P _ _ _ _ _ _ _ HL D) as (n & _ & _ & HP). exists n. apply HP. }
    destruct n as [|[|[|n]]]; auto.
  Qed.
End Sign1.

Section Sign2.
  Context `{L : group_laws} `{Hf : hash_fn} (HH : hash_ok Hf).
  Context (rg : rng) (now t : Z) (ids : list Z) (secret : SecretShare) (shares : Public) (message : list byte) (s0 : State sround).
  Context (NEW : NewSignState rg now t ids secret shares message = Ret s0).
  (** The IDs are uint16 values, listed once each. *)
  Context (ND : List.NoDup ids) (HU : Forall is_u16 ids).
  Notation self := (sh_ID secret).
  Notation gk := (pub_GroupKey shares).
  (** The two nonces: the scalars made from the first two reads of crypto/rand. *)
  Notation d := (SetScalarRandom rg 0).
  Notation e := (SetScalarRandom rg 1).
  Notation lambda := (lagrange_spec self ids).

  (** The history, as a whole. *)
  Context (es : list event) (s : State sround) (out : list Message).
  Context (RUN : run sign_round s0 es = Ret (s, out)).

  Lemma given_events : Forall (event_ok (given es)) es.
  Proof. apply List.Forall_forall. intros [nw m| | |] Hin; cbn; auto. exists nw. exact Hin. Qed.

  Lemma lam_spec i : In i ids -> i <> 0 -> lam ids i = lagrange_spec i ids.
  Proof. intros Hi H0. pose proof (C25_lagrange_value ids i HU H0 Hi) as E. rewrite Lagrange_ok in E by auto. now apply Ret_inj in E. Qed.

  Lemma the_run : exists r0, sg_NewRound rg ids secret shares message = Ret r0 /\
    linv sign_round (given es) r0 (PS (given es) rg ids secret shares message) (FS (given es) rg ids secret shares message) s out.
  Proof.
    destruct (NewSignState_round _ _ _ _ _ _ _ _ NEW) as (r0 & E1 & ->). exists r0. split; auto.
    eapply sign_run; [exact HH|exact E1|exact ND|exact HU|apply given_events|exact RUN].
  Qed.

  Lemma nonzero i : In i ids -> i <> 0.
  Proof. intros Hi. destruct the_run as (r0 & E1 & _). destruct (new_round (given es) _ _ _ _ _ _ E1) as (_ & _ & H & _). now apply H. Qed.
  Lemma self_in' : In self ids.
  Proof. destruct the_run as (r0 & E1 & _). exact (proj1 (new_round (given es) _ _ _ _ _ _ E1)). Qed.

  Lemma lamA_weighted i : In i ids -> lamA ids shares i = weighted ids shares i.
  Proof.
    intros Hi. unfold lamA, weighted. rewrite Lagrange_ok; auto; [|now apply nonzero]. rewrite lam_spec; auto. now apply nonzero.
  Qed.
  Lemma lamS_lambda : lamS ids secret = lambda.
  Proof. unfold lamS. rewrite Lagrange_ok; auto using nonzero, self_in'. apply lam_spec; auto using nonzero, self_in'. Qed.

  Lemma view_commitments cl : view_ok (given es) rg ids secret cl <-> commitments_of es ids self d e cl.
  Proof. split; intros [A B C]; split; auto. Qed.
  Lemma share_valid_equation cl i z : view_ok (given es) rg ids secret cl -> (share_valid ids shares message cl i z <-> share_equation ids shares message cl i z).
  Proof.
    intros HV. unfold share_valid, share_equation. split; intros H D E Hin; pose proof Hin as Hin'; apply (in_map fst) in Hin'; cbn in Hin';
      rewrite (vo_ids _ _ _ _ _ HV) in Hin'; [rewrite <- lamA_weighted|rewrite lamA_weighted]; auto.
  Qed.
  Lemma own_z_share cl : own_z rg ids secret shares message cl = sig_share message cl gk self d e lambda (sh_Secret secret).
  Proof. unfold own_z. now rewrite lamS_lambda. Qed.

  (** The share sent is z = d + e rho + lambda s c for the nonces committed to in the Sign1 message, over the commitment
      list the party was given; no other message is ever sent. *)
  Theorem C14_same_nonces :
    out = [] \/ out = [NewSign1 self (gbmul d) (gbmul e)] \/
    exists cl, commitments_of es ids self d e cl /\
      out = [NewSign1 self (gbmul d) (gbmul e); NewSign2 self (sig_share message cl gk self d e lambda (sh_Secret secret))].
  Proof.
    destruct the_run as (r0 & E1 & HL).
    assert (out_ok (given es) rg ids secret shares message out) as HO.
    { destruct (st_done s) eqn:D.
      - apply (li_F _ _ _ _ _ _ _ HL D).
      - destruct (li_P _ _ _ _ _ _ _ HL D) as (n & _ & _ & HP). eapply PS_out; eauto. }
    destruct HO as [HO|[HO|(cl & HV & HO)]]; auto. right; right. exists cl. split; [now apply view_commitments|].
    rewrite HO. now rewrite own_z_share.
  Qed.

  (** * C01 in the form of the Schnorr equation: the output is a signature of the message under the group key, its R is the
      sum of the R_i of the commitments and its S the sum of one share per signer. *)
  Theorem C01_signature : st_done s = true -> st_err s = None ->
    exists sig cl zs, sg_output s = Some sig /\ commitments_of es ids self d e cl /\ geq (sig_R sig) (group_nonce message cl) /\
      sig_S sig = Fsum (map snd zs) /\ map fst zs = ids /\ (forall i z, In (i, z) zs -> i <> self -> share_equation ids shares message cl i z) /\
      schnorr_valid gk message (sig_R sig) (sig_S sig).
  Proof.
    intros D Er. destruct the_run as (r0 & E1 & HL). pose proof (li_F _ _ _ _ _ _ _ HL D) as [_ H]. rewrite Er in H.
    destruct H as (cl & zs & sg & H1 & HV & (G1 & G2 & G3) & H2 & H3 & H4 & H5). exists sg, cl, zs.
    split; auto. split; [now apply view_commitments|]. split; auto. split; auto. split; auto. split; auto.
    intros i z Hin Hne. apply share_valid_equation; auto. now apply G3.
  Qed.

  (** * C10 *)
  (** The error of a finished run says who is to blame: a peer that sent an identity commitment or a share violating its
      equation; otherwise nobody. *)
  Theorem C10_blame : forall err, st_err s = Some err -> pe_PartyID err <> 0 ->
    In (pe_PartyID err) ids /\ pe_PartyID err <> self /\
    ((exists m b, given es m /\ m_From m = pe_PartyID err /\ m_Type m = MTSign1 /\ m_Sign1 m = Some b /\ (geq (s1_Di b) gid \/ geq (s1_Ei b) gid)) \/
     (exists cl m z, commitments_of es ids self d e cl /\ In (NewSign1 self (gbmul d) (gbmul e)) out /\ given es m /\ m_From m = pe_PartyID err /\ m_Type m = MTSign2 /\ m_Sign2 m = Some (mkSign2 z) /\
        ~ share_equation ids shares message cl (pe_PartyID err) z)).
  Proof.
    intros err Er H0. destruct the_run as (r0 & E1 & HL).
    assert (st_done s = true) as D. { destruct (st_done s) eqn:D; auto. rewrite (inv_err _ s (li_inv _ _ _ _ _ _ _ HL) D) in Er. discriminate. }
    pose proof (li_F _ _ _ _ _ _ _ HL D) as [_ H]. rewrite Er in H. destruct H as [_ [[A _]|[H|[H|(_ & A & _)]]]]; try congruence.
    - destruct H as (_ & A & B & m & b & C). split; auto. split; auto. left. eauto.
    - destruct H as (_ & A & B & cl & m & [z] & HV & HOut & C1 & C2 & C3 & C4 & C5). split; auto. split; auto. right.
      exists cl, m, z. split; [now apply view_commitments|]. split; [rewrite HOut; now left|]. split; auto. split; auto. split; auto. split; auto.
      intros X. apply C5. now apply share_valid_equation.
  Qed.

  (** What ProcessAll does with the shares of round 2: [sent j z] says that z is what is stored for j. *)
  Definition sent (j : Z) (z : Fq) : Prop := exists m, st_received s !! j = Some (Some m) /\ m_Sign2 m = Some (mkSign2 z).
  Theorem C10_round2 : forall sched sched' s' o, st_done s = false -> st_roundNumber s = 2 ->
    ProcessAll sign_round sched sched' s = Ret (s', o) -> s' <> s ->
    st_done s' = true /\ o = [] /\
    exists cl, commitments_of es ids self d e cl /\
      match st_err s' with
      | None => forall j, In j ids -> j <> self -> exists z, sent j z /\ share_equation ids shares message cl j z
      | Some err =>
          (In (pe_PartyID err) ids /\ pe_PartyID err <> self /\
           exists z, sent (pe_PartyID err) z /\ ~ share_equation ids shares message cl (pe_PartyID err) z) \/
          (pe_PartyID err = 0 /\ forall j, In j ids -> j <> self -> exists z, sent j z /\ share_equation ids shares message cl j z)
      end.
  Proof.
    intros sched sched' s' o D Hr EP Hne. destruct the_run as (r0 & E1 & HL).
    destruct (li_P _ _ _ _ _ _ _ HL D) as (n & En & Ea & HP). assert (n = 2%nat) as -> by lia.
    pose proof HP as (HB & Hno & HN & H2 & Ho).
    set (cl := cl_of (sr_Parties (st_round s)) ids) in *. pose proof (p2_view _ _ _ _ _ _ _ H2) as HV. fold cl in HV.
    assert (rcv_ok sign_round (given es) r0 2 (st_received s)) as HR by (eapply linv_rcv_ok; eauto).
    assert (from_ok (st_received s)) as Hfrom. { intros k m Hk. apply (ro_val _ _ _ _ _ HR k m Hk). }
    pose proof (li_inv _ _ _ _ _ _ _ HL) as HI. pose proof (li_ids _ _ _ _ _ _ _ HL) as Hids.
    assert (r_ids sign_round r0 = ids /\ r_self sign_round r0 = self) as [Hi0 Hs0].
    { destruct (NewRound_fields _ _ _ _ _ _ E1) as (_ & _ & _ & _ & _ & X & Y). auto. }
    assert (Z.of_nat (size (st_received s)) = u16 (N_ids (r_ids sign_round (st_round s)) - 1) ->
      List.NoDup (map_keys sched (st_received s)) /\ forall k, In k (map_keys sched (st_received s)) <-> In k (others_of self ids)) as Hfull.
    { intros HS. rewrite Hids, Hi0 in HS. apply (full_keys (given es) rg ids secret shares message r0 E1 ND HU (st_received s)); auto.
      - intros k v Hk. pose proof (ro_key _ _ _ _ _ HR k v Hk) as X. now rewrite Hi0, Hs0 in X.
      - apply map_keys_perm. }
    assert (forall r1, process_loop sign_round (st_round s) (st_received s) (map_keys sched (st_received s)) = ROk r1 tt ->
      Z.of_nat (size (st_received s)) = u16 (N_ids (r_ids sign_round (st_round s)) - 1) ->
      sr_no r1 = 2%nat /\ forall j, In j ids -> j <> self -> exists z, sent j z /\ share_equation ids shares message cl j z) as Hall.
    { intros r1 EL HS. destruct (Hfull HS) as [NDk Hks]. pose proof (sg2_loop _ Hfrom _ (st_round s) NDk Hno) as HLp. rewrite EL in HLp.
      destruct HLp as (X & _ & Hch). split; [rewrite X; exact Hno|]. intros j Hj Hns.
      destruct (Hch j) as (m & [z] & p & Em & Eb & Ep & Hc & _). { apply Hks, others_of_In; auto. }
      exists z. split; [exists m; auto|]. apply share_valid_equation; auto. cbn in Hc. eapply (share_check_valid (given es)); eauto. }
    apply (process_cases sign_round) in EP. destruct EP as [-> -> _|r1 c tx _ HS EL ER ->|r1 r2 c tx _ HS EL EG ER ->|r1 r2 ct tl rcv q _ HS EL EG EA EQ EN].
    - congruence.
    - apply reportError_ret in ER as (r3 & _ & _ & ->); [|exact D|apply (inv_err _ s HI D)]. cbn. split; auto. split; auto.
      exists cl. split; [now apply view_commitments|]. left. destruct (Hfull HS) as [NDk Hks].
      pose proof (sg2_loop _ Hfrom _ (st_round s) NDk Hno) as HLp. rewrite EL in HLp. destruct HLp as (_ & _ & Hin & m & [z] & p & Em & Eb & Ep & Hc).
      apply Hks, others_of_In in Hin as [Hin Hns]. split; auto. split; auto. exists z. split; [exists m; auto|].
      intros X. apply share_valid_equation in X; auto. cbn in Hc.
      assert (share_check (sr_C (st_round s)) p z = true) as Y by (eapply (share_check_valid (given es)); eauto). congruence.
    - apply reportError_ret in ER as (r3 & _ & _ & ->); [|exact D|apply (inv_err _ s HI D)]. cbn. split; auto. split; auto.
      exists cl. split; [now apply view_commitments|]. right. destruct (Hall r1 EL HS) as [Hn1 Hx]. split; auto.
      revert EG. cbn [sign_round r_generate]. rewrite Hn1. unfold sg2_generate. cbv zeta. destruct (negb _); [now intros [= _ <- _]|].
      destruct (sr_outp r1); discriminate.
    - destruct (Hall r1 EL HS) as [Hn1 Hx]. revert EG. cbn [sign_round r_generate]. rewrite Hn1. unfold sg2_generate. cbv zeta. destruct (negb _); [discriminate|].
      destruct (sr_outp r1); [|discriminate]. intros [= <- <-]. cbn [sign_round r_next sr_no] in EN. rewrite Hn1 in EN.
      apply finish_ret in EN as (r3 & _ & _ & ->); [|exact D]. cbn. split; auto. split; auto. exists cl. split; [now apply view_commitments|].
      rewrite (inv_err _ s HI D). exact Hx.
  Qed.

  (** If our own share matches our public share and the weighted public shares add up to the group key, the last test
      (full signature) never fails: the only other way to abort without a culprit is the timeout. *)
  Theorem C10_complete : forall err A, st_err s = Some err -> pe_PartyID err = 0 ->
    pub_Shares shares !! self = Some A -> geq (gbmul (sh_Secret secret)) A -> geq (Gsum (map (weighted ids shares) ids)) gk ->
    pe_text err = "message timeout"%string.
  Proof.
    intros err A Er H0 EA Hc Hk. destruct the_run as (r0 & E1 & HL).
    assert (st_done s = true) as D. { destruct (st_done s) eqn:D; auto. rewrite (inv_err _ s (li_inv _ _ _ _ _ _ _ HL) D) in Er. discriminate. }
    pose proof (li_F _ _ _ _ _ _ _ HL D) as [_ H]. rewrite Er in H. destruct H as [_ [[_ X]|[H|[H|H]]]]; auto; exfalso.
    - destruct H as (_ & Hin & _). rewrite H0 in Hin. now apply nonzero in Hin.
    - destruct H as (_ & Hin & _). rewrite H0 in Hin. now apply nonzero in Hin.
    - destruct H as (_ & _ & cl & zs & R & HV & HG & HR & HX). apply HX. eapply (full_signature_ok (given es)); eauto.
      assert (map (lamA ids shares) ids = map (weighted ids shares) ids) as ->; auto. apply map_ext_in. intros i Hi. now apply lamA_weighted.
  Qed.

  (** * C19 for signing *)
End Sign2.

Section Sign3.
  Context `{L : group_laws} `{Hf : hash_fn} (HH : hash_ok Hf).
  (** Messages whose body was decoded never crash a signing State, whatever else they contain and in whatever order the
      calls are made.  (Missing for the full property: messages without body, see C19_refuted.) *)
  Theorem C19_sign_partial : forall rg now t ids secret shares message s0 es,
    List.NoDup ids -> Forall is_u16 ids -> NewSignState rg now t ids secret shares message = Ret s0 ->
    (forall m, given es m -> has_body m) -> exists s out, run sign_round s0 es = Ret (s, out).
  Proof.
    intros rg now t ids secret shares message s0 es ND HU NEW HB. destruct (NewSignState_round _ _ _ _ _ _ _ _ NEW) as (r0 & E1 & ->).
    destruct (sign_nopanic HH (given es) rg ids secret shares message r0 E1 ND HU) with (now := now) (t := t) (es := es) as (s & out & E & _); eauto.
    - intros m Hm. specialize (HB m Hm). unfold has_body in HB. unfold m_Type, MTSign1, MTSign2. split; intros; intuition congruence.
    - apply List.Forall_forall. intros [nw m| | |] Hin; cbn; auto. exists nw. exact Hin.
  Qed.
End Sign3.

(** * C36 *)
Section Params.
  Context `{Gr : group_ops} `{Hf : hash_fn}.
  Theorem C36_rejects_partial : forall rg now t ids secret shares message s0,
    NewSignState rg now t ids secret shares message = Ret s0 ->
    In (sh_ID secret) ids /\ (forall i, In i ids -> In i (pub_PartyIDs shares)) /\ ~ In 0 ids /\
    (forall i, In i ids -> exists A, pub_Shares shares !! i = Some A).
  Proof.
    intros rg now t ids secret shares message s0 E. apply NewSignState_round in E as (r0 & E & _).
    destruct (new_round (fun _ => True) _ _ _ _ _ _ E) as (A & B & C & _). split; auto. split; auto. split.
    - intros X. now apply C in X.
    - intros i Hi. destruct (C i Hi) as (_ & lg & X & _ & Y). eauto.
  Qed.
  (** Valid parameters are accepted (lists sorted, as party.IDSlice requires). *)
  Theorem C36_accepts : forall rg now t ids secret shares message,
    sorted ids -> sorted (pub_PartyIDs shares) -> Forall is_u16 ids ->
    In (sh_ID secret) ids -> (forall i, In i ids -> In i (pub_PartyIDs shares) /\ i <> 0 /\ exists A, pub_Shares shares !! i = Some A) ->
    exists s0, NewSignState rg now t ids secret shares message = Ret s0.
  Proof.
    intros rg now t ids secret shares message S1 S2 HU Hs H. unfold NewSignState, sg_NewRound.
    rewrite (proj2 (C26_Contains ids (sh_ID secret) S1) Hs). rewrite (proj2 (C26_IsSubsetOf ids _ S2)) by (intros i Hi; now apply H). cbn [negb].
    assert (exists ps, sg_setup shares ids = Ret ps) as [ps ->].
    { unfold sg_setup. assert (forall l (acc : gmap Z signer), incl l ids -> exists ps,
        ofold (fun (acc : gmap Z signer) id => if id =? 0 then Fail "base.NewRound: id 0 is not valid" else
          obind (Lagrange id ids) (fun lagrange => match pub_Shares shares !! id with None => Panics "nil element"
            | Some originalShare => Ret (<[id := mkSigner (gsmul lagrange originalShare) gid gid gid f0 f0]> acc) end)) acc l = Ret ps) as X.
      { induction l as [|i l IH]; intros acc Hl; cbn [ofold]; eauto.
        destruct (H i) as (_ & H0 & A & EA). { apply Hl. left; auto. }
        apply Z.eqb_neq in H0 as H0'. rewrite H0', Lagrange_ok, EA; auto; [|apply Hl; left; auto]. cbn [obind]. apply IH. intros j Hj. apply Hl. right; auto. }
      apply X. apply incl_refl. }
    cbn [obind]. rewrite Lagrange_ok; auto; [|now apply H]. cbn [obind]. eauto.
  Qed.
  (** The verdict of NewSignState on every pair of sorted lists: a State exactly when the owner of the secret is a signer, the signers are
      key holders, none of them is 0 and each has a public share; a crash exactly when only the last condition fails; else an error.
      No threshold is looked at, no repetition, and nothing relates the secret to its public share. *)
  Theorem C36_exact : forall rg now t ids secret shares message, sorted ids -> sorted (pub_PartyIDs shares) -> Forall is_u16 ids ->
    let listed := In (sh_ID secret) ids /\ incl ids (pub_PartyIDs shares) /\ ~ In 0 ids in
    let shared := forall i, In i ids -> exists A, pub_Shares shares !! i = Some A in
    ((exists s0, NewSignState rg now t ids secret shares message = Ret s0) <-> listed /\ shared) /\
    ((exists w, NewSignState rg now t ids secret shares message = Panics w) <-> listed /\ ~ shared) /\
    ((exists w, NewSignState rg now t ids secret shares message = Fail w) <-> ~ listed).
  Proof.
    intros rg now t ids secret shares message S1 S2 HU listed shared.
    assert (V : (listed /\ shared /\ exists s0, NewSignState rg now t ids secret shares message = Ret s0) \/
      (listed /\ ~ shared /\ exists w, NewSignState rg now t ids secret shares message = Panics w) \/
      (~ listed /\ exists w, NewSignState rg now t ids secret shares message = Fail w)).
    { unfold NewSignState, sg_NewRound. pose proof (C26_Contains ids (sh_ID secret) S1) as HC. pose proof (C26_IsSubsetOf ids _ S2) as HS.
      destruct (Contains ids (sh_ID secret)); cbn [negb]; [|right; right; split; [intros (X & _); apply HC in X; discriminate|cbn; eauto]].
      destruct (IsSubsetOf ids (pub_PartyIDs shares)); cbn [negb]; [|right; right; split; [intros (_ & X & _); apply HS in X; discriminate|cbn; eauto]].
      destruct (in_dec Z.eq_dec 0 ids) as [H0|H0].
      - right; right. split; [intros (_ & _ & X); auto|]. assert (exists l, ids = 0 :: l) as [l ->].
        { destruct ids as [|i l]; [destruct H0|]. exists l. f_equal. apply StronglySorted_inv in S1 as [_ S1]. inversion HU; subst. unfold is_u16 in *.
          destruct H0 as [H0|H0]; auto. rewrite List.Forall_forall in S1. specialize (S1 _ H0). lia. }
        cbn. eauto.
      - assert (listed) as HL by (split; [now apply HC|]; split; [now apply HS|exact H0]).
        assert (forall l (acc : gmap Z signer), incl l ids ->
          let x := ofold (fun (acc : gmap Z signer) id => if id =? 0 then Fail "base.NewRound: id 0 is not valid" else
            obind (Lagrange id ids) (fun lagrange => match pub_Shares shares !! id with None => Panics "nil element"
              | Some originalShare => Ret (<[id := mkSigner (gsmul lagrange originalShare) gid gid gid f0 f0]> acc) end)) acc l in
          ((forall i, In i l -> exists A, pub_Shares shares !! i = Some A) /\ exists ps, x = Ret ps) \/
          (~ (forall i, In i l -> exists A, pub_Shares shares !! i = Some A) /\ exists w, x = Panics w)) as X.
        { induction l as [|i l IH]; intros acc Hl; cbn [ofold].
          - left. split; [intros i []|eauto].
          - assert (i <> 0) as Hi by (intros ->; apply H0, Hl; left; auto). apply Z.eqb_neq in Hi as Hi'.
            rewrite Hi', Lagrange_ok by (auto; apply Hl; left; auto). cbn [obind].
            destruct (pub_Shares shares !! i) as [A|] eqn:EA.
            + destruct (IH (<[i := mkSigner (gsmul (lam ids i) A) gid gid gid f0 f0]> acc)) as [[P Q]|[P Q] ].
              { intros j Hj. apply Hl. right; auto. }
              * left. split; [|exact Q]. intros j [<-|Hj]; eauto.
              * right. split; [|exact Q]. intros Y. apply P. intros j Hj. apply Y. right; auto.
            + right. split; [|eauto]. intros Y. destruct (Y i) as [A EA']; [left; auto|congruence]. }
        destruct (X ids ∅ (incl_refl _)) as [[P [ps Q] ]|[P [w Q] ] ]; unfold sg_setup; rewrite Q; cbn [obind].
        + left. split; auto. split; auto. rewrite Lagrange_ok; auto; [cbn [obind]; eauto| |]; [|now apply HC].
          intros E0. apply H0. rewrite <- E0. now apply HC.
        + right; left. eauto. }
    destruct V as [(A & B & s0 & E)|[(A & B & w & E)|(A & w & E)] ]; rewrite E; (split; [|split]); split;
      first [intros [? Y]; try discriminate; now auto | intros Y; eauto; exfalso; tauto].
  Qed.
  (** A repeated signer is accepted, and the State then waits for ever: no ProcessAll does anything, whatever is received. *)
  Theorem C36_duplicates_refuted : forall rg now t ids secret shares message s0 es s out, ~ List.NoDup ids -> Z.of_nat (List.length ids) < 65536 ->
    NewSignState rg now t ids secret shares message = Ret s0 -> run sign_round s0 es = Ret (s, out) ->
    out = [] /\ sg_output s = None /\ (st_done s = false -> st_roundNumber s = 0) /\
    (st_done s = true -> exists err, st_err s = Some err /\ pe_text err = "message timeout"%string).
  Proof.
    intros rg now t ids secret shares message s0 es s out HD Hlt E ER. apply NewSignState_round in E as (r0 & E0 & ->).
    destruct (new_round (fun _ => True) _ _ _ _ _ _ E0) as (Hin & _).
    assert (r_self sign_round r0 = sh_ID secret /\ r_ids sign_round r0 = ids /\ sr_out r0 = None) as (Es & Ei & Eo).
    { revert E0. unfold sg_NewRound. destruct (Contains _ _); [|discriminate]. destruct (IsSubsetOf _ _); [|discriminate]. cbn [negb].
      intros E. apply obind_ret in E as (ps & _ & E). apply obind_ret in E as (lg & _ & E). apply Ret_inj in E. subst r0. auto. }
    assert (linv sign_round (fun _ => True) r0 (fun n r o => n = 0%nat /\ o = [] /\ sr_out r = None)
      (fun r e o => o = [] /\ sr_out r = None /\ exists err, e = Some err /\ pe_RoundNumber err = 0 /\ pe_text err = "message timeout"%string) s out) as HL.
    { eapply linv_run; [exact sign_round_ok|auto| | |apply List.Forall_forall; intros [] _; exact Logic.I|exact ER].
      - intros n r o rcv ks sched _ _ _ [Hk _ _] HF _. exfalso. apply HD. unfold full in HF. rewrite Ei in HF.
        assert (incl (sh_ID secret :: map_keys [] rcv) ids) as Hincl.
        { intros i [<-|Hi]; auto. apply map_keys_In in Hi as [v Hv]. apply Hk in Hv. rewrite Es, Ei in Hv. now apply others_of_In in Hv. }
        assert (List.NoDup (sh_ID secret :: map_keys [] rcv)) as HN.
        { constructor; [|apply map_keys_NoDup]. intros Hi. apply map_keys_In in Hi as [v Hv]. apply Hk in Hv. rewrite Es, Ei in Hv. apply others_of_In in Hv as [_ Hv]. congruence. }
        eapply NoDup_incl_NoDup; [exact HN| |exact Hincl]. cbn [List.length]. rewrite map_keys_length.
        assert (1 <= List.length ids)%nat. { destruct ids; [contradiction|cbn; lia]. }
        unfold N_ids, u16 in HF. rewrite (Z.mod_small (Z.of_nat _)) in HF by lia. rewrite Z.mod_small in HF by lia. lia.
      - intros n r o r3 (-> & -> & Ho) _ _ E3. split; auto. split; [|eexists; split; [reflexivity|]; cbn; auto].
        cbn in E3. unfold sg_Reset in E3. apply Ret_inj in E3. now subst. }
    destruct (st_done s) eqn:D.
    - destruct (li_F _ _ _ _ _ _ _ HL D) as (-> & Ho & err & Er & Hn & Ht). split; auto. split; [exact Ho|]. split; [discriminate|eauto].
    - destruct (li_P _ _ _ _ _ _ _ HL D) as (n & En & _ & -> & -> & Ho). split; auto. split; [exact Ho|]. split; [lia|discriminate].
  Qed.
End Params.
(** No threshold is checked: one signer of a key with threshold 1 gets a State (its run can only end with an error). *)
Theorem C36_refuted :
  pub_Threshold t_public = 1 /\
  (match ts_new [2] 2 0 with Ret s => Z.of_nat (List.length (@r_ids toy_group tsround tsg (st_round s))) | _ => 0 end) = 1 /\
  ts_view (ts_run (ts_new [2] 2 0) [prc; prc; prc]) = (true, 2, Some (0, "full signature is invalid"%string), false).
Proof. vm_compute. repeat split. Qed.
(** And a key holder without public share makes NewSignState panic instead of failing. *)
Theorem C36_missing_share_refuted :
  match @NewSignState toy_group toy_hash (toy_rng 1) 0 0 s13 (t_secret 1)
          (@mkPublic toy_group k3 1 (<[1 := qof 8]> ∅) (qof 5)) t_message with Panics w => Some w | _ => None end = Some "nil element"%string.
Proof. vm_compute. reflexivity. Qed.

(** ** Concrete runs of the hypotheses above *)
Example C36_exact_example : sorted s13 /\ sorted (pub_PartyIDs t_public) /\ Forall is_u16 s13 /\ Forall is_u16 [0; 1] /\ ~ List.NoDup [1; 1; 3] /\
  ts_view (ts_run (ts_new [1; 1; 3] 1 0) (prc :: hnd (sg1_of 3) ++ [prc])) = (false, 0, None, false) /\
  match @NewSignState toy_group toy_hash (toy_rng 1) 0 0 [0; 1] (t_secret 1)
          (@mkPublic toy_group [0; 1] 1 (<[0 := qof 8]> (<[1 := qof 8]> ∅)) (qof 5)) t_message with Fail w => Some w | _ => None end
    = Some "base.NewRound: id 0 is not valid"%string.
Proof.
  split; [repeat constructor; lia|]. split; [repeat constructor; lia|]. split; [repeat constructor; unfold is_u16; lia|].
  split; [repeat constructor; unfold is_u16; lia|]. split; [intros H; inversion H; subst; cbn in *; tauto|].
  split; vm_compute; reflexivity.
Qed.
(** A successful run of two signers out of three. *)
Example C01_example : ts_view (ts_run (ts_new s13 1 0) sign_history) = (true, 2, None, true) /\
  ts_view (ts_run (ts_new s13 3 0) sign_history) = (true, 2, None, true).
Proof. vm_compute. repeat split. Qed.
Example C14_example : map m_Type (ts_out (ts_run (ts_new s13 1 0) (sign_history ++ sign_history))) = [MTSign1; MTSign2].
Proof. vm_compute. reflexivity. Qed.
(** A wrong share of 3 is blamed on 3, an identity commitment too; the context's assumptions hold of this run. *)
Example C10_example :
  ts_view (ts_run (ts_new s13 1 0) (prc :: hnd (sg1_of 3) ++ prc :: hnd [@NewSign2 toy_group 3 (qof 7)] ++ [prc]))
    = (true, 2, Some (3, "signature share is invalid"%string), false) /\
  ts_view (ts_run (ts_new s13 1 0) (prc :: hnd [@NewSign1 toy_group 3 (qof 7) (qof 0)] ++ [prc]))
    = (true, 1, Some (3, "commitment Ei or Di was the identity"%string), false) /\
  List.NoDup s13 /\ Forall is_u16 s13.
Proof.
  split; [vm_compute; reflexivity|]. split; [vm_compute; reflexivity|]. split.
  - repeat constructor; cbn; lia.
  - repeat constructor; unfold is_u16; lia.
Qed.
(** The premises of C10_complete hold for the toy key. *)
Example C10_complete_example : @geq toy_group (@Gsum toy_group (map (@weighted toy_group s13 t_public) s13)) (pub_GroupKey t_public) /\
  @geq toy_group (@gbmul toy_group (sh_Secret (t_secret 1))) (qof 8).
Proof. split; vm_compute; reflexivity. Qed.
Example C18_sign_example :
  match ts_run (ts_new s13 1 0) (firstn 3 sign_history), ts_run (ts_new s13 1 0) sign_history with
  | Ret (s1, _), Ret (s2, _) => (fz (sr_d (st_round s1)) =? 0, fz (sr_SecretKeyShare (st_round s1)) =? 0, fz (sr_d (st_round s2)), fz (sr_SecretKeyShare (st_round s2)))
  | _, _ => (true, true, 1, 1) end = (false, false, 0, 0).
Proof. vm_compute. reflexivity. Qed.
Example C36_example : sorted s13 /\ sorted (pub_PartyIDs t_public) /\ In 3 s13.
Proof. repeat split; repeat constructor; lia. Qed.

Print Assumptions C01_success.
Print Assumptions C01_signature.
Print Assumptions C10_round2.
Print Assumptions C10_complete.
Print Assumptions C14_same_nonces.
Print Assumptions C18_sign.
Print Assumptions C19_sign_partial.
Print Assumptions C36_accepts.
Print Assumptions C36_exact.
Print Assumptions C36_duplicates_refuted.
