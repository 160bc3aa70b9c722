(** C02 and the signing part of C09: honest signers. *)
From Coq Require Import ZArith Lia List Bool String Permutation Sorted Ring Setoid Morphisms.
From Coq.Strings Require Import Byte.
From stdpp Require Import base gmap list fin_maps.
From Verif Require Import ZField Primes Bytes Scalar Go Group ToyGroup Party Poly PolyFacts Zk Eddsa Messages State StateFacts Spec_State
  Keygen Sign RoundFacts Lift Net Progress NetProgress Spec_Poly PolyAlg Spec_Group Spec_Wire Spec_Sign Spec_SignRun SignFacts SignRun Properties_Algebra Properties_Codec Properties_Sign ToyRuns.
Import ListNotations.
Local Open Scope Z_scope.

Local Opaque SetScalarRandom.

Lemma assoc_map {A} (cl : list (Z * A)) (g : Z -> A) ids : map fst cl = ids -> (forall i x, In (i, x) cl -> x = g i) -> cl = map (fun i => (i, g i)) ids.
Proof.
  intros <- H. rewrite map_map. induction cl as [|[i x] cl IH]; cbn; auto. f_equal.
  - now rewrite (H i x) by (now left).
  - apply IH. intros j y Hj. apply H. now right.
Qed.

Lemma find_fst {A} (cl : list (Z * A)) i x : List.NoDup (map fst cl) -> In (i, x) cl -> find (fun x => fst x =? i) cl = Some (i, x).
Proof.
  induction cl as [|[j y] cl IH]; cbn; [contradiction|]. intros HN [H|H].
  - inversion H; subst. now rewrite Z.eqb_refl.
  - inversion HN as [|? ? Hni HN']; subst. destruct (Z.eqb_spec j i) as [->|Hne]; auto. exfalso. apply Hni. now apply (in_map fst) in H.
Qed.

Lemma sg_process_text `{Gr : group_ops} `{Hf : hash_fn} r m r' c t : r_process sign_round r m = RErr r' c t -> t <> "message timeout"%string.
Proof.
  cbn [sign_round r_process]. destruct (sr_no r) as [|[|n]]; [discriminate| |].
  - unfold sg1_process. destruct m as [m|]; [|discriminate]. destruct (m_Sign1 m); [|discriminate]. cbv zeta.
    destruct (_ || _); [intros E; inversion E; subst; discriminate|]. destruct (sr_Parties r !! _); discriminate.
  - unfold sg2_process. destruct m as [m|]; [|discriminate]. cbv zeta. destruct (sr_Parties r !! _); [|discriminate]. destruct (m_Sign2 m); [|discriminate].
    destruct (negb _); [|discriminate]. intros E. inversion E; subst. discriminate.
Qed.
Lemma sg_generate_text `{Gr : group_ops} `{Hf : hash_fn} sched r r' c t : r_generate sign_round sched r = RErr r' c t -> t <> "message timeout"%string.
Proof.
  cbn [sign_round r_generate]. destruct (sr_no r) as [|[|n]].
  - unfold sg0_generate. cbv zeta. destruct (sr_Parties r !! _); discriminate.
  - unfold sg1_generate. destruct (computeRhos r); try discriminate. cbv zeta. destruct (_ !! _); discriminate.
  - unfold sg2_generate. cbv zeta. destruct (negb _); [intros E; inversion E; subst; discriminate|]. destruct (sr_outp r); discriminate.
Qed.

(** Lists of commitments equal up to the representation of the elements: same binding factors, nonce and challenge. *)
Section ClEq.
  Context `{L : group_laws} `{Hf : hash_fn}.
  Definition cl_eq : commitment_list -> commitment_list -> Prop :=
    Forall2 (fun x y => fst x = fst y /\ geq (fst (snd x)) (fst (snd y)) /\ geq (snd (snd x)) (snd (snd y))).
  Lemma cl_eq_refl cl : cl_eq cl cl.
  Proof. induction cl; constructor; auto. repeat split; reflexivity. Qed.
  Lemma cl_eq_sym cl cl' : cl_eq cl cl' -> cl_eq cl' cl.
  Proof. induction 1 as [|x y cl cl' (A & B & C)]; constructor; auto. split; auto. split; now symmetry. Qed.
  Lemma cl_eq_in cl cl' i D E : cl_eq cl cl' -> In (i, (D, E)) cl -> exists D' E', In (i, (D', E')) cl' /\ geq D D' /\ geq E E'.
  Proof.
    induction 1 as [|x [j [D' E']] cl cl' (A & B & C) F IH]; cbn in *; [tauto|]. intros [->|Hin].
    - cbn in *. subst j. exists D', E'. auto.
    - destruct (IH Hin) as (D1 & E1 & H1 & H2 & H3). exists D1, E1. auto.
  Qed.
  Lemma enc_list_eq cl cl' : cl_eq cl cl' -> enc_list cl = enc_list cl'.
  Proof.
    unfold enc_list. induction 1 as [|x y cl cl' (A & B & C) F IH]; cbn [map concat]; auto. f_equal; [|exact IH].
    rewrite A. f_equal. apply genc_eq in B, C. now rewrite B, C.
  Qed.
  Lemma binding_eq m cl cl' i : cl_eq cl cl' -> binding m cl i = binding m cl' i.
  Proof. intros H. unfold binding. now rewrite (enc_list_eq _ _ H). Qed.
  Lemma group_nonce_eq m cl cl' : cl_eq cl cl' -> geq (group_nonce m cl) (group_nonce m cl').
  Proof.
    intros H. unfold group_nonce, nonce_point.
    assert (forall l l', cl_eq l l' -> geq (Gsum (map (fun x => gadd (fst (snd x)) (gsmul (binding m cl (fst x)) (snd (snd x)))) l))
      (Gsum (map (fun x => gadd (fst (snd x)) (gsmul (binding m cl' (fst x)) (snd (snd x)))) l'))) as X.
    { induction 1 as [|x y l l' (A & B & C) F IH]; cbn [map]; [reflexivity|]. cbn. rewrite IH, A, B, C, (binding_eq m cl cl' _ H). reflexivity. }
    now apply X.
  Qed.
  Lemma sig_share_eq m cl cl' Y Y' i d e l s : cl_eq cl cl' -> geq Y Y' -> sig_share m cl Y i d e l s = sig_share m cl' Y' i d e l s.
  Proof. intros H HY. unfold sig_share. rewrite (binding_eq m cl cl' i H). now rewrite (chal_proper _ _ _ _ m (group_nonce_eq m _ _ H) HY). Qed.
  Lemma cl_eq_assoc (cl : commitment_list) (g : Z -> G * G) ids : map fst cl = ids ->
    (forall i D E, In (i, (D, E)) cl -> geq D (fst (g i)) /\ geq E (snd (g i))) -> cl_eq cl (map (fun i => (i, g i)) ids).
  Proof.
    intros <- H. rewrite map_map. induction cl as [|[i [D E]] cl IH]; cbn; constructor.
    - cbn. split; auto. apply H. now left.
    - apply IH. intros j D' E' Hj. apply H. now right.
  Qed.
End ClEq.

Section Honest.
  Context `{L : group_laws} `{Hf : hash_fn} (HH : hash_ok Hf).
  (** The key: a polynomial of degree at most t, at least t+1 signers. *)
  Context (t : nat) (f : list Fq) (ids : list Z) (Hdeg : degree_le t f) (Hids : valid_ids ids) (Hnum : (t + 1 <= List.length ids)%nat).
  (** Every signer has its share f(i), a record of the public shares, its own randomness, clock and timeout. *)
  Context (message : list byte) (rg : Z -> rng) (pub : Z -> Public) (sh : Z -> SecretShare) (now timeout : Z -> Z) (s0 : Z -> State sround).
  Context (SH : forall i, In i ids -> sh_ID (sh i) = i /\ sh_Secret (sh i) = spoly f (qof i)).
  Context (PUB : forall i j, In i ids -> In j ids -> exists A, pub_Shares (pub i) !! j = Some A /\ geq A (gbmul (spoly f (qof j)))).
  Context (KEY : forall i, In i ids -> geq (pub_GroupKey (pub i)) (gbmul (spoly f f0))).
  Context (NEW : forall i, In i ids -> NewSignState (rg i) (now i) (timeout i) ids (sh i) (pub i) message = Ret (s0 i)).
  Notation d i := (SetScalarRandom (rg i) 0).
  Notation e i := (SetScalarRandom (rg i) 1).
  (** The nonces are not 0 (a commitment [0]B would be refused; two reads out of 2^252 would be needed for it). *)
  Context (NZ : forall i, In i ids -> d i <> f0 /\ e i <> f0).

  (** What should come out. *)
  Definition the_commitments : commitment_list := map (fun i => (i, (gbmul (d i), gbmul (e i)))) ids.
  Definition the_nonce : Fq := Fsum (map (fun i => fadd (d i) (fmul (binding message the_commitments i) (e i))) ids).
  Definition the_challenge : Fq := chal (gbmul the_nonce) (gbmul (spoly f f0)) message.
  Definition the_share (i : Z) : Fq :=
    fadd (fadd (d i) (fmul (e i) (binding message the_commitments i))) (fmul (fmul (lagrange_spec i ids) (spoly f (qof i))) the_challenge).
  Definition the_S : Fq := fadd the_nonce (fmul the_challenge (spoly f f0)).

  (** The messages the honest signers send, and what may be delivered for them. *)
  Definition HU0 (m : Message) : Prop := exists i, In i ids /\ (m = NewSign1 i (gbmul (d i)) (gbmul (e i)) \/ m = NewSign2 i (the_share i)).
  Definition HW (m : Message) : Prop := exists m0, HU0 m0 /\ same_msg m0 m.
  Lemma HUW m m' : HU0 m -> same_msg m m' -> HW m'. Proof. intros H1 H2. exists m. auto. Qed.
  Lemma HUW0 m : HU0 m -> HW m. Proof. intros H. exists m. split; auto using same_refl. Qed.
  Lemma hw_sign1 m b : HW m -> m_Type m = MTSign1 -> m_Sign1 m = Some b -> In (m_From m) ids /\ geq (s1_Di b) (gbmul (d (m_From m))) /\ geq (s1_Ei b) (gbmul (e (m_From m))).
  Proof.
    intros (m0 & (i & Hi & [->| ->]) & HS) Ht Hb; [|rewrite (same_type _ _ HS) in Ht; discriminate].
    rewrite (same_from _ _ HS). destruct (same_s1 _ _ _ HS eq_refl eq_refl) as (b' & E1 & E2 & E3). rewrite Hb in E1. inversion E1; subst b'. cbn in *. auto.
  Qed.
  Lemma hw_sign2 m b : HW m -> m_Type m = MTSign2 -> m_Sign2 m = Some b -> In (m_From m) ids /\ s2_Zi b = the_share (m_From m).
  Proof.
    intros (m0 & (i & Hi & [->| ->]) & HS) Ht Hb; [rewrite (same_type _ _ HS) in Ht; discriminate|].
    rewrite (same_from _ _ HS). rewrite (same_s2 _ _ _ HS eq_refl eq_refl) in Hb. inversion Hb; subst b. cbn. auto.
  Qed.
  Lemma hw_body m : HW m -> (m_Type m = MTSign1 -> m_Sign1 m <> None) /\ (m_Type m = MTSign2 -> m_Sign2 m <> None).
  Proof.
    intros (m0 & (i & Hi & [->| ->]) & HS); rewrite (same_type _ _ HS).
    - split; [|discriminate]. intros _. destruct (same_s1 _ _ _ HS eq_refl eq_refl) as (b' & -> & _). discriminate.
    - split; [discriminate|]. intros _. rewrite (same_s2 _ _ _ HS eq_refl eq_refl). discriminate.
  Qed.

  Lemma HU : Forall is_u16 ids. Proof. now apply valid_u16. Qed.
  Lemma ND : List.NoDup ids. Proof. apply Hids. Qed.
  Lemma lamspec i : In i ids -> lam ids i = lagrange_spec i ids.
  Proof.
    intros Hi. pose proof (valid_in ids i Hids Hi). pose proof (C25_lagrange_value ids i HU ltac:(lia) Hi) as E.
    rewrite Lagrange_ok in E by (auto using HU; lia). now apply Ret_inj in E.
  Qed.

  Lemma cl_unique i cl : In i ids -> view_ok HW (rg i) ids (sh i) cl -> cl_eq cl the_commitments.
  Proof.
    intros Hi HV. apply (cl_eq_assoc cl (fun i => (gbmul (d i), gbmul (e i)))); [apply (vo_ids _ _ _ _ _ HV)|].
    intros j D E Hin. destruct (SH i Hi) as [Hid _]. destruct (Z.eq_dec j i) as [->|Hne].
    - rewrite <- Hid in Hin. apply (vo_own _ _ _ _ _ HV) in Hin as [-> ->]. split; reflexivity.
    - destruct (vo_other _ _ _ _ _ HV j D E Hin) as (m & Hm & Hf' & Ht & Hb & _); [now rewrite Hid|].
      destruct (hw_sign1 m _ Hm Ht Hb) as (_ & X). rewrite Hf' in X. exact X.
  Qed.

  Lemma nonce_group : geq (group_nonce message the_commitments) (gbmul the_nonce).
  Proof.
    unfold group_nonce, the_nonce. rewrite <- Gsum_gbmul. unfold the_commitments at 2. rewrite map_map. apply Gsum_map_ext. intros i Hi.
    unfold nonce_point. cbn. gcollapse. reflexivity.
  Qed.
  Lemma challenge_eq i : In i ids -> chal (group_nonce message the_commitments) (pub_GroupKey (pub i)) message = the_challenge.
  Proof. intros Hi. apply chal_proper; [apply nonce_group|now apply KEY]. Qed.

  Lemma own_z_eq i cl : In i ids -> cl_eq cl the_commitments -> own_z (rg i) ids (sh i) (pub i) message cl = the_share i.
  Proof.
    intros Hi HC. transitivity (own_z (rg i) ids (sh i) (pub i) message the_commitments). { unfold own_z. apply sig_share_eq; [exact HC|reflexivity]. }
    clear cl HC. destruct (SH i Hi) as [Hid Hsec]. pose proof (valid_in ids i Hids Hi). unfold own_z, sig_share, the_share. rewrite challenge_eq, Hsec by auto.
    unfold lamS. rewrite Hid, Lagrange_ok by (auto using HU; lia). now rewrite lamspec.
  Qed.

  Lemma weighted_sum i : In i ids -> geq (Gsum (map (lamA ids (pub i)) ids)) (pub_GroupKey (pub i)).
  Proof.
    intros Hi. rewrite (KEY i Hi). rewrite <- peval_spoly, <- (lam_interp ids f) by (auto; unfold degree_le in Hdeg; lia).
    rewrite <- Gsum_gbmul. apply Gsum_map_ext. intros j Hj. destruct (PUB i j Hi Hj) as (A & EA & HA). pose proof (valid_in ids j Hids Hj).
    unfold lamA. rewrite Lagrange_ok, EA by (auto using HU; lia). rewrite HA. gcollapse. rewrite peval_spoly. reflexivity.
  Qed.

  Lemma share_ok i j cl : In i ids -> In j ids -> cl_eq cl the_commitments -> share_valid ids (pub i) message cl j (the_share j).
  Proof.
    intros Hi Hj HC D E Hin. destruct (cl_eq_in _ _ _ _ _ HC Hin) as (D' & E' & Hin' & HD & HE). unfold nonce_point. cbn [fst snd].
    rewrite (binding_eq _ _ _ _ HC), HD, HE, (chal_proper _ _ _ _ message (group_nonce_eq message _ _ HC) (reflexivity (pub_GroupKey (pub i)))).
    clear D E Hin HD HE HC. rename D' into D, E' into E, Hin' into Hin. unfold the_commitments in Hin. apply in_map_iff in Hin as (k & [= -> <- <-] & _).
    rewrite challenge_eq by auto. destruct (PUB i j Hi Hj) as (A & EA & HA). pose proof (valid_in ids j Hids Hj).
    unfold lamA. rewrite Lagrange_ok, EA by (auto using HU; lia). rewrite lamspec by auto. rewrite HA. unfold nonce_point. cbn [fst snd]. gcollapse.
    apply gb_inj. unfold the_share. ring.
  Qed.

  Lemma S_sum : Fsum (map the_share ids) = the_S.
  Proof.
    unfold the_S, the_nonce. rewrite <- (peval_spoly f f0), <- (lam_interp ids f) by (auto; unfold degree_le in Hdeg; lia).
    assert (forall l, incl l ids -> Fsum (map the_share l) =
      fadd (Fsum (map (fun i => fadd (d i) (fmul (binding message the_commitments i) (e i))) l))
           (fmul the_challenge (Fsum (map (fun i => fmul (lam ids i) (peval f (idF i))) l)))) as X.
    { induction l as [|i l IH]; intros Hl; cbn [map].
      - unfold Fsum; cbn [fold_right]. ring.
      - assert (forall a l, Fsum (a :: l) = fadd a (Fsum l)) as Hs by reflexivity. rewrite !Hs, IH by (intros j Hj; apply Hl; now right).
        unfold the_share at 1. rewrite lamspec by (apply Hl; now left). rewrite peval_spoly. unfold idF. ring. }
    apply X. apply incl_refl.
  Qed.

  (** A run of one honest signer among honest messages. *)
  Lemma honest_run i es s out : In i ids -> Forall (event_ok HW) es -> run sign_round (s0 i) es = Ret (s, out) ->
    exists r0, sg_NewRound (rg i) ids (sh i) (pub i) message = Ret r0 /\
      linv sign_round HW r0 (PS HW (rg i) ids (sh i) (pub i) message) (FS HW (rg i) ids (sh i) (pub i) message) s out.
  Proof.
    intros Hi HE E. destruct (NewSignState_round _ _ _ _ _ _ _ _ (NEW i Hi)) as (r0 & E1 & E2). exists r0. split; auto. rewrite E2 in E.
    eapply sign_run; [exact HH|exact E1|exact ND|exact HU|exact HE|exact E].
  Qed.
  Lemma honest_out i es s out : In i ids -> Forall (event_ok HW) es -> run sign_round (s0 i) es = Ret (s, out) -> Forall HU0 out.
  Proof.
    intros Hi HE E. destruct (honest_run i es s out Hi HE E) as (r0 & E1 & HL). destruct (SH i Hi) as [Hid _].
    assert (out_ok HW (rg i) ids (sh i) (pub i) message out) as HO.
    { destruct (st_done s) eqn:D.
      - apply (li_F _ _ _ _ _ _ _ HL D).
      - destruct (li_P _ _ _ _ _ _ _ HL D) as (n & _ & _ & HP). eapply PS_out; eauto. }
    assert (HU0 (own_Sign1 (rg i) (sh i))) as H1. { exists i. split; auto. left. unfold own_Sign1. now rewrite Hid. }
    destruct HO as [->|[->|(cl & HV & ->)]]; [constructor|constructor; [exact H1|constructor]|].
    constructor; [exact H1|]. constructor; [|constructor]. exists i. split; auto. right.
    rewrite (own_z_eq i cl Hi (cl_unique i cl Hi HV)). now rewrite Hid.
  Qed.

  (** * C02 *)
  (** Whatever the network does with the honest messages: nobody aborts except by timeout, and whoever finishes outputs
      R = [r]B, S = r + c s for the same r = sum (d_i + rho_i e_i), c = H(R, Y, m) and the shared secret s = f(0). *)
  (** The same for all nonces: the only other error names a signer, not ourselves, one of whose nonces is 0. *)
  Lemma honest_any i es s out : In i ids -> Forall (event_ok HW) es -> run sign_round (s0 i) es = Ret (s, out) -> st_done s = true ->
    match st_err s with
    | Some err => (pe_PartyID err = 0 /\ pe_text err = "message timeout"%string) \/
        (pe_text err = "commitment Ei or Di was the identity"%string /\ In (pe_PartyID err) ids /\ pe_PartyID err <> i /\ (d (pe_PartyID err) = f0 \/ e (pe_PartyID err) = f0))
    | None => exists sig, sg_output s = Some sig /\ geq (sig_R sig) (gbmul the_nonce) /\ sig_S sig = the_S /\
                Verify (gbmul (spoly f f0)) message sig = true
    end.
  Proof.
    intros Hi HE E D.
    destruct (honest_run i es _ _ Hi HE E) as (r0 & E1 & HL). destruct (SH i Hi) as [Hid Hsec]. pose proof (li_F _ _ _ _ _ _ _ HL D) as [_ HF].
    destruct (st_err s) as [err|].
    - destruct HF as [_ [H|[H|[H|H]]]]; auto.
      + right. destruct H as (Htx & Hin & Hne & m & b & Hm & Hfr & Ht & Hb & Hz). destruct (hw_sign1 m b Hm Ht Hb) as (Hk & H1 & H2). split; [exact Htx|]. split; [exact Hin|]. rewrite Hid in Hne. split; [exact Hne|].
        rewrite <- Hfr. destruct Hz as [Hz|Hz]; [left; rewrite H1 in Hz|right; rewrite H2 in Hz]; apply gb_inj; rewrite <- gb_id; exact Hz.
      + exfalso. destruct H as (_ & Hin & _ & cl & m & b & HV & _ & Hm & Hfr & Ht & Hb & Hz). destruct (hw_sign2 m _ Hm Ht Hb) as (Hk & Hz').
        apply Hz. rewrite Hz', <- Hfr. apply share_ok; auto. now apply (cl_unique i).
      + exfalso. destruct H as (_ & _ & cl & zs & R & HV & HG & HRn & HX). apply HX. destruct (PUB i i Hi Hi) as (A & EA & HA).
        assert (pub_Shares (pub i) !! sh_ID (sh i) = Some A) as EA' by (rewrite Hid; exact EA).
        eapply (full_signature_ok HW _ _ _ _ _ _ E1 ND HU); [exact HV|exact HG|exact EA'| |now apply weighted_sum|exact HRn].
        rewrite Hsec. now symmetry.
    - destruct HF as (cl & zs & sg & H1 & HV & (G1 & G2 & G3) & _ & H3 & H4 & H5). exists sg. split; auto.
      pose proof (cl_unique i cl Hi HV) as HC. split; [rewrite H3, (group_nonce_eq message _ _ HC); apply nonce_group|]. split.
      + rewrite H4, <- S_sum. f_equal. rewrite (assoc_map zs the_share ids G1); [rewrite map_map; apply map_ext; reflexivity|].
        intros j z Hj. destruct (Z.eq_dec j i) as [->|Hne].
        * rewrite <- Hid in Hj. rewrite (G2 z Hj). now apply own_z_eq.
        * destruct (G3 j z Hj) as (_ & m & Hm & Hfr & Ht & Hb); [now rewrite Hid|].
          destruct (hw_sign2 m _ Hm Ht Hb) as (_ & X). rewrite Hfr in X. exact X.
      + apply Verify_iff; auto. eapply schnorr_valid_proper; [symmetry; apply (KEY i Hi)|reflexivity|exact H5].
  Qed.

  Lemma honest_final i es s out : In i ids -> Forall (event_ok HW) es -> run sign_round (s0 i) es = Ret (s, out) -> st_done s = true ->
    match st_err s with
    | Some err => pe_PartyID err = 0 /\ pe_text err = "message timeout"%string
    | None => exists sig, sg_output s = Some sig /\ geq (sig_R sig) (gbmul the_nonce) /\ sig_S sig = the_S /\
                Verify (gbmul (spoly f f0)) message sig = true
    end.
  Proof.
    intros Hi HE E D. pose proof (honest_any i es s out Hi HE E D) as X. destruct (st_err s) as [err|]; [|exact X].
    destruct X as [X|(_ & Hk & _ & X)]; [exact X|]. destruct (NZ _ Hk). destruct X; contradiction.
  Qed.

  Theorem C02_honest : forall c i, net_reach sign_round ids (mkConfig s0 []) c -> In i ids -> st_done (cf_state c i) = true ->
    match st_err (cf_state c i) with
    | Some err => pe_PartyID err = 0 /\ pe_text err = "message timeout"%string
    | None => exists sig, sg_output (cf_state c i) = Some sig /\ geq (sig_R sig) (gbmul the_nonce) /\ sig_S sig = the_S /\
                Verify (gbmul (spoly f f0)) message sig = true
    end.
  Proof.
    intros c i HR Hi D. destruct (net_local_W sign_round HU0 HW ids s0 c HUW honest_out HR i) as (es & out & HE & E).
    exact (honest_final i es _ _ Hi HE E D).
  Qed.

  (** No call of an honest signer ever crashes: every event with an emitted message is a step. *)
  Theorem C02_no_crash : forall c i ev, net_reach sign_round ids (mkConfig s0 []) c -> In i ids ->
    (forall nw m, ev = EHandle nw m -> exists m0, In m0 (cf_sent c) /\ same_msg m0 m) -> exists s' o, step sign_round (cf_state c i) ev = Ret (s', o).
  Proof.
    intros c i ev HR Hi He. destruct (net_local_W sign_round HU0 HW ids s0 c HUW honest_out HR i) as (es & out & HE & E).
    pose proof (net_closed sign_round HU0 HW ids s0 c HUW honest_out HR) as HF.
    destruct (NewSignState_round _ _ _ _ _ _ _ _ (NEW i Hi)) as (r0 & E1 & E2).
    destruct (sign_nopanic HH HW (rg i) ids (sh i) (pub i) message r0 E1 ND HU) with (now := now i) (t := timeout i) (es := es ++ [ev]) as (s & o & E' & _).
    - intros m Hm. now apply hw_body.
    - apply Forall_app. split; auto. constructor; [|constructor]. destruct ev; cbn; auto. rewrite List.Forall_forall in HF. destruct (He _ _ eq_refl) as (m0 & X & Y). eapply HUW; eauto.
    - rewrite <- E2, run_app, E in E'. cbn [obind fst snd run] in E'. destruct (step sign_round (cf_state c i) ev) as [[s' o']| |]; eauto; discriminate.
  Qed.

  Lemma honest_noerr i es s out : In i ids -> Forall (event_ok HW) es -> run sign_round (s0 i) es = Ret (s, out) -> st_done s = true ->
    match st_err s with
    | Some err => pe_PartyID err = 0 /\ pe_text err = "message timeout"%string
    | None => True
    end.
  Proof. intros Hi HE E D. pose proof (honest_final i es s out Hi HE E D) as X. destruct (st_err s) as [err|]; auto. Qed.

  (** An execution in which every signer finishes without error exists for all keys, messages, signer sets and randomness. *)
  Theorem C02_completes : sorted ids -> exists c, net_reach sign_round ids (mkConfig s0 []) c /\
    forall i, In i ids -> st_done (cf_state c i) = true /\ st_err (cf_state c i) = None.
  Proof.
    intros HS.
    destruct (choice_ids (fun i r => sg_NewRound (rg i) ids (sh i) (pub i) message = Ret r /\ s0 i = NewBaseState sign_round (now i) (timeout i) r) ids
       (mkSround 0 0 [] [] ∅ gid f0 f0 f0 f0 gid true None (rg 0))) as [r0 Hr0].
    { intros i Hi. destruct (NewSignState_round _ _ _ _ _ _ _ _ (NEW i Hi)) as (r & A & B). eauto. }
    assert (forall i n r out, PS HW (rg i) ids (sh i) (pub i) message n r out -> (n < 3)%nat) as HP3.
    { intros i n r out (_ & _ & H). destruct n as [|[|[|n]]]; [lia|lia|lia|contradiction]. }
    apply (net_completes sign_round ids HS Hids HW now timeout r0 (fun i => PS HW (rg i) ids (sh i) (pub i) message) (fun i => FS HW (rg i) ids (sh i) (pub i) message) s0) with
      (t0 := MTNone) (t1 := MTSign1) (t2 := MTSign2) (M1 := fun i => NewSign1 i (gbmul (d i)) (gbmul (e i))) (M2 := fun i j => NewSign2 i (the_share i)).
    - intros i Hi. apply (Hr0 i Hi).
    - intros i Hi. destruct (Hr0 i Hi) as [Ea Eb]. destruct (new_round HW _ _ _ _ _ _ Ea) as (_ & _ & _ & _ & X & _). destruct (SH i Hi) as [Hid _]. cbn [sign_round r_self r_ids]. split; [rewrite <- Hid at 2|]; apply X.
    - intros i es s out Hi HE E. destruct (Hr0 i Hi) as [Ea Eb]. rewrite Eb in E. eapply sign_run; eauto using ND, HU.
    - intros i sched sched' es Hi HE. destruct (Hr0 i Hi) as [Ea Eb]. rewrite Eb.
      destruct (sign_nopanic HH HW (rg i) ids (sh i) (pub i) message (r0 i) Ea ND HU) with (now := now i) (t := timeout i) (es := EProcess sched sched' :: es) as (s & o & E' & _); eauto.
      + intros m Hm. now apply hw_body.
      + constructor; cbn; auto.
    - exact HP3.
    - reflexivity.
    - intros i Hi. split; [apply HUW0; exists i; auto|]. repeat split; reflexivity.
    - intros i j Hi Hj Hne. split; [|cbn; auto]. apply HUW0. exists i. split; auto.
    - intros i n r out Hi (_ & _ & H) Hn. destruct (SH i Hi) as [Hid _]. destruct n as [|[|[|n]]]; [lia| | |contradiction].
      + destruct H as (_ & ->). left. unfold own_Sign1. now rewrite Hid.
      + destruct H as (_ & _ & ->). left. unfold own_Sign1. now rewrite Hid.
    - intros i n r out Hi HP Hn j Hj. destruct (SH i Hi) as [Hid _].
      destruct (PS_out _ _ _ _ _ _ _ _ _ HP) as [->|[->|(cl & HV & ->)]].
      + destruct HP as (_ & _ & H). destruct n as [|[|[|n]]]; [lia|lia| |contradiction]. now destruct H as (_ & _ & H).
      + destruct HP as (_ & _ & H). destruct n as [|[|[|n]]]; [lia|lia| |contradiction]. now destruct H as (_ & _ & H).
      + right. left. rewrite (own_z_eq i cl Hi (cl_unique i cl Hi HV)). now rewrite Hid.
    - intros i r out Hi [_ H]. destruct (SH i Hi) as [Hid _]. destruct H as (cl & zs & sg & _ & HV & _ & -> & _).
      split; [left; unfold own_Sign1; now rewrite Hid|]. intros j Hj. right. left. rewrite (own_z_eq i cl Hi (cl_unique i cl Hi HV)). now rewrite Hid.
    - intros i es s out Hi HE HC E. destruct (st_err s) as [err|] eqn:Er; auto. exfalso.
      destruct (honest_run i es s out Hi HE E) as (r & E1 & HL). destruct (Hr0 i Hi) as [Ea Eb].
      assert (st_done s = true) as D. { destruct (st_done s) eqn:D; auto. rewrite (inv_err _ s (li_inv _ _ _ _ _ _ _ HL) D) in Er. discriminate. }
      pose proof (honest_noerr i es s out Hi HE E D) as H. rewrite Er in H. destruct H as [_ H].
      destruct (run_err_source sign_round sign_round_ok es (s0 i) s out err E) as [(r1 & m & r' & c & X)|(sc & r1 & r' & c & X)]; auto.
      + rewrite Eb. apply inv_init.
      + rewrite Eb. reflexivity.
      + now apply sg_process_text in X.
      + now apply sg_generate_text in X.
  Qed.
End Honest.

(** * C09 for signing *)
Section Blame.
  Context `{L : group_laws} `{Hf : hash_fn} (HH : hash_ok Hf).
  Context (ids : list Z) (message : list byte) (ND : List.NoDup ids) (HU : Forall is_u16 ids).
  (** Two parties: ours, and an honest [j]; the others are arbitrary. *)
  Context (rg rgj : rng) (now nowj t tj : Z) (sec secj : SecretShare) (pub pubj : Public) (s0 s0j : State sround).
  Context (NEW : NewSignState rg now t ids sec pub message = Ret s0) (NEWj : NewSignState rgj nowj tj ids secj pubj message = Ret s0j).
  Notation j := (sh_ID secj).
  (** Same group key, and j's secret matches the public share we have for it; j's nonces are not 0. *)
  Context (KEY : geq (pub_GroupKey pub) (pub_GroupKey pubj)).
  Context (SHARE : exists A, pub_Shares pub !! j = Some A /\ geq A (gbmul (sh_Secret secj))).
  Context (NZ : SetScalarRandom rgj 0 <> f0 /\ SetScalarRandom rgj 1 <> f0).
  Context (es esj : list event) (s sj : State sround) (out outj : list Message).
  Context (RUN : run sign_round s0 es = Ret (s, out)) (RUNj : run sign_round s0j esj = Ret (sj, outj)).
  (** What we were given in j's name was sent by j (it may have been marshalled on the way). *)
  Context (AUTH : forall m, given es m -> m_From m = j -> exists m0, In m0 outj /\ same_msg m0 m).
  (** Commitments are broadcast: everybody is given the same ones by the same sender (and those a party sent itself). *)
  Context (BC : forall m m' b b', given es m \/ In m out -> given esj m' \/ In m' outj -> m_Type m = MTSign1 -> m_Type m' = MTSign1 ->
     m_From m = m_From m' -> m_Sign1 m = Some b -> m_Sign1 m' = Some b' -> geq (s1_Di b) (s1_Di b') /\ geq (s1_Ei b) (s1_Ei b')).

  Theorem C09_sign_blame : forall err, st_err s = Some err -> pe_PartyID err <> j.
  Proof.
    intros err Er Hj.
    destruct (NewSignState_round _ _ _ _ _ _ _ _ NEW) as (r0 & E1 & _). destruct (NewSignState_round _ _ _ _ _ _ _ _ NEWj) as (r0j & E1j & _).
    assert (In j ids) as Hin by exact (proj1 (new_round (given esj) _ _ _ _ _ _ E1j)).
    assert (j <> 0) as Hj0. { destruct (new_round (given esj) _ _ _ _ _ _ E1j) as (_ & _ & H & _). now apply H. }
    destruct (C10_blame HH rg now t ids sec pub message s0 NEW ND HU es s out RUN err Er) as (_ & Hns & HB); [congruence|]. rewrite Hj in *.
    set (d := SetScalarRandom rgj 0) in *. set (e := SetScalarRandom rgj 1) in *.
    (* the messages of j *)
    assert (forall m b, given es m -> m_From m = j -> m_Type m = MTSign1 -> m_Sign1 m = Some b -> geq (s1_Di b) (gbmul d) /\ geq (s1_Ei b) (gbmul e)) as K1.
    { intros m b G1 G2 Gt Gb. destruct (AUTH m G1 G2) as (m0 & Hm0 & HS).
      destruct (C14_same_nonces HH rgj nowj tj ids secj pubj message s0j NEWj ND HU esj sj outj RUNj) as [O|[O|(clj & HVj & O)]]; rewrite O in Hm0.
      - destruct Hm0.
      - destruct Hm0 as [<-|[]]. destruct (same_s1 _ _ _ HS eq_refl eq_refl) as (b' & X1 & X2). rewrite Gb in X1. inversion X1; subst b'. exact X2.
      - destruct Hm0 as [<-|[<-|[]]].
        + destruct (same_s1 _ _ _ HS eq_refl eq_refl) as (b' & X1 & X2). rewrite Gb in X1. inversion X1; subst b'. exact X2.
        + rewrite (same_type _ _ HS) in Gt. discriminate. }
    destruct HB as [(m & b & G1 & G2 & Gt & G3 & G4)|(cl & m & z & HV & HOut & G1 & G2 & Gt & G3 & HX)].
    { destruct (K1 m b G1 G2 Gt G3) as [X1 X2]. destruct G4 as [G4|G4]; [rewrite X1 in G4|rewrite X2 in G4]; rewrite gb_id in G4; apply gb_inj in G4; tauto. }
    destruct (AUTH m G1 G2) as (m0 & Hm0 & HS).
    destruct (C14_same_nonces HH rgj nowj tj ids secj pubj message s0j NEWj ND HU esj sj outj RUNj) as [O|[O|(clj & HVj & O)]]; rewrite O in Hm0.
    { destruct Hm0. } { destruct Hm0 as [<-|[]]. rewrite (same_type _ _ HS) in Gt. discriminate. }
    destruct Hm0 as [<-|[<-|[]]]; [rewrite (same_type _ _ HS) in Gt; discriminate|].
    rewrite (same_s2 _ _ _ HS eq_refl eq_refl) in G3. inversion G3; subst z. clear G3. apply HX.
    assert (cl_eq cl clj) as HC.
    { rewrite (assoc_map clj (fun i => match find (fun x => fst x =? i) clj with Some x => snd x | None => (gid, gid) end) ids (co_ids _ _ _ _ _ _ HVj)).
      2:{ intros i x Hx. rewrite (find_fst clj i x); auto. rewrite (co_ids _ _ _ _ _ _ HVj). exact ND. }
      apply cl_eq_assoc; [apply HV|]. intros i D E Hic.
      assert (In i ids) as Hii. { rewrite <- (co_ids _ _ _ _ _ _ HV). now apply (in_map fst) in Hic. }
      rewrite <- (co_ids _ _ _ _ _ _ HVj) in Hii. apply In_fst in Hii as [[D' E'] Hin']. rewrite (find_fst clj i (D', E')); auto.
      2:{ rewrite (co_ids _ _ _ _ _ _ HVj). exact ND. }
      cbn [snd fst].
      assert (exists m2, (given es m2 \/ In m2 out) /\ m_From m2 = i /\ m_Type m2 = MTSign1 /\ m_Sign1 m2 = Some (mkSign1 D E)) as (m2 & P1 & P2 & P3 & P4).
      { destruct (Z.eq_dec i (sh_ID sec)) as [->|Hne].
        - apply (co_own _ _ _ _ _ _ HV) in Hic as [-> ->]. eexists. split; [right; exact HOut|]. cbn. auto.
        - destruct (co_other _ _ _ _ _ _ HV i D E Hic Hne) as (m2 & Q1 & Q2 & Q3 & Q4 & _). exists m2. auto. }
      assert (exists m3, (given esj m3 \/ In m3 outj) /\ m_From m3 = i /\ m_Type m3 = MTSign1 /\ m_Sign1 m3 = Some (mkSign1 D' E')) as (m3 & R1 & R2 & R3 & R4).
      { destruct (Z.eq_dec i j) as [->|Hne].
        - apply (co_own _ _ _ _ _ _ HVj) in Hin' as [-> ->]. eexists. split; [right; rewrite O; left; reflexivity|]. cbn. auto.
        - destruct (co_other _ _ _ _ _ _ HVj i D' E' Hin' Hne) as (m3 & Q1 & Q2 & Q3 & Q4 & _). exists m3. auto. }
      exact (BC m2 m3 _ _ P1 R1 P3 R3 ltac:(congruence) P4 R4). }
    intros D E Hin'. destruct (cl_eq_in _ _ _ _ _ HC Hin') as (D' & E' & Hin2 & HD & HE).
    apply (co_own _ _ _ _ _ _ HVj) in Hin2 as [-> ->]. destruct SHARE as (A & EA & HA).
    unfold weighted. rewrite EA. rewrite <- (sig_share_eq message cl clj _ _ j _ _ _ _ HC KEY). unfold sig_share.
    rewrite HA. unfold nonce_point. cbn [fst snd]. rewrite HD, HE. gcollapse. apply gb_inj. ring.
  Qed.
End Blame.

(** ** A concrete case: signers 1 and 3 of the toy key, f(x) = 5 + 3x *)
Definition ts0 (i : Z) : tsstate := match ts_new s13 i 0 with Ret s => s | _ => @NewBaseState toy_group tsround tsg 0 0
  (@mkSround toy_group 0 0 [] [] ∅ f0 f0 f0 f0 f0 f0 true None (toy_rng 0)) end.
Definition ts_schedule : list act :=
  [AProcess 1; AProcess 3; ADeliver 3 0; ADeliver 1 1; ADeliver 1 0; ADeliver 1 1; AProcess 3; AProcess 1; ADeliver 1 2; ADeliver 3 3; AProcess 1; AProcess 3].
Lemma ret_default {A} (x : outcome A) (dflt : A) : match x with Ret _ => true | _ => false end = true -> x = Ret (match x with Ret a => a | _ => dflt end).
Proof. destruct x; [reflexivity|discriminate|discriminate]. Qed.
Example C02_example :
  (* the hypotheses of C02_honest hold of it ... *)
  degree_le 1 [qof 5; qof 3] /\ valid_ids s13 /\
  (forall i, In i s13 -> sh_ID (t_secret i) = i /\ sh_Secret (t_secret i) = spoly [qof 5; qof 3] (qof i)) /\
  (forall i j, In i s13 -> In j s13 -> exists A, pub_Shares t_public !! j = Some A /\ @geq toy_group A (@gbmul toy_group (spoly [qof 5; qof 3] (qof j)))) /\
  @geq toy_group (pub_GroupKey t_public) (@gbmul toy_group (spoly [qof 5; qof 3] f0)) /\
  (forall i, In i s13 -> @NewSignState toy_group toy_hash (toy_rng i) 0 0 s13 (t_secret i) t_public t_message = Ret (ts0 i)) /\
  (forall i, In i s13 -> SetScalarRandom (toy_rng i) 0 <> f0 /\ SetScalarRandom (toy_rng i) 1 <> f0) /\
  (* ... and both finish with a signature in this execution, with a duplicate and a looped-back message *)
  match @net_exec toy_group tsround tsg s13 (@mkConfig toy_group tsround ts0 []) ts_schedule with
  | Some c => map (fun i => (st_done (cf_state c i), match st_err (cf_state c i) with None => true | _ => false end)) s13
  | None => [] end = [(true, true); (true, true)].
Proof.
  split; [unfold degree_le; cbn; lia|]. split. { split; repeat constructor; cbn; lia. }
  split. { intros i [<-|[<-|[]]]; split; try reflexivity; apply feqb_eq; vm_compute; reflexivity. }
  split. { intros i j _ [<-|[<-|[]]]; eexists; (split; [vm_compute; reflexivity|vm_compute; reflexivity]). }
  split; [vm_compute; reflexivity|].
  split. { intros i [<-|[<-|[]]]; apply ret_default; vm_compute; reflexivity. }
  split. { intros i [<-|[<-|[]]]; split; intros E; apply (f_equal fz) in E; vm_compute in E; discriminate. }
  vm_compute. reflexivity.
Qed.

Print Assumptions C02_honest.
Print Assumptions C02_no_crash.
Print Assumptions C02_completes.
Print Assumptions C09_sign_blame.
