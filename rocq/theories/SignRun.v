(** The signing run of one party, in terms of the signature's formulas, against arbitrary peers. *)
From Coq Require Import ZArith Lia List Bool String Permutation Ring Setoid Morphisms.
From Coq.Strings Require Import Byte.
From stdpp Require Import base gmap list fin_maps.
From Verif Require Import ZField Primes Bytes Scalar Go Group Party Poly PolyFacts Zk Eddsa Messages State StateFacts Keygen Sign RoundFacts Lift Spec_Poly PolyAlg Spec_Group Spec_Wire Spec_Sign SignFacts.
Import ListNotations.
Local Open Scope Z_scope.

Section SignRun.
  Context `{L : group_laws} `{Hf : hash_fn} (HH : hash_ok Hf).

  Local Opaque SetScalarRandom.
  Lemma ComputeChallenge_chal R Y m : ComputeChallenge R Y m = chal R Y m.
  Proof. unfold ComputeChallenge, scalar_set_uniform, chal, hash_scalar. rewrite HH. reflexivity. Qed.
  Lemma chal_proper R R' Y Y' m : geq R R' -> geq Y Y' -> chal R Y m = chal R' Y' m.
  Proof. intros E1 E2. unfold chal. now rewrite E1, E2. Qed.

  Lemma Verify_iff Y m sg : Verify Y m sg = true <-> schnorr_valid Y m (sig_R sg) (sig_S sg).
  Proof.
    unfold Verify, schnorr_valid. cbv zeta. rewrite ComputeChallenge_chal. destruct sg as [R s]. cbn [sig_R sig_S].
    change (geqb ?a ?b = true) with (geq a b). generalize (chal R Y m). intros c.
    glog R. glog Y. unfold gdsmul. rewrite Elg, Elg0. gcollapse. rewrite !gb_inj.
    split; intros E; [rewrite <- E; ring|rewrite E; ring].
  Qed.
  Lemma schnorr_valid_proper Y Y' m R R' s : geq Y Y' -> geq R R' -> schnorr_valid Y m R s <-> schnorr_valid Y' m R' s.
  Proof. intros E1 E2. unfold schnorr_valid. rewrite (chal_proper _ _ _ _ m E2 E1). now rewrite E1, E2. Qed.

  (** The test on a signature share. *)
  Lemma share_check_iff C p z : share_check C p z = true <-> geq (gbmul z) (gadd (sg_Ri p) (gsmul C (sg_Public p))).
  Proof.
    unfold share_check. change (geqb ?a ?b = true) with (geq a b). destruct p as [Pu Di Ei Ri Pi Zi]. cbn [sg_Ri sg_Public].
    glog Ri. glog Pu. unfold gdsmul. rewrite Elg, Elg0. gcollapse. rewrite !gb_inj.
    split; intros E; [rewrite <- E; ring|rewrite E; ring].
  Qed.

  Lemma rho_B_ok ps ids : (forall i, In i ids -> exists p, ps !! i = Some p) -> rho_B ps ids = Ret (enc_list (cl_of ps ids)).
  Proof.
    intros H. unfold rho_B. rewrite rho_B_fold by auto. cbn [app]. f_equal. unfold enc_list. f_equal. apply map_ext. intros x. now rewrite id_bytes_hi_lo.
  Qed.

  Lemma computeRhos_ok r : (forall i, In i (sr_ids r) -> exists p, sr_Parties r !! i = Some p) ->
    exists ps, computeRhos r = Ret ps /\
      (forall i, ~ In i (sr_ids r) -> ps !! i = sr_Parties r !! i) /\
      (forall i p, In i (sr_ids r) -> sr_Parties r !! i = Some p ->
         ps !! i = Some (mkSigner (sg_Public p) (sg_Di p) (sg_Ei p) (sg_Ri p)
                          (binding (sr_Message r) (cl_of (sr_Parties r) (sr_ids r)) i) (sg_Zi p))).
  Proof.
    intros H. unfold computeRhos. rewrite rho_B_ok by auto. cbn [obind]. set (cl := cl_of _ _).
    assert (forall old i, scalar_set_uniform old (sha512 (rho_buffer (sr_Message r) (enc_list cl) i)) = binding (sr_Message r) cl i) as Hb.
    { intros old i. unfold scalar_set_uniform. rewrite HH. cbn [Nat.eqb]. unfold binding, hash_scalar, rho_buffer. rewrite id_bytes_hi_lo. reflexivity. }
    clearbody cl.
    assert (forall l (ps0 : gmap Z signer), (forall i, In i l -> exists p, ps0 !! i = Some p) -> exists ps,
      ofold (fun (ps : gmap Z signer) id => match ps !! id with None => Panics "nil signer" | Some p =>
        let rho := scalar_set_uniform (sg_Pi p) (sha512 (rho_buffer (sr_Message r) (enc_list cl) id)) in
        Ret (<[id := mkSigner (sg_Public p) (sg_Di p) (sg_Ei p) (sg_Ri p) rho (sg_Zi p)]> ps) end) ps0 l = Ret ps /\
      (forall i, ~ In i l -> ps !! i = ps0 !! i) /\
      (forall i p, In i l -> ps0 !! i = Some p ->
         ps !! i = Some (mkSigner (sg_Public p) (sg_Di p) (sg_Ei p) (sg_Ri p) (binding (sr_Message r) cl i) (sg_Zi p)))) as X.
    { induction l as [|i l IH]; intros ps0 H0; cbn [ofold].
      - exists ps0. repeat split; auto. contradiction.
      - destruct (H0 i ltac:(left; auto)) as [p Ep]. rewrite Ep. cbn [obind]. cbv zeta. rewrite Hb.
        set (p' := mkSigner _ _ _ _ _ _). destruct (IH (<[i := p']> ps0)) as (ps & E & A & B).
        { intros j Hj. destruct (Z.eq_dec i j) as [->|Hne]; [rewrite lookup_insert; eauto|]. rewrite lookup_insert_ne by auto. apply H0. right; auto. }
        exists ps. split; [exact E|]. split.
        + intros j Hj. rewrite A by (intros X; apply Hj; right; auto). rewrite lookup_insert_ne; auto. intros ->. apply Hj. left; auto.
        + intros j q Hj Eq. destruct (Z.eq_dec i j) as [->|Hne].
          * assert (q = p) as -> by congruence. destruct (in_dec Z.eq_dec j l) as [Hin|Hin].
            -- rewrite (B j p' Hin (lookup_insert _ _ _)). reflexivity.
            -- rewrite (A j Hin). rewrite lookup_insert. reflexivity.
          * destruct Hj as [Hj|Hj]; [contradiction|]. apply B; auto. rewrite lookup_insert_ne; auto. }
    exact (X (sr_ids r) (sr_Parties r) H).
  Qed.

  Lemma sum_R_Gsum ps order : (forall i, In i order -> exists p, ps !! i = Some p) ->
    geq (sum_R ps order) (Gsum (map (fun i => match ps !! i with Some p => sg_Ri p | None => gid end) order)).
  Proof.
    intros H. unfold sum_R. assert (forall l acc, (forall i, In i l -> exists p, ps !! i = Some p) ->
      geq (fold_left (fun acc id => match ps !! id with Some p => gadd acc (sg_Ri p) | None => acc end) l acc)
          (gadd acc (Gsum (map (fun i => match ps !! i with Some p => sg_Ri p | None => gid end) l)))) as X.
    { induction l as [|i l IH]; intros acc Hl; cbn.
      - now rewrite gadd_id_r.
      - destruct (Hl i ltac:(left; auto)) as [p Ep]. rewrite Ep. rewrite IH by (intros j Hj; apply Hl; right; auto).
        rewrite <- gadd_assoc. reflexivity. }
    rewrite X by auto. apply gadd_id_l.
  Qed.
  Lemma sum_Z_Fsum ps order : (forall i, In i order -> exists p, ps !! i = Some p) ->
    sum_Z ps order = Fsum (map (fun i => match ps !! i with Some p => sg_Zi p | None => f0 end) order).
  Proof.
    intros H. unfold sum_Z. assert (forall l acc, (forall i, In i l -> exists p, ps !! i = Some p) ->
      fold_left (fun acc id => match ps !! id with Some p => fadd acc (sg_Zi p) | None => acc end) l acc =
          fadd acc (Fsum (map (fun i => match ps !! i with Some p => sg_Zi p | None => f0 end) l))) as X.
    { induction l as [|i l IH]; intros acc Hl; cbn [fold_left map].
      - change (Fsum []) with 0%Fq. ring.
      - destruct (Hl i ltac:(left; auto)) as [p Ep]. rewrite Ep. rewrite IH by (intros j Hj; apply Hl; right; auto).
        assert (forall x t, Fsum (x :: t) = fadd x (Fsum t)) as -> by reflexivity. ring. }
    rewrite X by auto. ring.
  Qed.

  (** ** The run of one party *)
  Section Party.
    Context (W : Message -> Prop).
    Context (rg : rng) (ids : list Z) (secret : SecretShare) (shares : Public) (message : list byte) (r0 : sround).
    Context (NEW : sg_NewRound rg ids secret shares message = Ret r0) (ND : List.NoDup ids) (HU : Forall is_u16 ids).
    Notation self := (sh_ID secret).
    Notation gk := (pub_GroupKey shares).
    Definition d0 : Fq := SetScalarRandom rg 0.
    Definition e0 : Fq := SetScalarRandom rg 1.
    (** lambda_i A_i *)
    Definition lamA (i : Z) : G :=
      match Lagrange i ids, pub_Shares shares !! i with Ret l, Some A => gsmul l A | _, _ => gid end.
    Definition lamS : Fq := match Lagrange self ids with Ret l => l | _ => f0 end.
    Definition own_Sign1 : Message := NewSign1 self (gbmul d0) (gbmul e0).

    (** What the party knows after round 1: its own commitments and one pair per peer, all from messages it was given. *)
    Record view_ok (cl : commitment_list) : Prop := {
      vo_ids : map fst cl = ids;
      vo_own : forall D E, In (self, (D, E)) cl -> D = gbmul d0 /\ E = gbmul e0;
      vo_other : forall i D E, In (i, (D, E)) cl -> i <> self ->
        exists m, W m /\ m_From m = i /\ m_Type m = MTSign1 /\ m_Sign1 m = Some (mkSign1 D E) /\ ~ geq D gid /\ ~ geq E gid
    }.
    (** The equation a share of party [i] must satisfy. *)
    Definition share_valid (cl : commitment_list) (i : Z) (z : Fq) : Prop :=
      forall D E, In (i, (D, E)) cl ->
        geq (gbmul z) (gadd (nonce_point message cl (i, (D, E))) (gsmul (chal (group_nonce message cl) gk message) (lamA i))).
    Definition own_z (cl : commitment_list) : Fq := sig_share message cl gk self d0 e0 lamS (sh_Secret secret).

    Record sbase (r : sround) : Prop := {
      sb_self : sr_self r = self; sb_ids : sr_ids r = ids; sb_gk : sr_GroupKey r = gk; sb_msg : sr_Message r = message;
      sb_outp : sr_outp r = true; sb_out : sr_out r = None; sb_rng : sr_rng r = rg;
      sb_sk : sr_SecretKeyShare r = fmul lamS (sh_Secret secret);
      sb_dom : forall i, In i ids <-> exists p, sr_Parties r !! i = Some p;
      sb_pub : forall i p, sr_Parties r !! i = Some p -> sg_Public p = lamA i
    }.
    Record nonces (r : sround) : Prop := {
      nn_d : sr_d r = d0; nn_e : sr_e r = e0;
      nn_own : forall p, sr_Parties r !! self = Some p -> sg_Di p = gbmul d0 /\ sg_Ei p = gbmul e0
    }.
    Record phase2 (r : sround) : Prop := {
      p2_view : view_ok (cl_of (sr_Parties r) ids);
      p2_Ri : forall i p, sr_Parties r !! i = Some p ->
        sg_Ri p = gadd (gsmul (binding message (cl_of (sr_Parties r) ids) i) (sg_Ei p)) (sg_Di p);
      p2_R : geq (sr_R r) (group_nonce message (cl_of (sr_Parties r) ids));
      p2_C : sr_C r = chal (sr_R r) gk message;
      p2_Z : forall p, sr_Parties r !! self = Some p -> sg_Zi p = own_z (cl_of (sr_Parties r) ids)
    }.
    Definition PS (n : nat) (r : sround) (out : list Message) : Prop :=
      sbase r /\ sr_no r = n /\
      match n with
      | 0%nat => out = []
      | 1%nat => nonces r /\ out = [own_Sign1]
      | 2%nat => nonces r /\ phase2 r /\ out = [own_Sign1; NewSign2 self (own_z (cl_of (sr_Parties r) ids))]
      | _ => False
      end.

    Definition out_ok (out : list Message) : Prop :=
      out = [] \/ out = [own_Sign1] \/ exists cl, view_ok cl /\ out = [own_Sign1; NewSign2 self (own_z cl)].

    (** Given shares: for each peer one that came in a message. *)
    Definition shares_given (cl : commitment_list) (zs : list (Z * Fq)) : Prop :=
      map fst zs = ids /\ (forall z, In (self, z) zs -> z = own_z cl) /\
      (forall i z, In (i, z) zs -> i <> self ->
         share_valid cl i z /\ exists m, W m /\ m_From m = i /\ m_Type m = MTSign2 /\ m_Sign2 m = Some (mkSign2 z)).

    Definition err_ok (e : PError) (out : list Message) : Prop :=
      (pe_PartyID e = 0 /\ pe_text e = "message timeout"%string) \/
      (pe_text e = "commitment Ei or Di was the identity"%string /\ In (pe_PartyID e) ids /\ pe_PartyID e <> self /\
         exists m b, W m /\ m_From m = pe_PartyID e /\ m_Type m = MTSign1 /\ m_Sign1 m = Some b /\ (geq (s1_Di b) gid \/ geq (s1_Ei b) gid)) \/
      (pe_text e = "signature share is invalid"%string /\ In (pe_PartyID e) ids /\ pe_PartyID e <> self /\
         exists cl m b, view_ok cl /\ out = [own_Sign1; NewSign2 self (own_z cl)] /\
           W m /\ m_From m = pe_PartyID e /\ m_Type m = MTSign2 /\ m_Sign2 m = Some b /\ ~ share_valid cl (pe_PartyID e) (s2_Zi b)) \/
      (pe_text e = "full signature is invalid"%string /\ pe_PartyID e = 0 /\
         exists cl zs R, view_ok cl /\ shares_given cl zs /\ geq R (group_nonce message cl) /\ ~ schnorr_valid gk message R (Fsum (map snd zs))).

    Definition FS (r : sround) (err : option PError) (out : list Message) : Prop :=
      out_ok out /\
      match err with
      | None => exists cl zs sg, sr_out r = Some sg /\ view_ok cl /\ shares_given cl zs /\ out = [own_Sign1; NewSign2 self (own_z cl)] /\
                  geq (sig_R sg) (group_nonce message cl) /\ sig_S sg = Fsum (map snd zs) /\ schnorr_valid gk message (sig_R sg) (sig_S sg)
      | Some e => sr_out r = None /\ err_ok e out
      end.

    (** *** Setting up *)
    Lemma setup_fold l : forall (acc ps : gmap Z signer),
      ofold (fun (acc : gmap Z signer) id =>
        if id =? 0 then Fail "base.NewRound: id 0 is not valid" else
        obind (Lagrange id ids) (fun lagrange =>
        match pub_Shares shares !! id with
        | None => Panics "nil element"
        | Some originalShare => Ret (<[id := mkSigner (gsmul lagrange originalShare) gid gid gid f0 f0]> acc)
        end)) acc l = Ret ps ->
      (forall i, In i l -> ps !! i = Some (mkSigner (lamA i) gid gid gid f0 f0) /\ i <> 0 /\
         exists lg A, Lagrange i ids = Ret lg /\ pub_Shares shares !! i = Some A) /\
      (forall i, ~ In i l -> ps !! i = acc !! i).
    Proof.
      induction l as [|i l IH]; intros acc ps; cbn [ofold].
      - intros E. apply Ret_inj in E. subst. split; auto. contradiction.
      - destruct (Z.eqb_spec i 0); [discriminate|]. destruct (Lagrange i ids) as [lg| |] eqn:El; cbn [obind]; try discriminate.
        destruct (pub_Shares shares !! i) as [A|] eqn:EA; cbn [obind]; [|discriminate]. intros E. apply IH in E as [X Y].
        assert (lamA i = gsmul lg A) as Hl. { unfold lamA. now rewrite El, EA. }
        split.
        + intros j [<-|Hj]; [|now apply X]. destruct (in_dec Z.eq_dec i l) as [Hin|Hin]; [now apply X|].
          rewrite (Y i Hin), lookup_insert, Hl. split; auto. split; auto. eauto.
        + intros j Hj. rewrite Y by (intros Hx; apply Hj; right; auto). rewrite lookup_insert_ne; auto. intros ->. apply Hj. left; auto.
    Qed.

    Lemma new_round : In self ids /\ (forall i, In i ids -> In i (pub_PartyIDs shares)) /\
      (forall i, In i ids -> i <> 0 /\ exists lg A, Lagrange i ids = Ret lg /\ pub_Shares shares !! i = Some A) /\
      (exists l, Lagrange self ids = Ret l) /\ PS 0 r0 [].
    Proof.
      revert NEW. unfold sg_NewRound. destruct (Contains ids self) eqn:EC; cbn [negb]; [|discriminate].
      destruct (IsSubsetOf ids (pub_PartyIDs shares)) eqn:ES; cbn [negb]; [|discriminate]. intros E.
      apply obind_ret in E as (ps & E1 & E2). apply obind_ret in E2 as (lg & E2 & E3). apply Ret_inj in E3. subst r0.
      apply setup_fold in E1 as [X Y]. split; [now apply Contains_true_In|]. split.
      { intros i Hi. unfold IsSubsetOf in ES. rewrite forallb_forall in ES. now apply Contains_true_In, ES. }
      split. { intros i Hi. destruct (X i Hi) as (_ & A & B). auto. }
      split; [eauto|]. split; [|split; [reflexivity|reflexivity]].
      split; cbn; auto.
      - unfold lamS. now rewrite E2.
      - intros i. split.
        + intros Hi. destruct (X i Hi) as [Z0 _]. eauto.
        + intros [p Hp]. destruct (in_dec Z.eq_dec i ids); auto. rewrite (Y i) in Hp by auto. rewrite lookup_empty in Hp. discriminate.
      - intros i p Hp. destruct (in_dec Z.eq_dec i ids) as [Hi|Hi].
        + destruct (X i Hi) as [Z0 _]. rewrite Z0 in Hp. inversion Hp. reflexivity.
        + rewrite (Y i) in Hp by auto. rewrite lookup_empty in Hp. discriminate.
    Qed.

    Notation others := (others_of self ids).
    Lemma self_in : In self ids. Proof. exact (proj1 new_round). Qed.
    Lemma r0_self : r_self sign_round r0 = self. Proof. destruct new_round as (_ & _ & _ & _ & H & _). apply H. Qed.
    Lemma r0_ids : r_ids sign_round r0 = ids. Proof. destruct new_round as (_ & _ & _ & _ & H & _). apply H. Qed.
    Lemma ids_valid : valid_ids ids.
    Proof.
      destruct new_round as (_ & _ & H & _). split; [exact ND|]. apply List.Forall_forall. intros i Hi.
      destruct (H i Hi) as [Hn _]. rewrite List.Forall_forall in HU. specialize (HU i Hi). unfold is_u16 in HU. lia.
    Qed.
    Lemma ids_len : Z.of_nat (List.length ids) < 65536.
    Proof.
      pose proof ids_valid as [_ V]. assert (List.length ids <= List.length (map Z.of_nat (seq 1 (Z.to_nat 65535))))%nat as Hl.
      { apply List.NoDup_incl_length; [exact ND|]. intros i Hi. apply in_map_iff. exists (Z.to_nat i).
        rewrite List.Forall_forall in V. specialize (V i Hi). cbv beta in V. split; [lia|]. apply in_seq. lia. }
      rewrite map_length, seq_length in Hl. lia.
    Qed.
    Lemma full_keys rcv ks : (forall k v, rcv !! k = Some v -> In k others) -> Z.of_nat (size rcv) = u16 (N_ids ids - 1) ->
      Permutation ks (map fst (map_to_list (rcv : gmap Z (option Message)))) -> List.NoDup ks /\ forall k, In k ks <-> In k others.
    Proof.
      intros Hk Hs Hp. pose proof self_in as Hi. pose proof ids_len as Hl. pose proof (others_of_length self ids ND Hi) as Ho.
      assert (Permutation ks others) as P2.
      { etransitivity; [exact Hp|]. etransitivity; [symmetry; apply (map_keys_perm [])|]. apply map_full; auto.
        - now apply others_of_NoDup.
        - unfold N_ids, u16 in Hs. rewrite (Z.mod_small (Z.of_nat _)) in Hs by lia. rewrite Z.mod_small in Hs by lia. lia. }
      split.
      - eapply Permutation_NoDup; [symmetry; exact P2|]. now apply others_of_NoDup.
      - intros k. split; intros X; [exact (Permutation_in _ P2 X)|exact (Permutation_in _ (Permutation_sym P2) X)].
    Qed.

    Lemma dom_perm (ps : gmap Z signer) sched : (forall i, In i ids <-> exists p, ps !! i = Some p) -> Permutation (map_keys sched ps) ids.
    Proof.
      intros H. apply Permutation.NoDup_Permutation; auto. - apply map_keys_NoDup.
      - intros i. rewrite H. apply map_keys_In.
    Qed.

    Lemma cl_In ps i D E : In (i, (D, E)) (cl_of ps ids) <-> In i ids /\ (D, E) = match ps !! i with Some p => (sg_Di p, sg_Ei p) | None => (gid, gid) end.
    Proof.
      unfold cl_of. rewrite in_map_iff. split.
      - intros (j & [= -> X] & Hj). split; auto.
      - intros [Hi X]. exists i. split; auto. now rewrite X.
    Qed.
    Lemma cl_ext (ps ps' : gmap Z signer) : (forall i, In i ids -> exists p p', ps !! i = Some p /\ ps' !! i = Some p' /\ sg_Di p = sg_Di p' /\ sg_Ei p = sg_Ei p') ->
      cl_of ps ids = cl_of ps' ids.
    Proof. intros H. apply map_ext_in. intros i Hi. destruct (H i Hi) as (p & p' & -> & -> & -> & ->). reflexivity. Qed.

    Lemma reset_out r r3 : sg_Reset r = Ret r3 -> sr_out r3 = sr_out r.
    Proof. intros E. apply Ret_inj in E. now subst. Qed.

    Lemma PS_out n r out : PS n r out -> out_ok out.
    Proof.
      intros (_ & _ & H). destruct n as [|[|[|n]]]; [|..].
      - now left.
      - destruct H. right; left; auto.
      - destruct H as (_ & H & ->). right; right. eexists. split; [apply H|reflexivity].
      - contradiction.
    Qed.

    Lemma sbase_set r ps : sbase r -> (forall i, (exists p, sr_Parties r !! i = Some p) <-> (exists p, ps !! i = Some p)) ->
      (forall i p, ps !! i = Some p -> exists p', sr_Parties r !! i = Some p' /\ sg_Public p = sg_Public p') -> sbase (sg_set_parties r ps).
    Proof.
      intros HB Hd Hp. split; cbn; try apply HB.
      - intros i. rewrite <- Hd. apply HB.
      - intros i p Ep. destruct (Hp i p Ep) as (p' & E' & ->). now apply HB.
    Qed.

    Lemma PS0_step r out rcv ks sched : PS 0 r out -> step_post sign_round PS FS 0 out sched (process_loop sign_round r rcv ks).
    Proof.
      intros (HB & Hno & ->). rewrite sg0_loop by exact Hno. cbn [step_post sign_round r_generate]. rewrite Hno.
      unfold sg0_generate. destruct (proj1 (sb_dom r HB self) self_in) as [p Ep]. rewrite (sb_self r HB), Ep. cbv zeta.
      cbn [sign_round r_next sr_no]. rewrite Hno. cbn [app].
      split; [split; cbn; auto; try apply HB|split; [reflexivity|]].
      - intros i. rewrite (sb_dom r HB). split; intros [q Eq].
        + destruct (Z.eq_dec self i) as [<-|Hne]; [rewrite lookup_insert|rewrite lookup_insert_ne by auto]; eauto.
        + destruct (Z.eq_dec self i) as [<-|Hne]; [|rewrite lookup_insert_ne in Eq by auto]; eauto.
      - intros i q. destruct (Z.eq_dec self i) as [<-|Hne]; [rewrite lookup_insert|rewrite lookup_insert_ne by auto; apply HB].
        intros [= <-]. cbn. now apply HB.
      - cbn. rewrite (sb_rng r HB). split; [split; cbn; auto|reflexivity].
        rewrite lookup_insert. intros q [= <-]. cbn. auto.
    Qed.

    Lemma PS1_step r out rcv ks sched : PS 1 r out -> rcv_ok sign_round W r0 1 rcv -> full sign_round r0 rcv ->
      Permutation ks (map fst (map_to_list rcv)) -> step_post sign_round PS FS 1 out sched (process_loop sign_round r rcv ks).
    Proof.
      intros (HB & Hno & HN & ->) HR HF HP. pose proof self_in as Hself.
      assert (from_ok rcv) as Hfrom. { intros k m Hk. apply (ro_val _ _ _ _ _ HR k m Hk). }
      unfold full in HF. rewrite r0_ids in HF.
      destruct (full_keys rcv ks) as [NDk Hks]; auto. { intros k v Hk. pose proof (ro_key _ _ _ _ _ HR k v Hk) as X. now rewrite r0_self, r0_ids in X. }
      pose proof (sg1_loop rcv Hfrom ks r NDk Hno) as HL. destruct (process_loop sign_round r rcv ks) as [r1 u|r1 c t|w]; cbn [step_post]; auto.
      2:{ intros r3 E3. apply reset_out in E3. destruct HL as (E1 & -> & Hin & m & b & Em & Eb & Hid).
          destruct (ro_val _ _ _ _ _ HR c m Em) as (Hfr & _ & Ht & Hw). cbn [sign_round r_accepted nth_error] in Ht.
          split; [right; left; reflexivity|]. split; [rewrite E3, E1; apply HB|]. right; left. cbn [pe_text pe_PartyID]. split; auto.
          apply Hks, others_of_In in Hin as [Hin Hne]. split; auto. split; auto. exists m, b. split; auto. split; auto. split; [congruence|]. split; auto.
          apply orb_true_iff in Hid. exact Hid. }
      destruct HL as (E1 & Hun & Hch). cbn [sign_round r_generate].
      assert (sbase r1) as HB1.
      { rewrite E1. apply sbase_set; auto.
        - intros i. destruct (in_dec Z.eq_dec i ks) as [Hi|Hi]; [|rewrite Hun by auto; reflexivity].
          destruct (Hch i Hi) as (m & b & p & _ & _ & _ & _ & E & ->). rewrite E. split; eauto.
        - intros i p Ep. destruct (in_dec Z.eq_dec i ks) as [Hi|Hi].
          + destruct (Hch i Hi) as (m & b & p' & _ & _ & _ & _ & E & E'). rewrite E' in Ep. inversion Ep; subst. exists p'. cbn. auto.
          + rewrite Hun in Ep by auto. eauto. }
      assert (~ In self ks) as Hsk. { intros X. apply Hks, others_of_In in X. tauto. }
      assert (sr_no r1 = 1%nat) as Hno1 by (rewrite E1; exact Hno). rewrite Hno1.
      set (cl := cl_of (sr_Parties r1) ids).
      assert (view_ok cl) as HV.
      { split.
        - unfold cl, cl_of. rewrite map_map. cbn. apply map_id.
        - intros D E Hin. apply cl_In in Hin as [_ X]. rewrite Hun in X by auto.
          destruct (proj1 (sb_dom r HB self) Hself) as [p Ep]. rewrite Ep in X. inversion X; subst. now apply (nn_own r HN).
        - intros i D E Hin Hne. apply cl_In in Hin as [Hi X]. assert (In i ks) as Hik by (apply Hks, others_of_In; auto).
          destruct (Hch i Hik) as (m & b & p & Em & Eb & I1 & I2 & _ & Ep). rewrite Ep in X. cbn in X. inversion X; subst.
          destruct (ro_val _ _ _ _ _ HR i m Em) as (Hfr & _ & Ht & Hw). cbn [sign_round r_accepted nth_error] in Ht.
          exists m. split; auto. split; auto. split; [congruence|]. rewrite Eb. destruct b as [D E]. cbn in *. split; auto.
          split; now apply geqb_false. }
      unfold sg1_generate. destruct (computeRhos_ok r1) as (ps & Eps & _ & Hps). { rewrite (sb_ids r1 HB1). intros i Hi. now apply HB1. }
      rewrite Eps. cbv zeta. rewrite (sb_ids r1 HB1), (sb_msg r1 HB1) in Hps. fold cl in Hps.
      assert (forall i p, sr_Parties r1 !! i = Some p -> (set_Ri <$> ps) !! i = Some (set_Ri (mkSigner (sg_Public p) (sg_Di p) (sg_Ei p) (sg_Ri p) (binding message cl i) (sg_Zi p)))) as Hfm.
      { intros i p Ep. rewrite lookup_fmap. assert (In i ids) as Hi by (apply HB1; eauto). rewrite (Hps i p Hi Ep). reflexivity. }
      assert (forall i, In i ids <-> exists p, (set_Ri <$> ps) !! i = Some p) as Hdom.
      { intros i. split.
        - intros Hi. destruct (proj1 (sb_dom r1 HB1 i) Hi) as [p Ep]. rewrite (Hfm i p Ep). eauto.
        - intros [p Ep]. destruct (in_dec Z.eq_dec i ids) as [Hi|Hi]; auto.
          assert (computeRhos r1 = Ret ps) as X by exact Eps. exfalso.
          destruct (computeRhos_ok r1) as (ps2 & Eps2 & Hn & _). { rewrite (sb_ids r1 HB1). intros j Hj. now apply HB1. }
          rewrite X in Eps2. apply Ret_inj in Eps2. subst ps2. rewrite (sb_ids r1 HB1) in Hn. rewrite lookup_fmap, (Hn i Hi) in Ep.
          destruct (sr_Parties r1 !! i) as [p'|] eqn:Ep'; [|discriminate]. apply Hi, HB1. eauto. }
      destruct (proj1 (sb_dom r1 HB1 self) Hself) as [p Ep]. rewrite (sb_self r1 HB1), (Hfm self p Ep).
      cbn [set_Ri sg_Public sg_Di sg_Ei sg_Ri sg_Pi sg_Zi]. cbn [sign_round r_next sr_no]. rewrite Hno1. cbn [app].
      set (R := sum_R _ _).
      assert (geq R (group_nonce message cl)) as HRn.
      { unfold R. rewrite sum_R_Gsum by (intros i Hi; now apply map_keys_In in Hi).
        rewrite (Gsum_perm _ _ (Permutation_map _ (dom_perm _ sched Hdom))).
        unfold group_nonce, cl at 2, cl_of. rewrite map_map. apply Gsum_map_ext. intros i Hi.
        destruct (proj1 (sb_dom r1 HB1 i) Hi) as [q Eq]. rewrite (Hfm i q Eq), Eq. cbn. apply gadd_comm. }
      rewrite (sb_gk r1 HB1), (sb_msg r1 HB1), ComputeChallenge_chal.
      assert (sr_d r1 = d0 /\ sr_e r1 = e0) as [Hd He]. { rewrite E1. cbn. split; apply HN. }
      set (z := fadd _ (sr_d r1)).
      assert (z = own_z cl) as Hz.
      { unfold z, own_z, sig_share. rewrite Hd, He, (sb_sk r1 HB1). rewrite (chal_proper _ _ gk gk message HRn) by reflexivity. ring. }
      clearbody z. subst z.
      match goal with |- PS 2 (sg_set_no ?rr 2) _ => set (r2 := rr) end.
      assert (cl_of (sr_Parties r2) ids = cl) as Hcl.
      { apply cl_ext. intros i Hi. destruct (proj1 (sb_dom r1 HB1 i) Hi) as [q Eq]. unfold r2. cbn [sr_Parties].
        destruct (Z.eq_dec self i) as [<-|Hne].
        - rewrite lookup_insert. rewrite Ep. eexists _, _. split; [reflexivity|]. split; [reflexivity|]. cbn. auto.
        - rewrite lookup_insert_ne by auto. rewrite (Hfm i q Eq), Eq. eexists _, _. split; [reflexivity|]. split; [reflexivity|]. cbn. auto. }
      split; [|split; [reflexivity|]]; [|split; [|split]].
      - split; cbn; try apply HB1; auto.
        + intros i. rewrite (Hdom i). split; intros [q Eq].
          * destruct (Z.eq_dec self i) as [<-|Hne]; [rewrite lookup_insert|rewrite lookup_insert_ne by auto]; eauto.
          * destruct (Z.eq_dec self i) as [<-|Hne]; [rewrite (Hfm self p Ep)|rewrite lookup_insert_ne in Eq by auto]; eauto.
        + intros i q Eq. destruct (Z.eq_dec self i) as [<-|Hne].
          * rewrite lookup_insert in Eq. inversion Eq. cbn. now apply HB1.
          * rewrite lookup_insert_ne in Eq by auto. assert (In i ids) as Hi by (apply Hdom; eauto).
            destruct (proj1 (sb_dom r1 HB1 i) Hi) as [q' Eq']. rewrite (Hfm i q' Eq') in Eq. inversion Eq. cbn. now apply HB1.
      - split; cbn; auto. rewrite lookup_insert. intros q [= <-]. cbn. rewrite Hun in Ep by auto. now apply (nn_own r HN).
      - split; cbn [sg_set_no sr_Parties]; rewrite ?Hcl; auto.
        + intros i q Eq. unfold r2 in Eq. cbn [sr_Parties] in Eq. destruct (Z.eq_dec self i) as [<-|Hne].
          * rewrite lookup_insert in Eq. inversion Eq. cbn. reflexivity.
          * rewrite lookup_insert_ne in Eq by auto. assert (In i ids) as Hi by (apply Hdom; eauto).
            destruct (proj1 (sb_dom r1 HB1 i) Hi) as [q' Eq']. rewrite (Hfm i q' Eq') in Eq. inversion Eq. cbn. reflexivity.
        + unfold r2. cbn [sr_Parties]. rewrite lookup_insert. intros q [= <-]. reflexivity.
      - cbn [sg_set_no sr_Parties]. rewrite Hcl. reflexivity.
    Qed.

    Lemma share_check_valid r i p z : sbase r -> phase2 r -> sr_Parties r !! i = Some p ->
      (share_check (sr_C r) p z = true <-> share_valid (cl_of (sr_Parties r) ids) i z).
    Proof.
      intros HB H2 Ep. rewrite share_check_iff. rewrite (p2_Ri r H2 i p Ep), (sb_pub r HB i p Ep), (p2_C r H2).
      rewrite (chal_proper _ _ gk gk message (p2_R r H2)) by reflexivity. set (cl := cl_of _ _).
      assert (forall D E, In (i, (D, E)) cl <-> D = sg_Di p /\ E = sg_Ei p) as Hcl.
      { intros D E. unfold cl. rewrite cl_In, Ep. split; [intros [_ [= -> ->]]; auto|]. intros [-> ->]. split; auto. apply HB. eauto. }
      unfold share_valid. split.
      - intros X D E Hin. apply Hcl in Hin as [-> ->]. rewrite X. unfold nonce_point. cbn. rewrite (gadd_comm (sg_Di p)). reflexivity.
      - intros X. rewrite (X (sg_Di p) (sg_Ei p)) by (now apply Hcl). unfold nonce_point. cbn. rewrite (gadd_comm (sg_Di p)). reflexivity.
    Qed.

    Lemma PS2_step r out rcv ks sched : PS 2 r out -> rcv_ok sign_round W r0 2 rcv -> full sign_round r0 rcv ->
      Permutation ks (map fst (map_to_list rcv)) -> step_post sign_round PS FS 2 out sched (process_loop sign_round r rcv ks).
    Proof.
      intros (HB & Hno & HN & H2 & ->) HR HF HP. pose proof self_in as Hself.
      assert (from_ok rcv) as Hfrom. { intros k m Hk. apply (ro_val _ _ _ _ _ HR k m Hk). }
      unfold full in HF. rewrite r0_ids in HF.
      destruct (full_keys rcv ks) as [NDk Hks]; auto. { intros k v Hk. pose proof (ro_key _ _ _ _ _ HR k v Hk) as X. now rewrite r0_self, r0_ids in X. }
      set (cl := cl_of (sr_Parties r) ids). pose proof (p2_view r H2) as HV. fold cl in HV.
      pose proof (sg2_loop rcv Hfrom ks r NDk Hno) as HL. destruct (process_loop sign_round r rcv ks) as [r1 u|r1 c t|w]; cbn [step_post]; auto.
      2:{ intros r3 E3. apply reset_out in E3. destruct HL as (E1 & -> & Hin & m & b & p & Em & Eb & Ep & Hid).
          destruct (ro_val _ _ _ _ _ HR c m Em) as (Hfr & _ & Ht & Hw). cbn [sign_round r_accepted nth_error] in Ht.
          split; [right; right; eauto|]. split; [rewrite E3, E1; apply HB|]. right; right; left. cbn [pe_text pe_PartyID]. split; auto.
          apply Hks, others_of_In in Hin as [Hin Hne]. split; auto. split; auto. exists cl, m, b. split; auto. split; auto. split; auto. split; auto.
          split; [congruence|]. split; auto. intros X. apply (share_check_valid r c p _ HB H2 Ep) in X. congruence. }
      destruct HL as (E1 & Hun & Hch). cbn [sign_round r_generate].
      assert (forall i, In i ids -> exists p, sr_Parties r1 !! i = Some p) as Hd1.
      { intros i Hi. destruct (in_dec Z.eq_dec i ks) as [Hk|Hk].
        - destruct (Hch i Hk) as (m & b & p & _ & _ & _ & _ & ->). eauto.
        - rewrite Hun by auto. now apply HB. }
      assert (forall i, In i ids <-> exists p, sr_Parties r1 !! i = Some p) as Hdom.
      { intros i. split; auto. intros [p Ep]. apply (sb_dom r HB). destruct (in_dec Z.eq_dec i ks) as [Hk|Hk].
        - destruct (Hch i Hk) as (m & b & q & _ & _ & E & _). eauto.
        - rewrite Hun in Ep by auto. eauto. }
      assert (~ In self ks) as Hsk. { intros X. apply Hks, others_of_In in X. tauto. }
      assert (sr_no r1 = 2%nat) as Hno1 by (rewrite E1; exact Hno). rewrite Hno1. unfold sg2_generate. cbv zeta.
      set (zf := fun i => match sr_Parties r1 !! i with Some p => sg_Zi p | None => f0 end).
      set (zs := map (fun i => (i, zf i)) ids).
      assert (sum_Z (sr_Parties r1) (map_keys sched (sr_Parties r1)) = Fsum (map snd zs)) as ->.
      { rewrite sum_Z_Fsum by (intros i Hi; now apply map_keys_In in Hi). unfold zs. rewrite map_map. cbn [snd]. fold zf.
        apply Fsum_perm, Permutation_map, dom_perm, Hdom. }
      assert (shares_given cl zs) as HG.
      { split; [unfold zs; rewrite map_map; apply map_id|]. split.
        - intros z Hin. apply in_map_iff in Hin as (i & [= -> <-] & Hi). unfold zf. rewrite Hun by auto.
          destruct (proj1 (sb_dom r HB self) Hself) as [p Ep]. rewrite Ep. now apply (p2_Z r H2).
        - intros i z Hin Hne. apply in_map_iff in Hin as (j & [= -> <-] & Hi). assert (In i ks) as Hk by (apply Hks, others_of_In; auto).
          destruct (Hch i Hk) as (m & b & p & Em & Eb & Ep & Hc & Ep'). unfold zf. rewrite Ep'. cbn [sg_Zi].
          destruct (ro_val _ _ _ _ _ HR i m Em) as (Hfr & _ & Ht & Hw). cbn [sign_round r_accepted nth_error] in Ht.
          split; [now apply (share_check_valid r i p _ HB H2 Ep)|]. exists m. split; auto. split; auto. split; [congruence|]. rewrite Eb. now destruct b. }
      assert (sr_GroupKey r1 = gk /\ sr_Message r1 = message /\ sr_outp r1 = true /\ sr_R r1 = sr_R r) as (G1 & G2 & G3 & G4). { rewrite E1. cbn. repeat split; apply HB. }
      rewrite G1, G2, G3, G4. pose proof (Verify_iff gk message (mkSig (sr_R r) (Fsum (map snd zs)))) as HVf. cbn [sig_R sig_S] in HVf.
      destruct (Verify _ _ _) eqn:EV; cbn [negb].
      - cbn [r_next sr_no]. rewrite Hno1. intros r3 E3. apply reset_out in E3. cbn [sr_out] in E3. rewrite app_nil_r.
        split; [right; right; eauto|]. exists cl, zs, (mkSig (sr_R r) (Fsum (map snd zs))). cbn [sig_R sig_S].
        split; auto. split; auto. split; auto. split; auto. split; [apply H2|]. split; auto. now apply HVf.
      - intros r3 E3. apply reset_out in E3. split; [right; right; eauto|]. split; [rewrite E3, E1; apply HB|].
        right; right; right. cbn [pe_text pe_PartyID]. split; auto. split; auto. exists cl, zs, (sr_R r). split; auto. split; auto.
        split; [apply H2|]. intros X. apply HVf in X. discriminate.
    Qed.

    Lemma PS_step n r out rcv ks sched : PS n r out -> rcv_ok sign_round W r0 n rcv -> full sign_round r0 rcv ->
      Permutation ks (map fst (map_to_list rcv)) -> step_post sign_round PS FS n out sched (process_loop sign_round r rcv ks).
    Proof.
      intros HP. destruct n as [|[|[|n]]]; intros.
      - now apply PS0_step.
      - now apply PS1_step.
      - now apply PS2_step.
      - destruct HP as (_ & _ & []).
    Qed.
    Lemma PS_timeout n r out r3 : PS n r out -> sg_Reset r = Ret r3 -> FS r3 (Some (mkPError 0 (Z.of_nat n) "message timeout")) out.
    Proof.
      intros HP E3. apply reset_out in E3. split; [eapply PS_out; eauto|]. split; [rewrite E3; apply HP|]. left. auto.
    Qed.

    Lemma sign_run now t es s out : Forall (event_ok W) es -> run sign_round (NewBaseState sign_round now t r0) es = Ret (s, out) ->
      linv sign_round W r0 PS FS s out.
    Proof.
      intros HW E. eapply linv_run; [exact sign_round_ok| | | |exact HW|exact E].
      - apply new_round.
      - intros. now apply PS_step.
      - intros n r o r3 HP _ _ E3. eapply PS_timeout; eauto.
    Qed.

    (** *** When all shares are right *)
    Lemma lamA_eq i : In i ids -> exists A, pub_Shares shares !! i = Some A /\ lamA i = gsmul (lam ids i) A.
    Proof.
      intros Hi. destruct new_round as (_ & _ & H & _). destruct (H i Hi) as (Hn & lg & A & El & EA). exists A. split; auto.
      unfold lamA. rewrite El, EA. rewrite Lagrange_ok in El by auto. apply Ret_inj in El. now subst.
    Qed.
    Lemma lamS_eq : lamS = lam ids self.
    Proof.
      destruct new_round as (Hi & _ & H & _). destruct (H self Hi) as (Hn & _). unfold lamS. rewrite Lagrange_ok; auto.
    Qed.

    Lemma own_share_valid cl A : view_ok cl -> pub_Shares shares !! self = Some A -> geq (gbmul (sh_Secret secret)) A ->
      share_valid cl self (own_z cl).
    Proof.
      intros HV EA Hc D E Hin. apply (vo_own cl HV) in Hin as [-> ->]. destruct (lamA_eq self self_in) as (A' & EA' & ->).
      rewrite EA in EA'. inversion EA'; subst A'. unfold own_z, sig_share. rewrite lamS_eq. unfold nonce_point. cbn [fst snd].
      apply geq_sym_iff in Hc. setoid_rewrite Hc. gcollapse. apply gb_inj. ring.
    Qed.

    Lemma In_fst {A} (l : list (Z * A)) i : In i (map fst l) -> exists x, In (i, x) l.
    Proof. rewrite in_map_iff. intros ([j x] & <- & H). eauto. Qed.

    (** All shares valid and the weighted public shares adding up to the group key: the signature verifies. *)
    Lemma shares_sum cl zs R : view_ok cl -> map fst zs = ids -> (forall i z, In (i, z) zs -> share_valid cl i z) ->
      geq (Gsum (map lamA ids)) gk -> geq R (group_nonce message cl) -> schnorr_valid gk message R (Fsum (map snd zs)).
    Proof.
      intros HV Hz Hv Hk HR. unfold schnorr_valid. rewrite (chal_proper _ _ gk gk message HR) by reflexivity. apply geq_sym_iff in Hk. setoid_rewrite HR.
      set (c := chal _ _ _). setoid_rewrite Hk. unfold group_nonce. pose proof (vo_ids cl HV) as Hc.
      assert (forall (zs : list (Z * Fq)) (cl' : commitment_list) ids', map fst zs = ids' -> map fst cl' = ids' ->
         (forall i z D E, In (i, z) zs -> In (i, (D, E)) cl' -> List.NoDup ids' ->
            geq (gbmul z) (gadd (nonce_point message cl (i, (D, E))) (gsmul c (lamA i)))) -> List.NoDup ids' ->
         geq (gbmul (Fsum (map snd zs))) (gadd (Gsum (map (nonce_point message cl) cl')) (gsmul c (Gsum (map lamA ids'))))) as X.
      { clear - L. intros zs cl'. revert zs. induction cl' as [|[i [D E]] cl' IH]; intros [|[j z] zs] ids' H1 H2 H3 HN;
          cbn [map fst] in *; subst ids'; try discriminate.
        - cbn. rewrite gsmul_gid, gadd_id_l. symmetry. apply gb_id.
        - cbn [map fst] in H2. inversion H2. subst j. inversion HN as [|? ? Hni HN']; subst.
          assert (forall a l, Fsum (a :: l) = fadd a (Fsum l)) as Hs by reflexivity. cbn [map snd]. rewrite Hs, <- gb_add.
          assert (forall a l, Gsum (a :: l) = gadd a (Gsum l)) as Hg by reflexivity. rewrite !Hg.
          rewrite (IH zs (map fst zs)); auto.
          2:{ intros k y D' E' Hk1 Hk2 _. apply H3; [now right|now right|exact HN]. }
          rewrite (H3 i z D E) by (auto; now left). rewrite gsmul_add_r.
          rewrite <- !gadd_assoc. apply gadd_proper; [reflexivity|]. rewrite !gadd_assoc. apply gadd_proper; [|rewrite H1; reflexivity]. apply gadd_comm. }
      apply X; auto. intros i z D E H1 H2 _. exact (Hv i z H1 D E H2).
    Qed.

    Lemma full_signature_ok cl zs R A : view_ok cl -> shares_given cl zs -> pub_Shares shares !! self = Some A -> geq (gbmul (sh_Secret secret)) A ->
      geq (Gsum (map lamA ids)) gk -> geq R (group_nonce message cl) -> schnorr_valid gk message R (Fsum (map snd zs)).
    Proof.
      intros HV (H1 & H2 & H3) EA Hc Hk HR. eapply shares_sum; eauto. intros i z Hin. destruct (Z.eq_dec i self) as [->|Hne].
      - rewrite (H2 z Hin). eapply own_share_valid; eauto.
      - now apply H3.
    Qed.

    (** *** No panic when the bodies are there *)
    Lemma PS_safe n r out rcv ks sched : PS n r out -> rcv_ok sign_round W r0 n rcv -> full sign_round r0 rcv ->
      (forall k m, rcv !! k = Some (Some m) -> (m_Type m = MTSign1 -> m_Sign1 m <> None) /\ (m_Type m = MTSign2 -> m_Sign2 m <> None)) ->
      Permutation ks (map fst (map_to_list rcv)) -> safe_step sign_round r rcv ks sched.
    Proof.
      intros HPS HR HF HB HP. unfold safe_step. pose proof self_in as Hself.
      assert (from_ok rcv) as Hfrom. { intros k m Hk. apply (ro_val _ _ _ _ _ HR k m Hk). }
      pose proof HF as HF'. unfold full in HF'. rewrite r0_ids in HF'.
      destruct (full_keys rcv ks) as [NDk Hks]; auto. { intros k v Hk. pose proof (ro_key _ _ _ _ _ HR k v Hk) as X. now rewrite r0_self, r0_ids in X. }
      assert (forall x, exists r3, r_reset sign_round x = Ret r3) as Hreset. { intros x. unfold sign_round, r_reset, sg_Reset. eauto. }
      assert (forall k, In k ks -> n <> 0%nat -> exists m, rcv !! k = Some (Some m) /\ nth_error [MTNone; MTSign1; MTSign2] n = Some (m_Type m) /\ W m) as Hm.
      { intros k Hk Hn. apply (Permutation_in _ HP) in Hk. apply in_map_iff in Hk as ([k' v] & <- & Hk). apply elem_of_list_In, elem_of_map_to_list in Hk. cbn.
        destruct v as [m|]; [|exfalso; apply Hn; now apply (ro_some _ _ _ _ _ HR k')].
        destruct (ro_val _ _ _ _ _ HR k' m Hk) as (_ & _ & Ht & Hw). exists m. auto. }
      pose proof HPS as (HBs & Hno & HX). destruct n as [|[|[|n]]]; [| | |contradiction].
      - rewrite sg0_loop by exact Hno. cbn [sign_round r_generate r_next r_reset]. rewrite Hno. unfold sg0_generate.
        destruct (proj1 (sb_dom r HBs self) Hself) as [p Ep]. rewrite (sb_self r HBs), Ep. cbv zeta. cbn [sr_no]. now rewrite Hno.
      - pose proof (PS1_step r out rcv ks sched HPS HR HF HP) as HS. pose proof (sg1_loop rcv Hfrom ks r NDk Hno) as HL.
        destruct (process_loop sign_round r rcv ks) as [r1 u|r1 c t|w]; auto.
        2:{ destruct HL as (k & Hk & Hb). destruct (Hm k Hk ltac:(lia)) as (m & Em & Ht & Hw). pose proof (HB k m Em) as Hw'. rewrite Em in Hb. cbn [from_option id] in Hb. cbn [nth_error] in Ht. destruct Hb as [Hb|Hb].
            - apply (proj1 Hw'); [congruence|exact Hb].
            - apply Hks, others_of_In in Hk as [Hk _]. apply (sb_dom r HBs) in Hk as [p Ep]. congruence. }
        clear HS. destruct HL as (E1 & Hun & Hch). assert (sr_no r1 = 1%nat) as Hno1 by (rewrite E1; exact Hno).
        assert (sr_ids r1 = ids /\ sr_self r1 = self) as [I1 I2]. { rewrite E1. cbn. split; apply HBs. }
        assert (forall i, In i ids -> exists p, sr_Parties r1 !! i = Some p) as Hd1.
        { intros i Hi. destruct (in_dec Z.eq_dec i ks) as [Hk|Hk].
          - destruct (Hch i Hk) as (m & b & p & _ & _ & _ & _ & _ & ->). eauto.
          - rewrite Hun by auto. now apply HBs. }
        cbn [sign_round r_generate r_next r_reset]. rewrite Hno1. unfold sg1_generate.
        destruct (computeRhos_ok r1) as (ps & Eps & _ & Hps). { rewrite I1. exact Hd1. } rewrite Eps. cbv zeta.
        destruct (Hd1 self Hself) as [p Ep]. rewrite lookup_fmap, I2. rewrite (Hps self p) by (rewrite ?I1; auto). cbn [fmap option_fmap option_map sr_no]. now rewrite Hno1.
      - pose proof (sg2_loop rcv Hfrom ks r NDk Hno) as HL.
        destruct (process_loop sign_round r rcv ks) as [r1 u|r1 c t|w]; auto.
        2:{ destruct HL as (k & Hk & Hb). destruct (Hm k Hk ltac:(lia)) as (m & Em & Ht & Hw). pose proof (HB k m Em) as Hw'. rewrite Em in Hb. cbn [from_option id] in Hb. cbn [nth_error] in Ht. destruct Hb as [Hb|Hb].
            - apply (proj2 Hw'); [congruence|exact Hb].
            - apply Hks, others_of_In in Hk as [Hk _]. apply (sb_dom r HBs) in Hk as [p Ep]. congruence. }
        destruct HL as (E1 & _). assert (sr_no r1 = 2%nat) as Hno1 by (rewrite E1; exact Hno). cbn [sign_round r_generate r_next]. rewrite Hno1.
        unfold sg2_generate. cbv zeta. destruct (Verify _ _ _); cbn [negb]; auto. assert (sr_outp r1 = true) as -> by (rewrite E1; apply HBs).
        cbn [sr_no]. rewrite Hno1. auto.
    Qed.
    Context (HB : forall m, W m -> (m_Type m = MTSign1 -> m_Sign1 m <> None) /\ (m_Type m = MTSign2 -> m_Sign2 m <> None)).
    Lemma PS_nopanic n r out rcv ks sched : PS n r out -> rcv_ok sign_round W r0 n rcv -> full sign_round r0 rcv ->
      Permutation ks (map fst (map_to_list rcv)) -> safe_step sign_round r rcv ks sched.
    Proof.
      intros A B C D. eapply PS_safe; eauto. intros k m Hk. apply HB. eapply ro_val; eauto.
    Qed.
    Lemma sign_nopanic now t es : Forall (event_ok W) es ->
      exists s out, run sign_round (NewBaseState sign_round now t r0) es = Ret (s, out) /\ linv sign_round W r0 PS FS s out.
    Proof.
      intros HW. eapply nopanic_run; [exact sign_round_ok| | | | | | |exact HW].
      - apply new_round.
      - intros. now apply PS_step.
      - intros n r o r3 HP _ _ E3. eapply PS_timeout; eauto.
      - intros n r out (_ & _ & H). destruct n as [|[|[|n]]]; cbn; try lia; contradiction.
      - intros. eapply PS_nopanic; eauto.
      - intros. unfold sign_round, r_reset, sg_Reset. eauto.
    Qed.
  End Party.
End SignRun.
