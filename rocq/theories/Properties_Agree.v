(** C48: what honest parties that finish have in common when the others are arbitrary. *)
From Coq Require Import ZArith Lia List Bool String Permutation Sorted Ring Setoid Morphisms.
From Coq.Strings Require Import Byte.
From stdpp Require Import base gmap list fin_maps.
From Verif Require Import ZField Primes Bytes Scalar Go Group ToyGroup Party Poly PolyFacts Zk Eddsa Messages State StateFacts Spec_State
  Keygen Sign RoundFacts Lift Net Progress NetProgress Spec_Poly PolyAlg Spec_Group Spec_Wire Spec_Sign Spec_SignRun Spec_Keygen SignFacts SignRun KeygenFacts KeygenRun
  Properties_Algebra Properties_Codec Properties_Sign Properties_Keygen Properties_HonestSign Properties_HonestKeygen ToyRuns.
Import ListNotations.
Local Open Scope Z_scope.

Local Opaque SetScalarRandom.

(** * Signing *)
Section SignAgree.
  Context `{L : group_laws} `{Hf : hash_fn} (HH : hash_ok Hf).
  Context (ids : list Z) (message : list byte) (ND : List.NoDup ids) (HU : Forall is_u16 ids).
  Context (rg : rng) (now t : Z) (sec : SecretShare) (pub : Public) (s0 : State sround).
  Context (NEW : NewSignState rg now t ids sec pub message = Ret s0).
  Context (es : list event) (s : State sround) (out : list Message).
  Context (RUN : run sign_round s0 es = Ret (s, out)).

  Lemma finished_view : st_done s = true -> st_err s = None ->
    exists sig cl zs, sg_output s = Some sig /\ commitments_of es ids (sh_ID sec) (SetScalarRandom rg 0) (SetScalarRandom rg 1) cl /\
      In (NewSign1 (sh_ID sec) (gbmul (SetScalarRandom rg 0)) (gbmul (SetScalarRandom rg 1))) out /\
      geq (sig_R sig) (group_nonce message cl) /\ sig_S sig = Fsum (map snd zs) /\ schnorr_valid (pub_GroupKey pub) message (sig_R sig) (sig_S sig) /\
      map fst zs = ids /\
      forall i z, In (i, z) zs -> i <> sh_ID sec -> share_equation ids pub message cl i z /\
        exists m, given es m /\ m_From m = i /\ m_Type m = MTSign2 /\ m_Sign2 m = Some (mkSign2 z).
  Proof.
    intros D Er. destruct (the_run HH rg now t ids sec pub message s0 NEW ND HU es s out RUN) as (r0 & E1 & HL).
    pose proof (li_F _ _ _ _ _ _ _ HL D) as [_ H]. rewrite Er in H. destruct H as (cl & zs & sg & H1 & HV & (G1 & G2 & G3) & HO & H3 & H4 & H5).
    exists sg, cl, zs. split; [exact H1|]. split; [now apply view_commitments|]. split; [rewrite HO; now left|]. split; [exact H3|]. split; [exact H4|]. split; [exact H5|].
    split; [exact G1|]. intros i z Hi Hne. destruct (G3 i z Hi Hne) as [X Y]. split; [|exact Y].
    apply (share_valid_equation HH rg now t ids sec pub message s0 NEW ND HU es s out RUN cl i z HV). exact X.
  Qed.
End SignAgree.

Section SignAgree2.
  Context `{L : group_laws} `{Hf : hash_fn} (HH : hash_ok Hf).
  Context (ids : list Z) (message : list byte) (ND : List.NoDup ids) (HU : Forall is_u16 ids).
  (** Two honest signers, [sec] and [secj]; the others are arbitrary. *)
  Context (rg rgj : rng) (now nowj t tj : Z) (sec secj : SecretShare) (pub pubj : Public) (s0 s0j : State sround).
  Context (NEW : NewSignState rg now t ids sec pub message = Ret s0) (NEWj : NewSignState rgj nowj tj ids secj pubj message = Ret s0j).
  Notation j := (sh_ID secj).
  Context (KEY : geq (pub_GroupKey pub) (pub_GroupKey pubj)).
  Context (es esj : list event) (s sj : State sround) (out outj : list Message).
  Context (RUN : run sign_round s0 es = Ret (s, out)) (RUNj : run sign_round s0j esj = Ret (sj, outj)).

  (** Commitments are broadcast: both were given the same ones by the same sender (and those a party sent itself). *)
  Definition same_commitments : Prop :=
    forall m m' b b', given es m \/ In m out -> given esj m' \/ In m' outj -> m_Type m = MTSign1 -> m_Type m' = MTSign1 ->
      m_From m = m_From m' -> m_Sign1 m = Some b -> m_Sign1 m' = Some b' -> geq (s1_Di b) (s1_Di b') /\ geq (s1_Ei b) (s1_Ei b').

  (** Then both finish with the same signature, byte for byte, whatever shares the others sent to whom. *)
  Theorem C48_sign_agree : same_commitments -> st_done s = true -> st_err s = None -> st_done sj = true -> st_err sj = None ->
    exists sig sigj, sg_output s = Some sig /\ sg_output sj = Some sigj /\ geq (sig_R sig) (sig_R sigj) /\ sig_S sig = sig_S sigj /\ sig_ToEd25519 sig = sig_ToEd25519 sigj.
  Proof.
    intros BC D Er Dj Erj.
    destruct (finished_view HH ids message ND HU rg now t sec pub s0 NEW es s out RUN D Er) as (sig & cl & zs & A1 & HV & A3 & A4 & A5 & A6 & _).
    destruct (finished_view HH ids message ND HU rgj nowj tj secj pubj s0j NEWj esj sj outj RUNj Dj Erj) as (sigj & clj & zsj & B1 & HVj & B3 & B4 & B5 & B6 & _).
    exists sig, sigj. split; [exact A1|]. split; [exact B1|].
    assert (cl_eq cl clj) as HC.
    { rewrite (assoc_map clj (fun i => match find (fun x => fst x =? i) clj with Some x => snd x | None => (gid, gid) end) ids (co_ids _ _ _ _ _ _ HVj)).
      2:{ intros i x Hx. rewrite (find_fst clj i x); auto. rewrite (co_ids _ _ _ _ _ _ HVj). exact ND. }
      apply cl_eq_assoc; [apply HV|]. intros i Di Ei Hic.
      assert (In i ids) as Hii. { rewrite <- (co_ids _ _ _ _ _ _ HV). now apply (in_map fst) in Hic. }
      rewrite <- (co_ids _ _ _ _ _ _ HVj) in Hii. apply In_fst in Hii as [[D' E'] Hin']. rewrite (find_fst clj i (D', E')); auto.
      2:{ rewrite (co_ids _ _ _ _ _ _ HVj). exact ND. }
      cbn [snd fst].
      assert (exists m2, (given es m2 \/ In m2 out) /\ m_From m2 = i /\ m_Type m2 = MTSign1 /\ m_Sign1 m2 = Some (mkSign1 Di Ei)) as (m2 & P1 & P2 & P3 & P4).
      { destruct (Z.eq_dec i (sh_ID sec)) as [->|Hne].
        - apply (co_own _ _ _ _ _ _ HV) in Hic as [-> ->]. eexists. split; [right; exact A3|]. cbn. auto.
        - destruct (co_other _ _ _ _ _ _ HV i Di Ei Hic Hne) as (m2 & Q1 & Q2 & Q3 & Q4 & _). exists m2. auto. }
      assert (exists m3, (given esj m3 \/ In m3 outj) /\ m_From m3 = i /\ m_Type m3 = MTSign1 /\ m_Sign1 m3 = Some (mkSign1 D' E')) as (m3 & R1 & R2 & R3 & R4).
      { destruct (Z.eq_dec i j) as [->|Hne].
        - apply (co_own _ _ _ _ _ _ HVj) in Hin' as [-> ->]. eexists. split; [right; exact B3|]. cbn. auto.
        - destruct (co_other _ _ _ _ _ _ HVj i D' E' Hin' Hne) as (m3 & Q1 & Q2 & Q3 & Q4 & _). exists m3. auto. }
      exact (BC m2 m3 _ _ P1 R1 P3 R3 ltac:(congruence) P4 R4). }
    assert (geq (sig_R sig) (sig_R sigj)) as HR. { rewrite A4, B4. now apply group_nonce_eq. }
    assert (sig_S sig = sig_S sigj) as HS.
    { apply gb_inj. unfold schnorr_valid in A6, B6. rewrite A6, B6, (chal_proper _ _ _ _ message HR KEY), HR, KEY. reflexivity. }
    split; [exact HR|]. split; [exact HS|]. unfold sig_ToEd25519. rewrite HS. f_equal. now rewrite HR.
  Qed.

  (** Without that condition: we finish only if the share of the honest [j], made for the commitments [clj] it was given, satisfies the
      equation for the commitments [cl] we were given; that is, if the difference of the binding factors, times its second nonce, and the
      difference of the challenges, times its weighted secret share, cancel. *)
  Theorem C48_sign_relation :
    (exists A, pub_Shares pub !! j = Some A /\ geq A (gbmul (sh_Secret secj))) -> j <> sh_ID sec ->
    (forall m, given es m -> m_From m = j -> exists m0, In m0 outj /\ same_msg m0 m) ->
    st_done s = true -> st_err s = None ->
    exists sig cl clj, sg_output s = Some sig /\
      commitments_of es ids (sh_ID sec) (SetScalarRandom rg 0) (SetScalarRandom rg 1) cl /\ commitments_of esj ids j (SetScalarRandom rgj 0) (SetScalarRandom rgj 1) clj /\
      geq (sig_R sig) (group_nonce message cl) /\
      (SetScalarRandom rgj 1 * (binding message cl j - binding message clj j) +
       lagrange_spec j ids * sh_Secret secj * (chal (group_nonce message cl) (pub_GroupKey pub) message - chal (group_nonce message clj) (pub_GroupKey pubj) message))%Fq = f0.
  Proof.
    intros (A & EA & HA) Hj AUTH D Er.
    destruct (finished_view HH ids message ND HU rg now t sec pub s0 NEW es s out RUN D Er) as (sig & cl & zs & A1 & HV & A3 & A4 & A5 & A6 & A7 & A8).
    assert (In j ids) as Hin by (eapply self_in'; eauto).
    pose proof Hin as Hin'. rewrite <- A7 in Hin'. apply In_fst in Hin' as [z Hz]. destruct (A8 j z Hz Hj) as (HX & m & M1 & M2 & M3 & M4).
    destruct (AUTH m M1 M2) as (m0 & Hm0 & HS).
    destruct (C14_same_nonces HH rgj nowj tj ids secj pubj message s0j NEWj ND HU esj sj outj RUNj) as [O|[O|(clj & HVj & O)]]; rewrite O in Hm0.
    { destruct Hm0. } { destruct Hm0 as [<-|[]]. rewrite (same_type _ _ HS) in M3. discriminate. }
    destruct Hm0 as [<-|[<-|[]]]; [rewrite (same_type _ _ HS) in M3; discriminate|].
    rewrite (same_s2 _ _ _ HS eq_refl eq_refl) in M4. inversion M4; subst z. clear M4.
    pose proof Hin as Hc. rewrite <- (co_ids _ _ _ _ _ _ HV) in Hc. apply In_fst in Hc as [[Dj Ej] Hc].
    assert (geq Dj (gbmul (SetScalarRandom rgj 0)) /\ geq Ej (gbmul (SetScalarRandom rgj 1))) as [HD HE].
    { destruct (co_other _ _ _ _ _ _ HV j Dj Ej Hc Hj) as (m2 & Q1 & Q2 & Q3 & Q4 & _). destruct (AUTH m2 Q1 Q2) as (m0 & Hm0 & HS2). rewrite O in Hm0.
      destruct Hm0 as [<-|[<-|[]]].
      - destruct (same_s1 _ _ _ HS2 eq_refl eq_refl) as (b' & X1 & X2). rewrite Q4 in X1. inversion X1; subst b'. exact X2.
      - rewrite (same_type _ _ HS2) in Q3. discriminate. }
    exists sig, cl, clj. split; [exact A1|]. split; [exact HV|]. split; [exact HVj|]. split; [exact A4|].
    specialize (HX Dj Ej Hc). unfold weighted in HX. rewrite EA in HX. rewrite HA in HX. unfold nonce_point in HX. cbn [fst snd] in HX. rewrite HD, HE in HX.
    revert HX. gcollapse. intros HX. apply gb_inj in HX. unfold sig_share in HX. symmetry in HX.
    match type of HX with ?l = ?r => assert (fsub l r = f0) as HY by (rewrite HX; ring) end. rewrite <- HY. ring.
  Qed.
End SignAgree2.

(** * Key generation *)
Section KeygenAgree.
  Context `{L : group_laws} `{Hf : hash_fn}.
  Context (ids : list Z) (thr : Z) (V : valid_ids ids) (HT : is_u16 thr).
  (** The honest parties [hon] that finish, with their histories; the other parties are arbitrary. *)
  Context (hon : list Z) (rg : Z -> rng) (now timeout : Z -> Z) (s0 s : Z -> State kround) (es : Z -> list event) (out : Z -> list Message).
  Context (NEW : forall i, In i hon -> NewKeygenState (rg i) (now i) (timeout i) i ids thr = Ret (s0 i)).
  Context (RUN : forall i, In i hon -> run keygen_round (s0 i) (es i) = Ret (s i, out i)).
  Context (DONE : forall i, In i hon -> st_done (s i) = true /\ st_err (s i) = None).

  (** Commitments are broadcast: nobody's commitment differs from one honest party to another. *)
  Context (BC : forall i j m m' b b', In i hon -> In j hon -> given (es i) m \/ In m (out i) -> given (es j) m' \/ In m' (out j) ->
    m_Type m = MTKeyGen1 -> m_Type m' = MTKeyGen1 -> m_From m = m_From m' -> m_KeyGen1 m = Some b -> m_KeyGen1 m' = Some b' ->
    Forall2 geq (k1_Commitments b) (k1_Commitments b')).

  Definition counted (C : list G) (x : Fq) : G := if Nat.eqb (List.length C) (S (Z.to_nat thr)) then gpeval C x else gid.
  Lemma C0_length i : List.length (C0 (rg i) thr) = S (Z.to_nat thr).
  Proof. unfold C0, NewPolynomialExponent. rewrite map_length, p0_dealt. unfold dealt. now rewrite map_length, seq_length. Qed.
  Lemma counted_proper C C' x : Forall2 geq C C' -> geq (counted C x) (counted C' x).
  Proof. intros H. unfold counted. rewrite (Forall2_length _ _ _ H). destruct (Nat.eqb _ _); [now rewrite H|reflexivity]. Qed.

  (** What a finished party holds: for every participant a commitment that it was sent or sent itself. *)
  Lemma finished_keygen i : In i hon -> exists (Cs : Z -> list G) (sh : Z -> Fq) pub sk,
    kg_output (s i) = mkKOutput (Some pub) (Some sk) /\ sh_ID sk = i /\ sh_Secret sk = fadd (peval (p0 (rg i) thr) (idF i)) (Fsum (map sh (others_of i ids))) /\ geq (sh_Public sk) (gbmul (sh_Secret sk)) /\
    pub_PartyIDs pub = ids /\ pub_Threshold pub = thr /\ (forall j, ~ In j ids -> pub_Shares pub !! j = None) /\
    (forall j, In j ids -> exists A, pub_Shares pub !! j = Some A /\ geq A (Gsum (map (fun k => counted (Cs k) (idF j)) ids))) /\
    geq (pub_GroupKey pub) (Gsum (map (fun k => counted (Cs k) f0) ids)) /\
    (forall k, In k ids -> exists m b, (given (es i) m \/ In m (out i)) /\ m_From m = k /\ m_Type m = MTKeyGen1 /\ m_KeyGen1 m = Some b /\ k1_Commitments b = Cs k) /\
    (forall k, In k (others_of i ids) -> committed (es i) k (Cs k) /\ geq (gbmul (sh k)) (gpeval (Cs k) (idF i))) /\ Cs i = C0 (rg i) thr.
  Proof.
    intros Hi. destruct (DONE i Hi) as [D Er]. destruct (kthe_run (rg i) (now i) (timeout i) i ids thr (s0 i) (NEW i Hi) V HT (es i) (s i) (out i) (RUN i Hi)) as (r0 & E1 & HL).
    assert (In i ids) as Hin by (eapply kself_in'; eauto).
    pose proof (li_F _ _ _ _ _ _ _ HL D) as [_ H]. rewrite Er in H. destruct H as (Cs & sh & c & pub & HV & HG & [HC1 HC2] & HO & Eo & P1 & P2 & P3 & P4 & P5).
    set (Cs' := fun k => if k =? i then C0 (rg i) thr else Cs k).
    assert (forall k, In k (others_of i ids) -> Cs' k = Cs k) as HCs. { intros k Hk. apply others_of_In in Hk as [_ Hk]. unfold Cs'. now rewrite (proj2 (Z.eqb_neq k i)) by congruence. }
    assert (Cs' i = C0 (rg i) thr) as HCi by (unfold Cs'; now rewrite Z.eqb_refl).
    assert (forall x, geq (gpeval c x) (Gsum (map (fun k => counted (Cs' k) x) ids))) as HT'.
    { intros x. rewrite HC2. unfold total. rewrite (Gsum_perm _ _ (Permutation_map (fun k => counted (Cs' k) x) (others_perm i ids (proj1 V) Hin))). cbn [map]. change (Gsum (?u :: ?l)) with (gadd u (Gsum l)).
      apply gadd_proper; [rewrite HCi; unfold counted; rewrite C0_length, Nat.eqb_refl; reflexivity|]. apply Gsum_map_ext. intros k Hk. rewrite (HCs k Hk). unfold counted. rewrite C0_length. reflexivity. }
    exists Cs', sh, pub. eexists. split; [exact Eo|]. split; [reflexivity|]. split; [reflexivity|]. split; [reflexivity|]. split; [exact P1|]. split; [exact P2|]. split; [exact P4|]. split.
    { intros j Hj. destruct (P3 j Hj) as (A & A1 & A2). exists A. split; auto. rewrite A2. apply HT'. }
    split; [rewrite P5; apply HT'|]. split.
    { intros k Hk. destruct (Z.eq_dec k i) as [->|Hne].
      - eexists. eexists. split; [right; rewrite HO; left; reflexivity|]. split; [reflexivity|]. split; [reflexivity|]. split; [reflexivity|]. cbn [k1_Commitments]. now rewrite HCi.
      - assert (In k (others_of i ids)) as Hk' by (apply others_of_In; auto). destruct (HV k Hk') as (m & pr & A & tl & M1 & M2 & M3 & M4 & _). exists m. eexists. split; [left; exact M1|]. split; [exact M2|].
        split; [exact M3|]. split; [exact M4|]. cbn [k1_Commitments]. now rewrite HCs. }
    split; [|exact HCi].
    intros k Hk. rewrite (HCs k Hk). destruct (HV k Hk) as (m & pr & A & tl & M1 & M2 & M3 & M4 & _). split; [exists m, pr; auto|]. destruct (HG k Hk) as [X _]. exact X.
  Qed.

  (** All of them have the same public data: party list, threshold, group key and public shares, which lie on one polynomial. *)
  Theorem C48_keygen_agree : exists g, List.length g = S (Z.to_nat thr) /\
    forall i, In i hon -> exists pub sk, kg_output (s i) = mkKOutput (Some pub) (Some sk) /\ sh_ID sk = i /\
      pub_PartyIDs pub = ids /\ pub_Threshold pub = thr /\ geq (pub_GroupKey pub) (gbmul (spoly g f0)) /\
      (forall j, In j ids -> exists A, pub_Shares pub !! j = Some A /\ geq A (gbmul (spoly g (qof j)))) /\
      (forall j, ~ In j ids -> pub_Shares pub !! j = None) /\
      (* and secret shares on it if nobody commits to a polynomial of another degree *)
      ((forall j C, In j ids -> j <> i -> committed (es i) j C -> List.length C = S (Z.to_nat thr)) -> sh_Secret sk = spoly g (qof i)).
  Proof.
    destruct hon as [|i0 hon'] eqn:EH; [exists (repeat f0 (S (Z.to_nat thr))); split; [apply repeat_length|intros i []]|]. rewrite <- EH in *.
    assert (In i0 hon) as H0 by (rewrite EH; now left). clear EH.
    destruct (finished_keygen i0 H0) as (Cs0 & sh0 & pub0 & sk0 & _ & _ & _ & _ & _ & _ & _ & _ & _ & HCs0 & _).
    assert (forall l : list Z, exists g, List.length g = S (Z.to_nat thr) /\ forall x, geq (Gsum (map (fun k => counted (Cs0 k) x) l)) (gbmul (spoly g x))) as X.
    { induction l as [|k l (g & G1 & G2)].
      - exists (repeat f0 (S (Z.to_nat thr))). rewrite repeat_length. split; auto. intros x. rewrite <- peval_spoly. cbn [map].
        assert (forall n, peval (repeat f0 n) x = f0) as Hz. { induction n as [|n IH]; cbn [repeat peval]; [reflexivity|]. rewrite IH. ring. }
        rewrite Hz. apply gb_id.
      - cbn [map]. destruct (Nat.eqb_spec (List.length (Cs0 k)) (S (Z.to_nat thr))) as [El|El].
        + destruct (commit_gen (Cs0 k)) as (h & H1 & H2). exists (padd h g). split; [rewrite padd_length, G1, H1; lia|]. intros x. change (Gsum (?u :: ?l)) with (gadd u (Gsum l)).
          cbv beta. unfold counted at 1. rewrite El, Nat.eqb_refl. rewrite G2, H2, gpeval_commit, gb_add, <- !peval_spoly, padd_eval. reflexivity.
        + exists g. split; auto. intros x. change (Gsum (?u :: ?l)) with (gadd u (Gsum l)). cbv beta. unfold counted at 1. rewrite (proj2 (Nat.eqb_neq _ _) El), G2. apply gadd_id_l. }
    destruct (X ids) as (g & G1 & G2). exists g. split; [exact G1|]. intros i Hi.
    destruct (finished_keygen i Hi) as (Cs & sh & pub & sk & A1 & A2 & A3 & A4 & A5 & A6 & A7 & A8 & A9 & A10 & A11 & A12).
    assert (forall k, In k ids -> Forall2 geq (Cs k) (Cs0 k)) as HE.
    { intros k Hk. destruct (A10 k Hk) as (m & b & M1 & M2 & M3 & M4 & <-). destruct (HCs0 k Hk) as (m' & b' & N1 & N2 & N3 & N4 & <-).
      exact (BC i i0 m m' b b' Hi H0 M1 N1 M3 N3 ltac:(congruence) M4 N4). }
    assert (forall x, geq (Gsum (map (fun k => counted (Cs k) x) ids)) (gbmul (spoly g x))) as HS.
    { intros x. rewrite <- G2. apply Gsum_map_ext. intros k Hk. apply counted_proper. auto. }
    exists pub, sk. split; [exact A1|]. split; [exact A2|]. split; [exact A5|]. split; [exact A6|]. split; [rewrite A9; apply HS|]. split.
    { intros j Hj. destruct (A8 j Hj) as (A & B1 & B2). exists A. split; auto. rewrite B2. apply HS. }
    split; [exact A7|]. intros HLen. apply gb_inj. rewrite A3. change (qof i) with (idF i). rewrite <- (HS (idF i)).
    assert (In i ids) as Hin by (eapply kself_in'; eauto).
    rewrite (Gsum_perm _ _ (Permutation_map (fun k => counted (Cs k) (idF i)) (others_perm i ids (proj1 V) Hin))). cbn [map]. change (Gsum (?u :: ?l)) with (gadd u (Gsum l)).
    rewrite <- gb_add. apply gadd_proper.
    - rewrite A12. unfold counted. rewrite C0_length, Nat.eqb_refl. unfold C0. now rewrite gpeval_commit.
    - rewrite <- Gsum_gbmul. apply Gsum_map_ext. intros k Hk. destruct (A11 k Hk) as [K1 K2]. rewrite K2. apply others_of_In in Hk as [Hk Hne].
      unfold counted. rewrite (HLen k (Cs k) Hk ltac:(congruence) K1), Nat.eqb_refl. reflexivity.
  Qed.
End KeygenAgree.

(** Signing with the keys of such a run, by signers that are all honest: the signature is valid for the key of each of them. *)
Section AgreeThenSign.
  Context `{L : group_laws} `{Hf : hash_fn} (HH : hash_ok Hf).
  Context (ids : list Z) (thr : Z) (V : valid_ids ids) (HT : is_u16 thr).
  Context (hon : list Z) (rg : Z -> rng) (now timeout : Z -> Z) (s0 s : Z -> State kround) (es : Z -> list event) (out : Z -> list Message).
  Context (NEW : forall i, In i hon -> NewKeygenState (rg i) (now i) (timeout i) i ids thr = Ret (s0 i)).
  Context (RUN : forall i, In i hon -> run keygen_round (s0 i) (es i) = Ret (s i, out i)).
  Context (DONE : forall i, In i hon -> st_done (s i) = true /\ st_err (s i) = None).
  Context (BC : forall i j m m' b b', In i hon -> In j hon -> given (es i) m \/ In m (out i) -> given (es j) m' \/ In m' (out j) ->
    m_Type m = MTKeyGen1 -> m_Type m' = MTKeyGen1 -> m_From m = m_From m' -> m_KeyGen1 m = Some b -> m_KeyGen1 m' = Some b' ->
    Forall2 geq (k1_Commitments b) (k1_Commitments b')).
  Context (LEN : forall i j C, In i hon -> In j ids -> j <> i -> committed (es i) j C -> List.length C = S (Z.to_nat thr)).
  Context (Vs : valid_ids hon) (Hnum : thr + 1 <= Z.of_nat (List.length hon)).
  Context (pub : Z -> Public) (sk : Z -> SecretShare) (OUT : forall i, In i hon -> kg_output (s i) = mkKOutput (Some (pub i)) (Some (sk i))).
  Context (message : list byte) (rs : Z -> rng) (nows timeouts : Z -> Z) (ss : Z -> State sround).
  Context (NEWS : forall i, In i hon -> NewSignState (rs i) (nows i) (timeouts i) hon (sk i) (pub i) message = Ret (ss i)).
  Context (NZ : forall i, In i hon -> SetScalarRandom (rs i) 0 <> f0 /\ SetScalarRandom (rs i) 1 <> f0).

  Theorem C48_then_sign : forall cs i j, net_reach sign_round hon (mkConfig ss []) cs -> In i hon -> In j hon -> st_done (cf_state cs i) = true ->
    match st_err (cf_state cs i) with
    | Some err => pe_PartyID err = 0 /\ pe_text err = "message timeout"%string
    | None => exists sig, sg_output (cf_state cs i) = Some sig /\ Verify (pub_GroupKey (pub j)) message sig = true
    end.
  Proof.
    intros cs i j HRs Hi Hj D.
    destruct (C48_keygen_agree ids thr V HT hon rg now timeout s0 s es out NEW RUN DONE BC) as (g & G1 & G2).
    assert (forall k, In k hon -> sh_ID (sk k) = k /\ sh_Secret (sk k) = spoly g (qof k) /\ geq (pub_GroupKey (pub k)) (gbmul (spoly g f0)) /\
      (forall l, In l ids -> exists A, pub_Shares (pub k) !! l = Some A /\ geq A (gbmul (spoly g (qof l))))) as HK.
    { intros k Hk. destruct (G2 k Hk) as (p & x & E & A1 & A2 & A3 & A4 & A5 & A6 & A7). rewrite (OUT k Hk) in E. inversion E; subst p x.
      split; [exact A1|]. split; [apply A7; intros l C; now apply LEN|]. auto. }
    assert (forall l, In l hon -> In l ids) as Hincl by (intros l Hl; eapply kself_in'; eauto).
    pose proof (C02_honest HH (Z.to_nat thr) g hon ltac:(unfold degree_le; lia) Vs ltac:(unfold is_u16 in HT; lia) message rs pub sk nows timeouts ss) as X.
    specialize (X ltac:(intros k Hk; now destruct (HK k Hk) as (? & ? & _)) ltac:(intros k l Hk Hl; apply (HK k Hk); auto)
      ltac:(intros k Hk; apply (HK k Hk)) NEWS NZ cs i HRs Hi D).
    destruct (st_err (cf_state cs i)); auto. destruct X as (sig & S1 & _ & _ & S2). exists sig. split; auto.
    apply Verify_iff; auto. apply Verify_iff in S2; auto. eapply schnorr_valid_proper; [apply (HK j Hj)|reflexivity|exact S2].
  Qed.
End AgreeThenSign.

(** * Without the broadcast *)
Section Equivocation.
  Context `{L : group_laws} `{Hf : hash_fn}.

  Lemma shared_differ ids thr a (rg : Z -> rng) rga : valid_ids ids -> In a ids ->
    SetScalarRandom (rg a) 0 <> SetScalarRandom rga 0 -> shared ids thr rg f0 <> shared ids thr (fun k => if k =? a then rga else rg k) f0.
  Proof.
    intros V Ha Hne E. apply Hne. unfold shared in E.
    rewrite (Fsum_perm _ _ (Permutation_map _ (others_perm a ids (proj1 V) Ha))) in E.
    rewrite (Fsum_perm (map (fun j => spoly (dealt (if j =? a then rga else rg j) (Z.to_nat thr)) f0) ids) _ (Permutation_map _ (others_perm a ids (proj1 V) Ha))) in E.
    cbn [map] in E. change (Fsum (?u :: ?l)) with (fadd u (Fsum l)) in E. rewrite Z.eqb_refl in E.
    rewrite (map_ext_in (fun j => spoly (dealt (if j =? a then rga else rg j) (Z.to_nat thr)) f0) (fun j => spoly (dealt (rg j) (Z.to_nat thr)) f0) (others_of a ids)) in E.
    2:{ intros j Hj. apply others_of_In in Hj as [_ Hj]. now rewrite (proj2 (Z.eqb_neq j a)) by congruence. }
    rewrite <- !peval_spoly, !peval_0 in E. change (nth 0 (dealt ?r ?n) ?x) with (SetScalarRandom r 0) in E.
    match type of E with fadd ?u ?c = fadd ?v ?c => assert (u = fsub (fadd u c) c) as -> by ring; rewrite E; ring end.
  Qed.

  (** One party that deals one polynomial to some and another one to the others: whatever the parties draw, there is an execution in
      which all others follow the protocol, all of them finish without error, and those with [w] have another group key than
      those without.  Nothing in the library lets them notice. *)
  Theorem C48_equivocation_refuted : forall ids thr a (rg : Z -> rng) rga now timeout s0 (w : Z -> bool), valid_ids ids -> sorted ids -> is_u16 thr -> In a ids ->
    (forall k, In k ids -> NewKeygenState (rg k) (now k) (timeout k) k ids thr = Ret (s0 k)) ->
    SetScalarRandom (rg a) 0 <> SetScalarRandom rga 0 ->
    exists (es : Z -> list event) (s : Z -> State kround) (out : Z -> list Message) (pub : Z -> Public) (sk : Z -> SecretShare),
      (forall k, In k ids -> k <> a -> run keygen_round (s0 k) (es k) = Ret (s k, out k) /\ st_done (s k) = true /\ st_err (s k) = None /\
        kg_output (s k) = mkKOutput (Some (pub k)) (Some (sk k))) /\
      (forall k m, In k ids -> k <> a -> given (es k) m -> m_From m <> a -> In (m_From m) ids /\ exists m0, In m0 (out (m_From m)) /\ same_msg m0 m) /\
      (forall i j, In i ids -> In j ids -> i <> a -> j <> a -> (geq (pub_GroupKey (pub i)) (pub_GroupKey (pub j)) <-> w i = w j)).
  Proof.
    intros ids thr a rg rga now timeout s0 w V HS HT Ha NEW Hne.
    set (rgw := fun (b : bool) k => if k =? a then (if b then rga else rg k) else rg k).
    assert (forall b k, k <> a -> rgw b k = rg k) as Hk. { intros b k Hka. unfold rgw. now rewrite (proj2 (Z.eqb_neq k a) Hka). }
    assert (exists xa, NewKeygenState rga (now a) (timeout a) a ids thr = Ret xa) as [xa Hxa].
    { pose proof (NEW a Ha) as E. unfold NewKeygenState in *. apply obind_ret in E as (r0 & E & _).
      unfold kg_NewRound in *. destruct (thr =? 0); [discriminate|]. destruct (_ <? _); [discriminate|]. apply obind_ret in E as (base & E & _). rewrite E. eexists. reflexivity. }
    set (sb := fun (b : bool) k => if k =? a then (if b then xa else s0 k) else s0 k).
    assert (forall b k, k <> a -> sb b k = s0 k) as Hsb. { intros b k Hka. unfold sb. now rewrite (proj2 (Z.eqb_neq k a) Hka). }
    assert (forall b k, In k ids -> NewKeygenState (rgw b k) (now k) (timeout k) k ids thr = Ret (sb b k)) as NEWb.
    { intros b k Hin. unfold rgw, sb. destruct (Z.eqb_spec k a) as [->|]; [destruct b; auto|]; auto. }
    assert (forall b, exists c, net_reach keygen_round ids (mkConfig (sb b) []) c /\ forall i, In i ids -> st_done (cf_state c i) = true /\ st_err (cf_state c i) = None) as HC
      by (intros b; exact (C04_completes ids thr V HT (rgw b) now timeout (sb b) (NEWb b) HS)).
    destruct (choice_ids (fun k x => let '(es, s, out, pub, sk) := x in k <> a ->
       run keygen_round (s0 k) es = Ret (s, out) /\ st_done s = true /\ st_err s = None /\ kg_output s = mkKOutput (Some pub) (Some sk) /\
       geq (pub_GroupKey pub) (gbmul (shared ids thr (rgw (w k)) f0)) /\
       (forall m, given es m -> KW ids thr (rgw (w k)) m) /\ out = own_KG1 (rg k) k thr :: own_KG2s (rg k) k ids thr) ids
       ([], s0 a, [], mkPublic [] 0 ∅ gid, NewSecretShare 0 f0)) as [f Hfk].
    { intros k Hin. destruct (Z.eq_dec k a) as [->|Hka]; [exists ([], s0 a, [], mkPublic [] 0 ∅ gid, NewSecretShare 0 f0); congruence|].
      destruct (HC (w k)) as (c & HR & HD). destruct (HD k Hin) as [D Er]. set (b := w k) in *.
      pose proof (khonest_out ids thr V HT (rgw b) now timeout (sb b) (NEWb b)) as HKO.
      destruct (net_local_W keygen_round (KU ids thr (rgw b)) (KW ids thr (rgw b)) ids (sb b) c (KUW ids thr (rgw b)) HKO HR k) as (es & out & HE & E).
      pose proof (khonest_final ids thr V HT (rgw b) now timeout (sb b) (NEWb b) k es _ _ Hin HE E D) as X. rewrite Er in X.
      destruct X as (pub & sk & X1 & _ & _ & _ & _ & _ & X2 & _).
      destruct (khonest_run ids thr V HT (rgw b) now timeout (sb b) (NEWb b) k es _ _ Hin HE E) as (r0 & _ & _ & HL).
      pose proof (li_F _ _ _ _ _ _ _ HL D) as [_ HF]. rewrite Er in HF. destruct HF as (_ & _ & _ & _ & _ & _ & _ & HO & _).
      exists (es, cf_state c k, out, pub, sk). intros _. rewrite (Hsb b k Hka) in E. rewrite (Hk b k Hka) in HO.
      split; [exact E|]. split; [exact D|]. split; [exact Er|]. split; [exact X1|]. split; [exact X2|]. split; [|exact HO].
      intros m (nw & Hm). rewrite List.Forall_forall in HE. exact (HE _ Hm). }
    exists (fun k => fst (fst (fst (fst (f k))))), (fun k => snd (fst (fst (fst (f k))))), (fun k => snd (fst (fst (f k)))), (fun k => snd (fst (f k))), (fun k => snd (f k)).
    assert (forall k, In k ids -> k <> a -> let '(es, s, out, pub, sk) := f k in
       run keygen_round (s0 k) es = Ret (s, out) /\ st_done s = true /\ st_err s = None /\ kg_output s = mkKOutput (Some pub) (Some sk) /\
       geq (pub_GroupKey pub) (gbmul (shared ids thr (rgw (w k)) f0)) /\
       (forall m, given es m -> KW ids thr (rgw (w k)) m) /\ out = own_KG1 (rg k) k thr :: own_KG2s (rg k) k ids thr) as Hf'.
    { intros k Hin Hka. pose proof (Hfk k Hin) as X. destruct (f k) as [[[[es s] out] pub] sk]. exact (X Hka). }
    clear Hfk. split; [|split].
    - intros k Hin Hka. specialize (Hf' k Hin Hka). destruct (f k) as [[[[es s] out] pub] sk]. cbn [fst snd]. tauto.
    - intros k m Hin Hka Hg Hfr. pose proof (Hf' k Hin Hka) as X. destruct (f k) as [[[[es s] out] pub] sk]. cbn [fst snd] in Hg. destruct X as (_ & _ & _ & _ & _ & X & _).
      destruct (X m Hg) as (m0 & (l & Hl & Hm) & Hsame).
      assert (m_From m = l) as El. { rewrite (same_from _ _ Hsame). destruct Hm as [->|Hm]; [reflexivity|]. apply in_map_iff in Hm as (i & <- & _). reflexivity. }
      rewrite El in *. split; [exact Hl|]. exists m0. split; [|exact Hsame]. pose proof (Hf' l Hl Hfr) as Y. destruct (f l) as [[[[es' s'] out'] pub'] sk']. cbn [fst snd].
      destruct Y as (_ & _ & _ & _ & _ & _ & ->). rewrite (Hk _ l Hfr) in Hm. destruct Hm as [->|Hm]; [now left|now right].
    - intros i j Hi Hj Hia Hja. pose proof (Hf' i Hi Hia) as X. pose proof (Hf' j Hj Hja) as Y. destruct (f i) as [[[[es s] out] pub] sk]. destruct (f j) as [[[[es' s'] out'] pub'] sk']. cbn [fst snd].
      destruct X as (_ & _ & _ & _ & X & _). destruct Y as (_ & _ & _ & _ & Y & _). rewrite X, Y.
      assert (forall b b', b <> b' -> shared ids thr (rgw b) f0 <> shared ids thr (rgw b') f0) as HD.
      { assert (shared ids thr (rgw false) f0 = shared ids thr rg f0) as E0.
        { unfold shared. f_equal. apply map_ext. intros k. unfold rgw. destruct (k =? a); reflexivity. }
        pose proof (shared_differ ids thr a rg rga V Ha Hne) as E1. change (fun k => if k =? a then rga else rg k) with (rgw true) in E1. rewrite <- E0 in E1.
        intros [] [] Hbb; [exfalso; exact (Hbb eq_refl)|intros E2; apply E1; symmetry; exact E2|exact E1|exfalso; exact (Hbb eq_refl)]. }
      split; [|intros ->; reflexivity]. intros E. apply gb_inj in E. destruct (Bool.bool_dec (w i) (w j)) as [|Hw]; auto. exfalso. exact (HD _ _ Hw E).
  Qed.
End Equivocation.

(** * Concrete cases in the toy group *)
(** Signers 1, 2, 3; [x] is what party 3 sends as Sign1. *)
Definition s123 : list Z := [1; 2; 3].
Definition eq_sg1 (i : Z) : list tmsg := ts_out (ts_run (ts_new s123 i 0) [prc]).
Definition eq_other : tmsg := @NewSign1 toy_group 3 (qof 7) (qof 9).
(** The histories: what 1 and 2 are given in round 1, and the messages of round 2 handed to 1. *)
Definition eq_first (x : list tmsg) (i : Z) : list (@event toy_group) := prc :: hnd (eq_sg1 1 ++ eq_sg1 2 ++ x) ++ [prc].
Definition eq_sg2 (x : list tmsg) (i : Z) : list tmsg := skipn 1 (ts_out (ts_run (ts_new s123 i 0) (eq_first x i))).
Definition eq_run (i : Z) (es : list (@event toy_group)) : tsstate * list tmsg := match ts_run (ts_new s123 i 0) es with Ret r => r | _ => (match ts_new s123 i 0 with Ret s => s | _ => ts0 1 end, []) end.

Definition ts0' (i : Z) : tsstate := match ts_new s123 i 0 with Ret s => s | _ => ts0 1 end.
Lemma eq_new i : In i s123 -> exists s0, ts_new s123 i 0 = Ret s0.
Proof. intros Hi. exists (ts0' i). apply ret_default. destruct Hi as [<-|[<-|[<-|[]]]]; vm_compute; reflexivity. Qed.
(** Whatever a signer is given, what it sends starts with its commitments. *)
Lemma eq_sent i es : In i s123 -> match snd (eq_run i es) with [] => True | m :: _ => m = @NewSign1 toy_group i (gbmul (SetScalarRandom (toy_rng i) 0)) (gbmul (SetScalarRandom (toy_rng i) 1)) end.
Proof.
  intros Hi. unfold eq_run, ts_run. destruct (eq_new i Hi) as [s0 E]. rewrite E. cbn [obind]. destruct (@run toy_group tsround tsg s0 es) as [[s out]| |] eqn:ER; [|exact Logic.I|exact Logic.I]. cbn [snd].
  destruct (@C14_same_nonces toy_group toy_laws toy_hash toy_hash_ok (toy_rng i) 0 0 s123 (t_secret i) t_public t_message s0 E) with (es := es) (s := s) (out := out) as [->|[->|(cl & _ & ->)]].
  - repeat constructor; cbn; lia.
  - repeat constructor; cbn; lia.
  - exact ER.
  - exact Logic.I.
  - reflexivity.
  - reflexivity.
Qed.
Lemma eq_sg1_sent i es : In i s123 -> snd (eq_run i es) <> [] -> forall m, In m (eq_sg1 i) -> In m (snd (eq_run i es)).
Proof.
  intros Hi Hne m Hm. pose proof (eq_sent i es Hi) as X. pose proof (eq_sent i [prc] Hi) as Y.
  assert (eq_sg1 i = snd (eq_run i [prc])) as E. { unfold eq_sg1, ts_out, eq_run. destruct (ts_run _ _) as [[]| |]; reflexivity. }
  assert (List.length (eq_sg1 i) = 1%nat) as El. { clear - Hi. destruct Hi as [<-|[<-|[<-|[]]]]; vm_compute; reflexivity. }
  rewrite E in Hm, El. destruct (snd (eq_run i [prc])) as [|y [|? ?]]; [destruct Hm| |discriminate El]. destruct Hm as [<-|[]].
  destruct (snd (eq_run i es)) as [|x l]; [now destruct Hne|]. subst. now left.
Qed.
Lemma eq_run_ret i es : match ts_run (ts_new s123 i 0) es with Ret _ => true | _ => false end = true -> ts_run (ts_new s123 i 0) es = Ret (fst (eq_run i es), snd (eq_run i es)).
Proof. unfold eq_run. destruct (ts_run _ _) as [[]| |]; [reflexivity|discriminate|discriminate]. Qed.
Lemma nonempty_length {A} (l : list A) : Nat.eqb (List.length l) 0 = false -> l <> [].
Proof. destruct l; discriminate. Qed.
Lemma given_hnd m l : In m l <-> @given toy_group (hnd l) m.
Proof.
  unfold given, hnd. split.
  - intros H. exists 0. apply in_map_iff. eauto.
  - intros (nw & H). apply in_map_iff in H as (x & E & H). inversion E; subst. exact H.
Qed.
Lemma given_app es es' m : @given toy_group (es ++ es') m <-> @given toy_group es m \/ @given toy_group es' m.
Proof. unfold given. split; [intros (nw & H); apply in_app_iff in H as [H|H]; eauto|intros [(nw & H)|(nw & H)]; exists nw; apply in_app_iff; auto]. Qed.
Lemma given_prc m : ~ @given toy_group [prc] m.
Proof. intros (nw & [H|[]]). discriminate. Qed.
Local Opaque eq_sg1.
Lemma given_start l m : @given toy_group (prc :: hnd l ++ [prc]) m -> In m l.
Proof.
  change (prc :: ?l) with ([prc] ++ l). intros H. apply given_app in H as [H|H]; [destruct (given_prc m H)|].
  apply given_app in H as [H|H]; [now apply given_hnd|destruct (given_prc m H)].
Qed.
Lemma in_app3 {A} (a b c : list A) x : In x (a ++ b ++ c) -> In x a \/ In x b \/ In x c.
Proof. rewrite !in_app_iff. auto. Qed.
Definition given_first1 x i m (H : @given toy_group (eq_first x i) m) : In m (eq_sg1 1) \/ In m (eq_sg1 2) \/ In m x := in_app3 _ _ _ m (given_start _ m H).
Lemma given_rounds A B C m : @given toy_group (A ++ hnd B ++ hnd C ++ [prc]) m -> @given toy_group A m \/ In m B \/ In m C.
Proof.
  intros H. apply given_app in H as [H|H]; [now left|]. apply given_app in H as [H|H]; [apply given_hnd in H; auto|].
  apply given_app in H as [H|H]; [apply given_hnd in H; auto|]. destruct (given_prc m H).
Qed.
Lemma eq_sg2_sent x i m : In m (eq_sg2 x i) -> In m (snd (eq_run i (eq_first x i))).
Proof.
  unfold eq_sg2, eq_run. destruct (ts_run _ _) as [[s out]| |]; cbn [ts_out snd]; try (intros H; exact H). destruct out; [intros H; exact H|]. intros H. right. exact H.
Qed.
Local Opaque eq_sg1 eq_sg2 eq_run.
(** The broadcast assumption of [C09_sign_blame] is needed: party 3 gives different commitments to 1 and 2, and 1 blames 2, which
    followed the protocol, and whose messages were all delivered as sent. *)
Definition eq_es1 : list (@event toy_group) := eq_first (eq_sg1 3) 1 ++ hnd (eq_sg2 [eq_other] 2) ++ hnd (eq_sg2 (eq_sg1 3) 3) ++ [prc].
Definition eq_es2 : list (@event toy_group) := eq_first [eq_other] 2.
Theorem C48_blame_refuted : exists (s1 s2 : tsstate) (out1 out2 : list tmsg) err,
  ts_run (ts_new s123 1 0) eq_es1 = Ret (s1, out1) /\ ts_run (ts_new s123 2 0) eq_es2 = Ret (s2, out2) /\
  (forall m, given eq_es1 m -> m_From m = 2 -> In m out2) /\ (forall m, given eq_es2 m -> m_From m = 1 -> In m out1) /\
  st_err s1 = Some err /\ pe_PartyID err = 2 /\ st_err s2 = None.
Proof.
  exists (fst (eq_run 1 eq_es1)), (fst (eq_run 2 eq_es2)), (snd (eq_run 1 eq_es1)), (snd (eq_run 2 eq_es2)).
  assert (match st_err (fst (eq_run 1 eq_es1)) with Some e => pe_PartyID e | None => 0 end = 2) as E by (vm_compute; reflexivity).
  assert (match st_err (fst (eq_run 2 eq_es2)) with Some e => false | None => true end = true) as E2 by (vm_compute; reflexivity).
  assert (snd (eq_run 1 eq_es1) <> []) as N1 by (apply nonempty_length; vm_compute; reflexivity).
  assert (snd (eq_run 2 eq_es2) <> []) as N2 by (apply nonempty_length; vm_compute; reflexivity).
  assert (forall i l, forallb (fun m => m_From m =? i) l = true -> forall m : tmsg, In m l -> m_From m = i) as HF.
  { intros i l H m Hm. rewrite forallb_forall in H. apply Z.eqb_eq. auto. }
  assert (forall m, In m (eq_sg1 1) -> m_From m = 1) as F1 by (apply HF; vm_compute; reflexivity).
  assert (forall m, In m (eq_sg1 2) -> m_From m = 2) as F2 by (apply HF; vm_compute; reflexivity).
  assert (forall m, In m (eq_sg1 3) -> m_From m = 3) as F3 by (apply HF; vm_compute; reflexivity).
  assert (forall m, In m (eq_sg2 (eq_sg1 3) 3) -> m_From m = 3) as F4 by (apply HF; vm_compute; reflexivity).
  destruct (st_err (fst (eq_run 1 eq_es1))) as [err|] eqn:Er; [|discriminate E]. exists err.
  split; [apply eq_run_ret; vm_compute; reflexivity|]. split; [apply eq_run_ret; vm_compute; reflexivity|]. split; [|split].
  - intros m Hm Hfr. unfold eq_es1 in Hm. destruct (given_rounds _ _ _ _ Hm) as [Hm1|[Hm1|Hm1]]; [destruct (given_first1 _ _ _ Hm1) as [Hm2|[Hm2|Hm2]]| |].
    + rewrite (F1 m Hm2) in Hfr. discriminate Hfr.
    + apply (eq_sg1_sent 2); [right; left; reflexivity|exact N2|exact Hm2].
    + rewrite (F3 m Hm2) in Hfr. discriminate Hfr.
    + exact (eq_sg2_sent [eq_other] 2 m Hm1).
    + rewrite (F4 m Hm1) in Hfr. discriminate Hfr.
  - intros m Hm Hfr. unfold eq_es2 in Hm. destruct (given_first1 _ _ _ Hm) as [Hm2|[Hm2|[<-|[]]]].
    + apply (eq_sg1_sent 1); [left; reflexivity|exact N1|exact Hm2].
    + rewrite (F2 m Hm2) in Hfr. discriminate Hfr.
    + discriminate Hfr.
  - split; [reflexivity|]. split; [exact E|]. destruct (st_err (fst (eq_run 2 eq_es2))); [discriminate E2|reflexivity].
Qed.

(** ** The hypotheses of the agreement theorems *)
Definition chk_sign (l l' : list tmsg) : bool :=
  forallb (fun m => forallb (fun m' => negb ((m_Type m =? MTSign1) && (m_Type m' =? MTSign1) && (m_From m =? m_From m')) ||
    match m_Sign1 m, m_Sign1 m' with Some b, Some b' => @geqb toy_group (s1_Di b) (s1_Di b') && @geqb toy_group (s1_Ei b) (s1_Ei b') | _, _ => true end) l') l.
Definition handed (es : list (@event toy_group)) : list tmsg := flat_map (fun e => match e with EHandle _ m => [m] | _ => [] end) es.
Lemma handed_given es m : @given toy_group es m -> In m (handed es).
Proof. intros (nw & H). apply in_flat_map. exists (EHandle nw m). split; [exact H|now left]. Qed.
Lemma in_handed es (out : list tmsg) m : @given toy_group es m \/ In m out -> In m (handed es ++ out).
Proof. intros [H|H]; apply in_app_iff; [left; now apply handed_given|now right]. Qed.
Lemma chk_sign_ok es es' (out out' : list tmsg) : chk_sign (handed es ++ out) (handed es' ++ out') = true -> @same_commitments toy_group es es' out out'.
Proof.
  intros H m m' b b' Hm Hm' T T' Hfr Hb Hb'. unfold chk_sign in H. rewrite forallb_forall in H.
  pose proof (in_handed es out m Hm) as I1. pose proof (in_handed es' out' m' Hm') as I2.
  specialize (H m I1). rewrite forallb_forall in H. specialize (H m' I2). rewrite T, T', Hfr, !Z.eqb_refl, Hb, Hb' in H. cbn [negb andb orb] in H.
  apply andb_true_iff in H as [H1 H2]. split; [exact H1|exact H2].
Qed.
(** Signers 1 and 2 finish. *)
Definition ag_es (i : Z) : list (@event toy_group) := eq_first (eq_sg1 3) i ++ hnd (flat_map (eq_sg2 (eq_sg1 3)) s123) ++ [prc].
Definition both_ok (r1 r2 : outcome (tsstate * list tmsg)) (l1 l2 : list tmsg) : bool :=
  match r1, r2 with
  | Ret (s1, o1), Ret (s2, o2) => match st_err s1, st_err s2 with None, None => st_done s1 && st_done s2 && chk_sign (l1 ++ o1) (l2 ++ o2) | _, _ => false end
  | _, _ => false end.
Example C48_sign_example :
  (exists s1 o1 s2 o2, ts_run (ts_new s123 1 0) (ag_es 1) = Ret (s1, o1) /\ ts_run (ts_new s123 2 0) (ag_es 2) = Ret (s2, o2) /\
     st_done s1 = true /\ st_done s2 = true /\ st_err s1 = None /\ st_err s2 = None /\ @same_commitments toy_group (ag_es 1) (ag_es 2) o1 o2).
Proof.
  assert (both_ok (ts_run (ts_new s123 1 0) (ag_es 1)) (ts_run (ts_new s123 2 0) (ag_es 2)) (handed (ag_es 1)) (handed (ag_es 2)) = true) as H by (vm_compute; reflexivity). unfold both_ok in H.
  destruct (ts_run (ts_new s123 1 0) (ag_es 1)) as [[s1 o1]| |]; [|discriminate H|discriminate H].
  destruct (ts_run (ts_new s123 2 0) (ag_es 2)) as [[s2 o2]| |]; [|discriminate H|discriminate H]. exists s1, o1, s2, o2.
  destruct (st_err s1); [discriminate H|]. destruct (st_err s2); [discriminate H|]. apply andb_true_iff in H as [H H3]. apply andb_true_iff in H as [H1 H2].
  split; [reflexivity|]. split; [reflexivity|]. split; [exact H1|]. split; [exact H2|]. split; [reflexivity|]. split; [reflexivity|]. now apply chk_sign_ok.
Qed.

(** Key generation: party 3 commits to a polynomial of degree 2 where the threshold is 1, and sends shares that fit it. *)
Definition ka_bad1 : tmsg := @NewKeyGen1 toy_group 3 (mkSchnorr f0 f0) [qof 5; qof 6; qof 7].
Definition ka_bad2 (i : Z) : tmsg := @NewKeyGen2 toy_group 3 i (qof (5 + 6 * i + 7 * i * i)).
Definition ka_first (i : Z) : list (@event toy_group) := prc :: hnd (kg1_of 1 ++ kg1_of 2 ++ [ka_bad1]) ++ [prc].
Definition ka_kg2 (i : Z) : list tmsg := skipn 1 (tk_out (tk_run (tk_new k3 1 i 0) (ka_first i))).
Definition ka_es (i : Z) : list (@event toy_group) := ka_first i ++ hnd (ka_kg2 1 ++ ka_kg2 2 ++ [ka_bad2 1; ka_bad2 2]) ++ [prc].
Definition ka_run (i : Z) : tkstate * list tmsg := match tk_run (tk_new k3 1 i 0) (ka_es i) with Ret r => r | _ => (tk0 1, []) end.
Fixpoint eqb_exps (l l' : list (@G toy_group)) : bool :=
  match l, l' with [], [] => true | x :: l, y :: l' => @geqb toy_group x y && eqb_exps l l' | _, _ => false end.
Lemma eqb_exps_ok l l' : eqb_exps l l' = true -> Forall2 (@geq toy_group) l l'.
Proof. revert l'. induction l as [|x l IH]; intros [|y l'] H; try discriminate; [constructor|]. cbn in H. apply andb_true_iff in H as [H1 H2]. constructor; [exact H1|auto]. Qed.
Definition chk_keygen (l l' : list tmsg) : bool :=
  forallb (fun m => forallb (fun m' => negb ((m_Type m =? MTKeyGen1) && (m_Type m' =? MTKeyGen1) && (m_From m =? m_From m')) ||
    match m_KeyGen1 m, m_KeyGen1 m' with Some b, Some b' => eqb_exps (k1_Commitments b) (k1_Commitments b') | _, _ => true end) l') l.
Lemma chk_keygen_ok es es' (out out' : list tmsg) : chk_keygen (handed es ++ out) (handed es' ++ out') = true ->
  forall m m' b b', given es m \/ In m out -> given es' m' \/ In m' out' -> m_Type m = MTKeyGen1 -> m_Type m' = MTKeyGen1 -> m_From m = m_From m' ->
    m_KeyGen1 m = Some b -> m_KeyGen1 m' = Some b' -> Forall2 (@geq toy_group) (k1_Commitments b) (k1_Commitments b').
Proof.
  intros H m m' b b' Hm Hm' T T' Hfr Hb Hb'. unfold chk_keygen in H. rewrite forallb_forall in H.
  specialize (H m (in_handed es out m Hm)). rewrite forallb_forall in H. specialize (H m' (in_handed es' out' m' Hm')).
  rewrite T, T', Hfr, !Z.eqb_refl, Hb, Hb' in H. cbn [negb andb orb] in H. now apply eqb_exps_ok.
Qed.
Example C48_keygen_example :
  valid_ids k3 /\
  (forall i, In i [1; 2] -> tk_new k3 1 i 0 = Ret (tk0 i) /\ @run toy_group tkround tkg (tk0 i) (ka_es i) = Ret (fst (ka_run i), snd (ka_run i)) /\
     st_done (fst (ka_run i)) = true /\ st_err (fst (ka_run i)) = None) /\
  (forall i j m m' b b', In i [1; 2] -> In j [1; 2] -> given (ka_es i) m \/ In m (snd (ka_run i)) -> given (ka_es j) m' \/ In m' (snd (ka_run j)) ->
     m_Type m = MTKeyGen1 -> m_Type m' = MTKeyGen1 -> m_From m = m_From m' -> m_KeyGen1 m = Some b -> m_KeyGen1 m' = Some b' ->
     Forall2 (@geq toy_group) (k1_Commitments b) (k1_Commitments b')).
Proof.
  split; [split; repeat constructor; cbn; lia|]. split.
  - intros i Hi. assert (tk_new k3 1 i 0 = Ret (tk0 i)) as EN. { apply ret_default. destruct Hi as [<-|[<-|[]]]; vm_compute; reflexivity. }
    assert (tk_run (tk_new k3 1 i 0) (ka_es i) = Ret (ka_run i)) as ER. { apply ret_default. destruct Hi as [<-|[<-|[]]]; vm_compute; reflexivity. }
    assert (match st_err (fst (ka_run i)) with None => st_done (fst (ka_run i)) | _ => false end = true) as A by (destruct Hi as [<-|[<-|[]]]; vm_compute; reflexivity).
    split; [exact EN|]. split; [rewrite EN in ER; unfold tk_run in ER; cbn [obind] in ER; rewrite ER; destruct (ka_run i); reflexivity|].
    destruct (st_err (fst (ka_run i))); [discriminate A|]. split; [exact A|reflexivity].
  - intros i j m m' b b' Hi Hj Hm Hm' T T' Hfr Hb Hb'.
    assert (chk_keygen (handed (ka_es i) ++ snd (ka_run i)) (handed (ka_es j) ++ snd (ka_run j)) = true) as H by (destruct Hi as [<-|[<-|[]]], Hj as [<-|[<-|[]]]; vm_compute; reflexivity).
    exact (chk_keygen_ok _ _ _ _ H m m' b b' Hm Hm' T T' Hfr Hb Hb').
Qed.
Example C48_equivocation_example : valid_ids k3 /\ sorted k3 /\ In 3 k3 /\ (forall k, In k k3 -> tk_new k3 1 k 0 = Ret (tk0 k)) /\
  SetScalarRandom (toy_rng 3) 0 <> SetScalarRandom (toy_rng 4) 0.
Proof.
  split; [split; repeat constructor; cbn; lia|]. split; [repeat constructor; lia|]. split; [cbn; auto|]. split.
  - intros i Hi. apply ret_default. destruct Hi as [<-|[<-|[<-|[]]]]; vm_compute; reflexivity.
  - intros E. apply (f_equal fz) in E. vm_compute in E. discriminate.
Qed.

Print Assumptions C48_sign_agree.
Print Assumptions C48_sign_relation.
Print Assumptions C48_keygen_agree.
Print Assumptions C48_then_sign.
Print Assumptions C48_equivocation_refuted.
Print Assumptions C48_blame_refuted.
