(** C38: who determines the group key. *)
From Coq Require Import ZArith Lia List Bool String Permutation Sorted Ring Setoid Morphisms.
From Coq.Strings Require Import Byte.
From stdpp Require Import base gmap list fin_maps.
From Verif Require Import ZField Primes Bytes Scalar Go Group ToyGroup Party Poly PolyFacts Zk Eddsa Messages State StateFacts Spec_State
  Keygen Sign RoundFacts Lift Net Progress Spec_Poly PolyAlg Spec_Group Spec_Wire Spec_Sign Spec_SignRun Spec_Keygen SignFacts SignRun KeygenFacts KeygenRun
  Properties_Algebra Properties_Codec Properties_Sign Properties_Keygen Properties_HonestKeygen ToyRuns.
Import ListNotations.
Local Open Scope Z_scope.

Local Opaque SetScalarRandom.

Section Rogue.
  Context `{L : group_laws} `{Hf : hash_fn}.

  (** What party 2 sends to an honest party 1 (threshold 1) after having seen its commitment A0: only group operations on A0 and two
      scalars of its choice are used. *)
  Definition rogue1 (A0 : G) (x z : Fq) : Message :=
    let A := gadd (gbmul x) (gneg A0) in NewKeyGen1 2 (mkSchnorr f0 f0) [A; gadd (gbmul z) (gneg A)].
  Definition rogue2 (z : Fq) : Message := NewKeyGen2 2 1 z.
  Definition rogue_history (A0 : G) (x z : Fq) : list event :=
    [EProcess [] []; EHandle 0 (rogue1 A0 x z); EProcess [] []; EHandle 0 (rogue2 z); EProcess [] []].

  (** Whatever party 1's randomness is, party 2 makes the group key [x]B for an x of its choice, and party 1 finishes without error. *)
  Theorem C38_refuted : hash_ok Hf -> forall rg now t s0 x z, NewKeygenState rg now t 1 [1; 2] 1 = Ret s0 ->
    exists A0 A1 pr s1, run keygen_round s0 [EProcess [] []] = Ret (s1, [NewKeyGen1 1 pr [A0; A1]]) /\
    exists s out pub sk, run keygen_round s0 (rogue_history A0 x z) = Ret (s, out) /\ st_done s = true /\ st_err s = None /\
      kg_output s = mkKOutput (Some pub) (Some sk) /\ geq (pub_GroupKey pub) (gbmul x).
  Proof.
    intros HH rg now t s0 x z NEW. destruct (NewKeygenState_round _ _ _ _ _ _ _ NEW) as (r0 & E1 & ->).
    assert (valid_ids [1; 2]) as V. { split; repeat constructor; cbn; lia. }
    assert (is_u16 1) as HT by (unfold is_u16; lia).
    set (A0 := gbmul (SetScalarRandom rg 0)). set (A1 := gbmul (SetScalarRandom rg 1)).
    set (m1 := rogue1 A0 x z). set (m2 := rogue2 z). set (W := fun m => m = m1 \/ m = m2).
    exists A0, A1, (own_proof rg 1 1).
    assert (qof 1 = f1) as HF1 by (apply feqb_eq; vm_compute; reflexivity).
    assert (r_self keygen_round r0 = 1 /\ r_ids keygen_round r0 = [1; 2]) as [Rs Ri]. { split; [eapply (kr0_self W)|eapply (kr0_ids W)]; eauto. }
    assert (forall m, W m -> m_Type m = MTKeyGen1 -> exists b, m_KeyGen1 m = Some b /\ k1_Commitments b <> []) as B1.
    { intros m [->| ->]; [|discriminate]. intros _. eexists. split; [reflexivity|discriminate]. }
    assert (forall m, W m -> m_Type m = MTKeyGen2 -> exists b, m_KeyGen2 m = Some b) as B2.
    { intros m [->| ->]; [discriminate|]. intros _. eexists. reflexivity. }
    assert (Forall (event_ok W) [EHandle 0 m1; EProcess [] []; EHandle 0 m2; EProcess [] []]) as HE.
    { constructor; [now left|]. constructor; [exact Logic.I|]. constructor; [now right|]. constructor; [exact Logic.I|constructor]. }
    destruct (keygen_nopanic_started W rg 1 [1; 2] 1 r0 E1 V HT B1 B2 now t _ [] [] HE) as (s & out & E & HL & _).
    destruct (keygen_nopanic_started W rg 1 [1; 2] 1 r0 E1 V HT B1 B2 now t [] [] [] ltac:(constructor)) as (s1 & out1 & Es & HL1 & HD1).
    assert (st_done s = true) as D.
    { change (EProcess [] [] :: _) with (sync_history (Gr:=Gr) [] [] [] [] [] [] 0 0 [m1] [m2]) in E.
      eapply (sync_done keygen_round W now t r0 (PK W rg 1 [1; 2] 1) (FK W rg 1 [1; 2] 1)); [| |reflexivity|rewrite Ri|rewrite Ri; exact V|rewrite Rs, Ri; cbn; auto| | | | |exact E].
      - intros es s' o. apply keygen_run; auto.
      - intros n r o (_ & _ & H). destruct n as [|[|[|n]]]; [lia|lia|lia|contradiction].
      - repeat constructor; lia.
      - rewrite Rs, Ri. split; [reflexivity|constructor; [reflexivity|constructor]|constructor; [now left|constructor]].
      - rewrite Rs, Ri. split; [reflexivity|constructor; [reflexivity|constructor]|constructor; [now right|constructor]].
      - constructor; [now left|constructor].
      - constructor; [now right|constructor]. }
    assert (forall Cs, kview W 1 [1; 2] Cs -> Cs 2 = [gadd (gbmul x) (gneg A0); gadd (gbmul z) (gneg (gadd (gbmul x) (gneg A0)))]) as HCs.
    { intros Cs HV. destruct (HV 2) as (m & pr & A & tl & [->| ->] & M2 & M3 & M4 & _); [cbn; auto| |discriminate]. cbn in M4. now inversion M4. }
    assert (st_err s = None) as Er.
    { destruct (st_err s) as [err|] eqn:Er; auto. exfalso. pose proof (li_F _ _ _ _ _ _ _ HL D) as [_ HF]. rewrite Er in HF. destruct HF as [_ [H|[H|H]]].
      - destruct (run_err_source keygen_round keygen_round_ok _ _ _ _ err E) as [(r & m & r' & c & X)|(sc & r & r' & c & X)]; auto.
        + apply inv_init.
        + repeat constructor; discriminate.
        + apply kg_process_text in X. destruct H; auto.
        + now apply kg_generate_text in X.
      - destruct H as (_ & Hin & m & pr & A & tl & [->| ->] & M2 & M3 & M4 & M5); [|discriminate]. cbn in M4. inversion M4; subst pr.
        rewrite (proj2 (C07_accepts_everything HH (mkSchnorr f0 f0) (pe_PartyID err) A ctx0 ltac:(unfold ctx0; rewrite repeat_length; auto)) eq_refl) in M5. discriminate.
      - destruct H as (_ & Hin & Cs & m & z' & HV & [->| ->] & M2 & M3 & M4 & M5 & M6); [discriminate|]. cbn in M5. inversion M5; subst z'. apply M6.
        destruct Hin as [Hin|[]]. rewrite <- Hin. rewrite (HCs Cs HV). unfold share_fits, idF. cbn [gpeval].
        rewrite HF1. subst A0. gcollapse. apply gb_inj. ring. }
    exists s1. split.
    { rewrite Es. f_equal. f_equal. cbn [run] in Es. apply obind_ret in Es as ([s2 o2] & Es & E3). cbn in E3. apply Ret_inj in E3. inversion E3; subst s2 out1. clear E3. rewrite app_nil_r.
      cbn [step] in Es. apply process_cases in Es. destruct (knew W rg 1 [1; 2] 1 r0 E1 V HT) as (_ & _ & HP0). pose proof HP0 as (_ & Hno & _).
      destruct Es as [X _ Y|r c t1 _ HS1 EP ER _|r r' c t1 _ HS1 EP EG ER _|r r' ct' tl' rcv q _ HS1 EP EG EA1 EQ EN].
      - exfalso. destruct Y as [Y|Y]; [discriminate|]. apply Y. cbn [NewBaseState st_round] in *. eapply init_size; rewrite ?Rs, ?Ri; cbn; auto.
      - exfalso. cbn [NewBaseState st_round st_received] in EP. rewrite kg0_loop in EP by exact Hno. discriminate.
      - exfalso. now apply kg_generate_text in EG.
      - cbn [NewBaseState st_round st_received] in EP. rewrite kg0_loop in EP by exact Hno. inversion EP; subst r.
        destruct (kg0_gen W rg 1 [1; 2] 1 r0 E1 V HT r0 [] [] HP0) as (r2 & G1 & _). rewrite G1 in EG. inversion EG; subst. reflexivity. }
    pose proof (li_F _ _ _ _ _ _ _ HL D) as [_ HF]. rewrite Er in HF. destruct HF as (Cs & sh & cc & pub & HV & HG & [HC1 HC2] & HO & Eo & P1 & P2 & P3 & P4 & P5).
    exists s, out, pub. eexists. split; [exact E|]. split; auto. split; auto. split; [exact Eo|]. rewrite P5, HC2. unfold total. cbn [others_of List.filter Z.eqb negb Pos.eqb map].
    change (C0 rg 1) with [A0; A1]. rewrite (HCs Cs HV). cbn [List.length Nat.eqb gpeval Gsum fold_right]. subst A0 A1. gcollapse. apply gb_inj. ring.
  Qed.

  (** The other side: shares accepted by as many honest parties as the commitment has coefficients determine the sender's contribution,
      which therefore cannot be a group element whose logarithm nobody knows.  (Missing: nothing forces so many parties to be honest
      when the threshold is n-1, and the proof of knowledge that should cover that case proves nothing: C38_refuted, C07_refuted.) *)
  Theorem C38_contribution_known_partial : forall C honest (sh : Z -> Fq), valid_ids honest -> (List.length C <= List.length honest)%nat ->
    (forall i, In i honest -> on_commitment i C (sh i)) ->
    geq (gpoly C f0) (gbmul (Fsum (map (fun i => fmul (lagrange_spec i honest) (sh i)) honest))).
  Proof.
    intros C honest sh V HL H. destruct (commit_gen C) as (g & G1 & G2).
    assert (forall i, In i honest -> sh i = peval g (idF i)) as X.
    { intros i Hi. apply gb_inj. rewrite <- gpeval_commit, <- G2. rewrite gpeval_gpoly. apply (H i Hi). }
    rewrite <- gpeval_gpoly, G2, gpeval_commit. apply gb_inj. rewrite <- (lam_interp honest g V) by lia.
    f_equal. apply map_ext_in. intros i Hi. rewrite (X i Hi). f_equal.
    pose proof (valid_in honest i V Hi). pose proof (C25_lagrange_value honest i (valid_u16 honest V) ltac:(lia) Hi) as E.
    rewrite Lagrange_ok in E by (auto using valid_u16; lia). now apply Ret_inj in E.
  Qed.
End Rogue.

(** * The same for any number of parties: whoever controls all but at most [thr] parties chooses the key *)
Section RogueMany.
  Context `{L : group_laws} `{Hf : hash_fn} (HH : hash_ok Hf).
  Context (ids hon : list Z) (a thr : Z) (V : valid_ids ids) (HS : sorted ids) (HT : is_u16 thr).
  Context (Ha : In a ids) (Hhon : forall i, In i hon -> In i ids /\ i <> a).
  Context (ell : list Fq) (Hlen : List.length ell = S (Z.to_nat thr)) (Hl0 : nth 0 ell f0 = f1) (Hli : forall i, In i hon -> spoly ell (qof i) = f0).

  (** What the rogue party [a] sends, from the constant terms [As] of the other parties' commitments and the key [x] it wants: the
      multiples of [x]B - sum As by the coefficients of a fixed polynomial that is 1 at 0 and 0 at the honest parties; then 0 as share. *)
  Definition rogue_kg1 (As : list G) (x : Fq) : Message :=
    let A := gadd (gbmul x) (gneg (Gsum As)) in NewKeyGen1 a (mkSchnorr f0 f0) (map (fun c => gsmul c A) ell).
  Definition rogue_kg2 (i : Z) : Message := NewKeyGen2 a i f0.

  Context (rg : Z -> rng) (x : Fq).
  Definition constants : list G := map (fun j => nth 0 (C0 (rg j) thr) gid) (others_of a ids).
  (** What the honest parties are given: the messages of the others, produced by the protocol, and those of [a]. *)
  Definition RU (m : Message) : Prop :=
    (exists j, In j ids /\ j <> a /\ (m = own_KG1 (rg j) j thr \/ In m (own_KG2s (rg j) j ids thr))) \/
    m = rogue_kg1 constants x \/ exists i, In i hon /\ m = rogue_kg2 i.
  Definition RW (m : Message) : Prop := exists m0, RU m0 /\ same_msg m0 m.

  Notation f j := (dealt (rg j) (Z.to_nat thr)).
  Notation y := (fsub x (Fsum (map (fun j => spoly (f j) f0) (others_of a ids)))).
  Definition rpoly (j : Z) : list Fq := if j =? a then pscale y ell else f j.

  Lemma dealt0 j : nth 0 (C0 (rg j) thr) gid = gbmul (spoly (f j) f0).
  Proof. unfold C0. rewrite p0_dealt. unfold dealt, NewPolynomialExponent. cbn [seq map nth]. f_equal. rewrite <- peval_spoly, peval_0. reflexivity. Qed.
  Lemma rogue_commit : Forall2 geq (map (fun c => gsmul c (gadd (gbmul x) (gneg (Gsum constants)))) ell) (commitment (pscale y ell)).
  Proof.
    assert (geq (gadd (gbmul x) (gneg (Gsum constants))) (gbmul y)) as E.
    { unfold constants. erewrite map_ext; [|intros j; apply dealt0]. rewrite Gsum_gbmul. gcollapse. apply gb_inj. ring. }
    unfold commitment, pscale. rewrite map_map. clear Hlen Hl0 Hli. induction ell as [|c l IH]; [constructor|]. cbn [map]. constructor; auto.
    rewrite E. unfold gbmul at 1. rewrite <- gsmul_mul. apply gb_inj. ring.
  Qed.
  Lemma rw_kg1 m j pr C : RW m -> m_From m = j -> m_Type m = MTKeyGen1 -> m_KeyGen1 m = Some (mkKeyGen1 pr C) ->
    In j ids /\ (pr = own_proof (rg j) j thr \/ pr = mkSchnorr f0 f0) /\ (j <> a -> pr = own_proof (rg j) j thr) /\ (j = a -> pr = mkSchnorr f0 f0) /\ Forall2 geq C (commitment (rpoly j)).
  Proof.
    intros (m0 & [(k & Hk & Hne & Hm)|[->|(i & Hi & ->)]] & Hsame) Hfr Ht Hb.
    - assert (m_From m0 = k) as Hf0. { destruct Hm as [->|Hm]; [reflexivity|]. apply in_map_iff in Hm as (l & <- & _). reflexivity. }
      pose proof (same_from _ _ Hsame). assert (k = j) as -> by congruence.
      assert (KW ids thr rg m) as HK. { exists m0. split; auto. exists j. auto. }
      destruct (kw_kg1 ids thr rg m j pr C HK Hfr Ht Hb) as (A1 & A2 & A3). unfold rpoly. rewrite (proj2 (Z.eqb_neq _ _) Hne). auto 10. intuition congruence.
    - pose proof (same_from _ _ Hsame) as Hf0. change (m_From (rogue_kg1 constants x)) with a in Hf0. assert (j = a) as -> by congruence. split; auto.
      destruct (same_k1 _ _ _ Hsame eq_refl eq_refl) as (b & E1 & E2 & E3). rewrite Hb in E1. inversion E1; subst b. cbn [k1_Proof k1_Commitments] in E2, E3.
      split; [auto|]. split; [congruence|]. split; [auto|]. unfold rpoly. rewrite Z.eqb_refl. rewrite E3. apply rogue_commit.
    - rewrite (same_type _ _ Hsame) in Ht. discriminate.
  Qed.
  Lemma rw_kg2 m i j z : RW m -> In i hon -> m_From m = j -> (m_To m = 0 \/ m_To m = i) -> m_Type m = MTKeyGen2 -> m_KeyGen2 m = Some (mkKeyGen2 z) ->
    In j ids /\ z = spoly (rpoly j) (qof i).
  Proof.
    intros (m0 & [(k & Hk & Hne & Hm)|[->|(l & Hl & ->)]] & Hsame) Hi Hfr Hto Ht Hb.
    - assert (m_From m0 = k) as Hf0. { destruct Hm as [->|Hm]; [reflexivity|]. apply in_map_iff in Hm as (l & <- & _). reflexivity. }
      pose proof (same_from _ _ Hsame). assert (k = j) as -> by congruence.
      assert (KW ids thr rg m) as HK. { exists m0. split; auto. exists j. auto. }
      destruct (kw_kg2 ids thr V rg m i j z HK (proj1 (Hhon i Hi)) Hfr Hto Ht Hb) as (A1 & A2). unfold rpoly. rewrite (proj2 (Z.eqb_neq _ _) Hne). auto.
    - rewrite (same_type _ _ Hsame) in Ht. discriminate.
    - pose proof (same_from _ _ Hsame) as Hf0. change (m_From (rogue_kg2 l)) with a in Hf0. assert (j = a) as -> by congruence. split; auto.
      pose proof (same_to _ _ Hsame) as Ht0. change (m_To (rogue_kg2 l)) with l in Ht0. rewrite Ht0 in Hto. pose proof (valid_in ids l V (proj1 (Hhon l Hl))). destruct Hto as [Hto|Hto]; [lia|]. subst l.
      rewrite (same_k2 _ _ _ Hsame eq_refl eq_refl) in Hb. assert (z = f0) as -> by congruence. unfold rpoly. rewrite Z.eqb_refl, <- peval_spoly, pscale_eval, peval_spoly, (Hli i Hi). ring.
  Qed.
  Lemma rpoly_length j : List.length (rpoly j) = S (Z.to_nat thr).
  Proof. unfold rpoly. destruct (j =? a); [now rewrite pscale_length|]. unfold dealt. now rewrite map_length, seq_length. Qed.
  Lemma rpoly_sum : Fsum (map (fun j => spoly (rpoly j) f0) ids) = x.
  Proof.
    rewrite (Fsum_perm _ _ (Permutation_map _ (others_perm a ids (proj1 V) Ha))). cbn [map]. change (Fsum (?u :: ?l)) with (fadd u (Fsum l)).
    unfold rpoly at 1. rewrite Z.eqb_refl, <- (peval_spoly (pscale _ _)), pscale_eval, peval_0, Hl0.
    rewrite (map_ext_in (fun j => spoly (rpoly j) f0) (fun j => spoly (f j) f0)); [ring|]. intros j Hj. apply others_of_In in Hj as [_ Hne]. unfold rpoly. now rewrite (proj2 (Z.eqb_neq _ _) Hne).
  Qed.
  Lemma rogue_total i Cs z : In i hon -> kview RW i ids Cs -> geq (total (rg i) i ids thr Cs z) (gbmul (Fsum (map (fun j => spoly (rpoly j) z) ids))).
  Proof.
    intros Hi HV. destruct (Hhon i Hi) as [Hin Hia]. unfold total.
    assert (forall j, In j (others_of i ids) -> Forall2 geq (Cs j) (commitment (rpoly j))) as HC.
    { intros j Hj. destruct (HV j Hj) as (m & pr & A & tl & M1 & M2 & M3 & M4 & _). apply (rw_kg1 m j pr (Cs j) M1 M2 M3 M4). }
    transitivity (gadd (gbmul (spoly (rpoly i) z)) (Gsum (map (fun j => gbmul (spoly (rpoly j) z)) (others_of i ids)))).
    - apply gadd_proper.
      + unfold C0. rewrite gpeval_commit, p0_dealt, peval_spoly. unfold rpoly. rewrite (proj2 (Z.eqb_neq _ _) Hia). reflexivity.
      + apply Gsum_map_ext. intros j Hj. assert (List.length (Cs j) = List.length (C0 (rg i) thr)) as El.
        { rewrite (Forall2_length _ _ _ (HC j Hj)). unfold C0, NewPolynomialExponent, commitment. rewrite p0_dealt, !map_length, rpoly_length. unfold dealt. now rewrite map_length, seq_length. }
        rewrite El, Nat.eqb_refl, (HC j Hj). change (commitment (rpoly j)) with (NewPolynomialExponent (rpoly j)). rewrite gpeval_commit, peval_spoly. reflexivity.
    - rewrite Gsum_gbmul, gb_add. apply gb_inj. rewrite (Fsum_perm _ _ (Permutation_map _ (others_perm i ids (proj1 V) Hin))). reflexivity.
  Qed.

  Context (i now timeout : Z) (s0 : State kround) (Hi : In i hon) (NEW : NewKeygenState (rg i) now timeout i ids thr = Ret s0).
  Lemma rogue_final es s out : Forall (event_ok RW) es -> run keygen_round s0 es = Ret (s, out) -> st_done s = true ->
    match st_err s with
    | Some err => pe_PartyID err = 0 /\ pe_text err = "message timeout"%string
    | None => exists pub sk, kg_output s = mkKOutput (Some pub) (Some sk) /\ geq (pub_GroupKey pub) (gbmul x) /\
        exists A, pub_Shares pub !! i = Some A /\ geq A (gbmul (sh_Secret sk))
    end.
  Proof.
    intros HE E D. destruct (NewKeygenState_round _ _ _ _ _ _ _ NEW) as (r0 & E1 & ->). destruct (Hhon i Hi) as [Hin Hia].
    pose proof (keygen_run RW (rg i) i ids thr r0 E1 V HT now timeout es s out HE E) as HL. pose proof (li_F _ _ _ _ _ _ _ HL D) as [_ HF].
    destruct (st_err s) as [err|].
    - destruct HF as [_ [H|[H|H]]]; auto; exfalso.
      + destruct H as (_ & _ & m & pr & A & tl & M1 & M2 & M3 & M4 & M5). destruct (rw_kg1 m _ pr (A :: tl) M1 M2 M3 M4) as (Hj & _ & P1 & P2 & HC).
        destruct (Z.eq_dec (pe_PartyID err) a) as [Ea|Ea].
        * rewrite (P2 Ea), (proj2 (C07_accepts_everything HH (mkSchnorr f0 f0) (pe_PartyID err) A ctx0 ltac:(unfold ctx0; rewrite repeat_length; auto)) eq_refl) in M5. discriminate.
        * rewrite (P1 Ea) in M5. unfold rpoly in HC. rewrite (proj2 (Z.eqb_neq _ _) Ea) in HC. rewrite (own_proof_ok' thr rg _ A tl HC) in M5. discriminate.
      + destruct H as (_ & Hj & Cs & m & z & HV & M1 & M2 & M3 & M4 & M5 & M6). apply M6.
        destruct (rw_kg2 m i _ z M1 Hi M2 M3 M4 M5) as (_ & ->).
        destruct (HV _ Hj) as (m' & pr & A & tl & N1 & N2 & N3 & N4 & _). destruct (rw_kg1 m' _ pr _ N1 N2 N3 N4) as (_ & _ & _ & _ & HCj).
        unfold share_fits. rewrite HCj, gpeval_gpoly. apply C08_honest_share.
    - destruct HF as (Cs & sh & cc & pub & HV & HG & [HC1 HC2] & HO & Eo & P1 & P2 & P3 & P4 & P5).
      do 2 eexists. split; [exact Eo|]. split; [rewrite P5, HC2, rogue_total by auto; now rewrite rpoly_sum|].
      destruct (P3 i Hin) as (A & A1 & A2). exists A. split; auto. rewrite A2, HC2, rogue_total by auto. cbn [NewSecretShare sh_Secret]. apply gb_inj.
      rewrite (Fsum_perm _ _ (Permutation_map _ (others_perm i ids (proj1 V) Hin))). cbn [map]. change (Fsum (?u :: ?l)) with (fadd u (Fsum l)).
      rewrite p0_dealt, peval_spoly. unfold rpoly at 1. rewrite (proj2 (Z.eqb_neq _ _) Hia). f_equal. f_equal.
      apply map_ext_in. intros j Hj. destruct (HG j Hj) as (_ & m & M1 & M2 & M3 & M4 & M5). symmetry. apply (rw_kg2 m i j _ M1 Hi M2 M3 M4 M5).
  Qed.
End RogueMany.

Section RogueTheorem.
  Context `{L : group_laws} `{Hf : hash_fn}.

  (** Whatever the honest parties draw, a party that speaks last makes the group key [x]B for an x of its choice, if at most [thr] parties
      are honest: there is a polynomial, depending on nothing secret, such that every honest party, given the messages built from it and the
      protocol's messages of all others in any order, finishes with this key and a share that fits its public share (or times out), and a
      history in which it finishes exists. *)
  Theorem C38_any_size_refuted : hash_ok Hf -> forall ids hon a thr, valid_ids ids -> sorted ids -> is_u16 thr -> In a ids ->
    List.NoDup hon -> (forall i, In i hon -> In i ids /\ i <> a) -> Z.of_nat (List.length hon) <= thr ->
    exists ell, forall rg x i now timeout s0, In i hon -> NewKeygenState (rg i) now timeout i ids thr = Ret s0 ->
      (forall es s out, Forall (event_ok (RW ids hon a thr ell rg x)) es -> run keygen_round s0 es = Ret (s, out) -> st_done s = true ->
        match st_err s with
        | Some err => pe_PartyID err = 0 /\ pe_text err = "message timeout"%string
        | None => exists pub sk, kg_output s = mkKOutput (Some pub) (Some sk) /\ geq (pub_GroupKey pub) (gbmul x) /\
            exists A, pub_Shares pub !! i = Some A /\ geq A (gbmul (sh_Secret sk))
        end) /\
      exists es s out, Forall (event_ok (RW ids hon a thr ell rg x)) es /\ run keygen_round s0 es = Ret (s, out) /\ st_done s = true /\ st_err s = None.
  Proof.
    intros HH ids hon a thr V HS HT Ha ND Hhon Hn.
    assert (valid_ids hon) as Vh.
    { split; [exact ND|]. apply List.Forall_forall. intros i Hi. destruct (Hhon i Hi) as [H _]. exact (valid_in ids i V H). }
    destruct (C05_any_secret_possible (Z.to_nat thr) (repeat f0 (S (Z.to_nat thr))) hon f1 (repeat_length _ _) Vh ltac:(lia)) as (ell & L1 & L2 & L3).
    assert (forall i, In i hon -> spoly ell (qof i) = f0) as Hli.
    { intros i Hi. rewrite (L3 i Hi), <- peval_spoly. generalize (S (Z.to_nat thr)). intros n. induction n as [|n IH]; [reflexivity|]. cbn [repeat peval]. rewrite IH. ring. }
    exists ell. intros rg x i now timeout s0 Hi NEW. set (W := RW ids hon a thr ell rg x). destruct (Hhon i Hi) as [Hin Hia].
    assert (forall es s out, Forall (event_ok W) es -> run keygen_round s0 es = Ret (s, out) -> st_done s = true -> _) as HF
      by exact (rogue_final HH ids hon a thr V HT Ha Hhon ell L1 L2 Hli rg x i now timeout s0 Hi NEW).
    split; [exact HF|].
    assert (forall m, RU ids hon a thr ell rg x m -> W m) as HUW by (intros m Hm; exists m; split; [exact Hm|apply same_refl]).
    destruct (NewKeygenState_round _ _ _ _ _ _ _ NEW) as (r0 & E1 & E2).
    assert (forall m, W m -> m_Type m = MTKeyGen1 -> exists b, m_KeyGen1 m = Some b /\ k1_Commitments b <> []) as B1.
    { intros m (m0 & HU & Hsame) Ht. pose proof (same_type _ _ Hsame) as Ht0.
      assert (exists b0, m_Type m0 = MTKeyGen1 /\ m_KeyGen1 m0 = Some b0 /\ k1_Commitments b0 <> []) as (b0 & T0 & M0 & N0).
      { destruct HU as [(j & Hj & _ & [->|Hm])|[->|(l & _ & ->)]].
        - eexists. split; [reflexivity|]. split; [reflexivity|]. cbn [k1_Commitments]. unfold C0, NewPolynomialExponent, p0. discriminate.
        - apply in_map_iff in Hm as (l & <- & _). rewrite Ht in Ht0. discriminate.
        - eexists. split; [reflexivity|]. split; [reflexivity|]. cbn [k1_Commitments]. destruct ell; discriminate.
        - rewrite Ht in Ht0. discriminate. }
      destruct (same_k1 _ _ _ Hsame T0 M0) as (b & X1 & X2 & X3). exists b. split; auto. intros Hb. rewrite Hb in X3. inversion X3 as [Y|]. now apply N0. }
    assert (forall m, W m -> m_Type m = MTKeyGen2 -> exists b, m_KeyGen2 m = Some b) as B2.
    { intros m (m0 & HU & Hsame) Ht. pose proof (same_type _ _ Hsame) as Ht0.
      destruct HU as [(j & Hj & _ & [->|Hm])|[->|(l & _ & ->)]]; try (rewrite Ht in Ht0; discriminate).
      - apply in_map_iff in Hm as (l & <- & _). eexists. exact (same_k2 _ _ _ Hsame eq_refl eq_refl).
      - eexists. exact (same_k2 _ _ _ Hsame eq_refl eq_refl). }
    set (As := constants ids a thr rg).
    set (ms1 := map (fun j => if j =? a then rogue_kg1 a ell As x else own_KG1 (rg j) j thr) (others_of i ids)).
    set (ms2 := map (fun j => if j =? a then rogue_kg2 a i else NewKeyGen2 j i (peval (p0 (rg j) thr) (idF i))) (others_of i ids)).
    assert (Forall W ms1) as W1.
    { apply List.Forall_forall. intros m Hm. apply in_map_iff in Hm as (j & <- & Hj). apply others_of_In in Hj as [Hj _]. apply HUW. destruct (Z.eqb_spec j a) as [->|Hne]; [right; now left|]. left. exists j. auto. }
    assert (Forall W ms2) as W2.
    { apply List.Forall_forall. intros m Hm. apply in_map_iff in Hm as (j & <- & Hj). apply others_of_In in Hj as [Hj Hji]. apply HUW. destruct (Z.eqb_spec j a) as [->|Hne]; [right; right; exists i; auto|].
      left. exists j. split; auto. split; auto. right. apply in_map_iff. exists i. split; auto. apply others_of_In. auto. }
    assert (r_self keygen_round r0 = i /\ r_ids keygen_round r0 = ids) as [Rs Ri]. { split; [eapply (kr0_self W)|eapply (kr0_ids W)]; eauto. }
    set (tail := (map (EHandle 0) ms1 ++ [EProcess [] []]) ++ (map (EHandle 0) ms2 ++ [EProcess [] []])).
    assert (Forall (event_ok W) tail) as HE.
    { assert (forall l, Forall W l -> Forall (event_ok W) (map (EHandle 0) l ++ [EProcess [] []])) as X.
      { intros l Hl. apply Forall_app. split; [|constructor; [exact Logic.I|constructor]]. apply List.Forall_forall. intros e He. apply in_map_iff in He as (m & <- & Hm). rewrite List.Forall_forall in Hl. exact (Hl m Hm). }
      apply Forall_app. auto. }
    destruct (keygen_nopanic_started W (rg i) i ids thr r0 E1 V HT B1 B2 now timeout tail [] [] HE) as (s & out & E & HL & _).
    assert (st_done s = true) as D.
    { eapply (sync_done keygen_round W now timeout r0 (PK W (rg i) i ids thr) (FK W (rg i) i ids thr)) with (ms1 := ms1) (ms2 := ms2) (t0 := MTNone) (t1 := MTKeyGen1) (t2 := MTKeyGen2);
        [| |reflexivity|now rewrite Ri|now rewrite Ri|now rewrite Rs, Ri| | |exact W1|exact W2|exact E].
      - intros es s' o. apply keygen_run; auto.
      - intros n r o (_ & _ & H). destruct n as [|[|[|n]]]; [lia|lia|lia|contradiction].
      - rewrite Rs, Ri. split.
        + unfold ms1. rewrite map_map. apply Permutation_refl'. etransitivity; [|apply map_id]. apply map_ext. intros j. destruct (Z.eqb_spec j a) as [->|]; reflexivity.
        + apply List.Forall_forall. intros m Hm. apply in_map_iff in Hm as (j & <- & _). destruct (j =? a); reflexivity.
        + apply List.Forall_forall. intros m Hm. apply in_map_iff in Hm as (j & <- & _). destruct (j =? a); now left.
      - rewrite Rs, Ri. split.
        + unfold ms2. rewrite map_map. apply Permutation_refl'. etransitivity; [|apply map_id]. apply map_ext. intros j. destruct (Z.eqb_spec j a) as [->|]; reflexivity.
        + apply List.Forall_forall. intros m Hm. apply in_map_iff in Hm as (j & <- & _). destruct (j =? a); reflexivity.
        + apply List.Forall_forall. intros m Hm. apply in_map_iff in Hm as (j & <- & _). destruct (j =? a); now right. }
    exists (EProcess [] [] :: tail), s, out. split; [constructor; [exact Logic.I|exact HE]|]. rewrite E2. split; [exact E|]. split; [exact D|].
    destruct (st_err s) as [err|] eqn:Er; auto. exfalso.
    assert (Forall (event_ok W) (EProcess [] [] :: tail)) as HE' by (constructor; [exact Logic.I|exact HE]).
    rewrite E2 in HF. pose proof (HF _ s out HE' E D) as X. rewrite Er in X. destruct X as [_ X].
    destruct (run_err_source keygen_round keygen_round_ok _ _ _ _ err E) as [(r & m & r' & c & Y)|(sc & r & r' & c & Y)]; auto.
    - apply inv_init.
    - constructor; [discriminate|]. unfold tail. repeat (apply Forall_app; split); try (constructor; [discriminate|constructor]);
        apply List.Forall_forall; intros e He; apply in_map_iff in He as (m & <- & _); discriminate.
    - apply kg_process_text in Y. auto.
    - now apply kg_generate_text in Y.
  Qed.
End RogueTheorem.

(** The hypotheses hold for the toy group, and the run is the one of the theorem. *)
Example C38_example : exists s0, tk_new [1; 2] 1 1 0 = Ret s0 /\ hash_ok toy_hash.
Proof. eexists. split; [reflexivity|exact toy_hash_ok]. Qed.
Example C38_any_size_example : valid_ids [1; 2; 3; 5] /\ sorted [1; 2; 3; 5] /\ In 5 [1; 2; 3; 5] /\ List.NoDup [1; 3] /\
  (forall i, In i [1; 3] -> In i [1; 2; 3; 5] /\ i <> 5) /\ Z.of_nat (List.length [1; 3]) <= 2 /\
  (exists s0, tk_new [1; 2; 3; 5] 2 1 0 = Ret s0) /\ (exists s0, tk_new [1; 2; 3; 5] 2 3 0 = Ret s0).
Proof.
  split; [split; repeat constructor; cbn; lia|]. split; [repeat constructor; lia|]. split; [cbn; auto|]. split; [repeat constructor; cbn; lia|].
  split; [intros i [<-|[<-|[]]]; cbn; split; auto; lia|]. split; [cbn; lia|]. split; eexists; reflexivity.
Qed.
Example C38_contribution_example : valid_ids [1; 2; 4] /\ (List.length [qof 5; qof 6] <= 3)%nat /\
  (forall i, In i [1; 2; 4] -> @on_commitment toy_group i [qof 5; qof 6] (qof (5 + 6 * i))).
Proof. split; [split; repeat constructor; cbn; lia|]. split; [cbn; lia|]. intros i [<-|[<-|[<-|[]]]]; vm_compute; reflexivity. Qed.

Print Assumptions C38_refuted.
Print Assumptions C38_contribution_known_partial.
Print Assumptions C38_any_size_refuted.
