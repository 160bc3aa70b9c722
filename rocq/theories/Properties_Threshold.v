(** C53: signers whose shares do not determine the group key get no signature, and nobody is blamed for it.
    (sign.NewRound checks no threshold, see C36_refuted: such runs do take place.) *)
From Coq Require Import ZArith Lia List Bool String Permutation Ring Setoid Morphisms.
From Coq.Strings Require Import Byte.
From stdpp Require Import base gmap list fin_maps.
From Verif Require Import ZField Primes Bytes Scalar Go Group ToyGroup Party Poly PolyFacts Zk Eddsa Messages State StateFacts Spec_State
  Keygen Sign RoundFacts Lift Net Spec_Poly PolyAlg Spec_Group Spec_Wire Spec_Sign Spec_SignRun SignFacts SignRun
  Properties_Algebra Properties_Codec Properties_Sign Properties_HonestSign ToyRuns.
Import ListNotations.
Local Open Scope Z_scope.

Local Opaque SetScalarRandom.

(** * The condition on a polynomial: the values at the IDs interpolate to the value at 0 *)
Definition determines (ids : list Z) (f : list Fq) : Prop := Fsum (map (fun i => lagrange_spec i ids * spoly f (qof i))%Fq ids) = spoly f f0.

Section Poly.
  Local Open Scope Fq_scope.
  Lemma peval_app (u v : list Fq) x : peval (u ++ v) x = peval u x + fpow x (N.of_nat (List.length u)) * peval v x.
  Proof.
    induction u as [|a u IH]; cbn [app peval List.length].
    - change (fpow x (N.of_nat 0)) with (f1 : Fq). ring.
    - rewrite IH, Nat2N.inj_succ, fpow_S. ring.
  Qed.
  Lemma padd_last (a : list Fq) : forall b c, (List.length a <= List.length b)%nat -> padd a (b ++ [c]) = padd a b ++ [c].
  Proof.
    induction a as [|x a IH]; intros [|y b] c H; cbn [padd app List.length] in *; auto; [lia|]. f_equal. apply IH. lia.
  Qed.
  Lemma pvanish_monic ms : exists w, pvanish ms = w ++ [f1] /\ List.length w = List.length ms.
  Proof.
    induction ms as [|m ms (w & E & Hl)].
    - exists []. auto.
    - cbn [pvanish fold_right]. fold (pvanish ms). rewrite E. unfold pmul_lin. exists (padd (pscale (- m) (w ++ [f1])) (f0 :: w)). split.
      + change (f0 :: w ++ [f1]) with ((f0 :: w) ++ [f1]). apply padd_last. rewrite pscale_length, app_length. cbn. lia.
      + rewrite padd_length, pscale_length, app_length. cbn. lia.
  Qed.
End Poly.

Section Condition.
  Context (ids : list Z) (V : valid_ids ids).
  Notation lg := (fun i => lagrange_spec i ids).
  Local Open Scope Fq_scope.

  Lemma lg_lam i : In i ids -> lagrange_spec i ids = lam ids i.
  Proof.
    intros Hi. pose proof (valid_u16 ids V) as HU. assert (i <> 0)%Z as H0 by (pose proof (valid_in ids i V Hi); lia).
    pose proof (C25_lagrange_value ids i HU H0 Hi) as E. rewrite Lagrange_ok in E by auto. now apply Ret_inj in E.
  Qed.
  (** The deviation, linear in f. *)
  Definition dev (h : Fq -> Fq) : Fq := Fsum (map (fun i => lagrange_spec i ids * h (qof i)) ids) - h f0.
  Lemma dev_add h k : dev (fun x => h x + k x) = dev h + dev k.
  Proof.
    unfold dev. rewrite (Fsum_ext_in (fun i => lagrange_spec i ids * (h (qof i) + k (qof i))) (fun i => lagrange_spec i ids * h (qof i) + lagrange_spec i ids * k (qof i))) by (intros; ring).
    rewrite Fsum_add. ring.
  Qed.
  Lemma dev_scale c h : dev (fun x => c * h x) = c * dev h.
  Proof.
    unfold dev. rewrite (Fsum_ext_in (fun i => lagrange_spec i ids * (c * h (qof i))) (fun i => c * (lagrange_spec i ids * h (qof i)))) by (intros; ring).
    rewrite Fsum_scale. ring.
  Qed.
  Lemma dev_ext h k : (forall x, h x = k x) -> dev h = dev k.
  Proof. intros H. unfold dev. rewrite H. f_equal. apply Fsum_ext_in. intros. now rewrite H. Qed.
  Lemma dev_small w : (List.length w <= List.length ids)%nat -> dev (peval w) = f0.
  Proof.
    intros Hw. unfold dev. rewrite <- (lam_interp ids w V Hw). rewrite (Fsum_ext_in (fun i => lagrange_spec i ids * peval w (qof i)) (fun i => lam ids i * peval w (idF i))); [ring|].
    intros i Hi. now rewrite lg_lam.
  Qed.
  Lemma dev_determines f : determines ids f <-> dev (peval f) = f0.
  Proof.
    unfold determines, dev. rewrite (Fsum_ext_in (fun i => lagrange_spec i ids * spoly f (qof i)) (fun i => lagrange_spec i ids * peval f (qof i))) by (intros; now rewrite peval_spoly).
    rewrite <- peval_spoly. split; intros E; [rewrite E; ring|]. match type of E with ?a - ?b = _ => transitivity (a - b + b); [ring|rewrite E; ring] end.
  Qed.
  Lemma dev_power : dev (fun x => fpow x (N.of_nat (List.length ids))) <> f0.
  Proof.
    destruct (pvanish_monic (map idF ids)) as (w & E & Hl). rewrite map_length in Hl.
    assert (forall x, fpow x (N.of_nat (List.length ids)) = peval (pvanish (map idF ids)) x + (- f1) * peval w x) as X.
    { intros x. rewrite E, peval_app, Hl. cbn [peval]. ring. }
    rewrite (dev_ext _ _ X), dev_add, dev_scale, (dev_small w) by lia. unfold dev.
    rewrite (Fsum_zero (fun i => lagrange_spec i ids * peval (pvanish (map idF ids)) (qof i))).
    - rewrite pvanish_eval. intros Z. assert (Fprod (map (fun m => 0 - m) (map idF ids)) = f0) as Z'.
      { transitivity (- (0 - Fprod (map (fun m => 0 - m) (map idF ids)) + - f1 * f0)); [ring|]. rewrite Z. ring. }
      revert Z'. apply Fprod_neq0. intros x Hx. apply in_map_iff in Hx as (y & <- & Hy). apply in_map_iff in Hy as (i & <- & Hi).
      intros Hz. apply (valid_idF_neq0 ids i V Hi). transitivity (- (0 - idF i)); [ring|]. rewrite Hz. ring.
    - intros i Hi. rewrite pvanish_eval, Fprod_in0; [ring|]. rewrite map_map. apply in_map_iff. exists i. split; [|exact Hi]. change (qof i - qof i = 0). ring.
  Qed.

  (** Enough signers always determine the key. *)
  Theorem C53_enough : forall f, (List.length f <= List.length ids)%nat -> determines ids f.
  Proof. intros f H. apply dev_determines. now apply dev_small. Qed.

  (** k signers of a key of higher degree: of all values of the coefficient of x^k exactly one lets them sign. *)
  Theorem C53_one_value : forall u v, List.length u = List.length ids -> exists a, forall a', determines ids (u ++ a' :: v) <-> a' = a.
  Proof.
    intros u v Hu. set (P := dev (fun x => fpow x (N.of_nat (List.length ids)))). set (T := dev (fun x => fpow x (N.of_nat (List.length ids)) * (x * peval v x))).
    assert (forall a', dev (peval (u ++ a' :: v)) = a' * P + T) as X.
    { intros a'. rewrite (dev_ext _ (fun x => peval u x + (a' * fpow x (N.of_nat (List.length ids)) + fpow x (N.of_nat (List.length ids)) * (x * peval v x)))).
      - rewrite dev_add, (dev_add (fun x => a' * fpow x (N.of_nat (List.length ids)))), dev_scale, dev_small by lia. unfold P, T. ring.
      - intros x. rewrite peval_app, Hu. cbn [peval]. ring. }
    exists (- T * finv P). intros a'. rewrite dev_determines, X. pose proof dev_power as HP. fold P in HP. split.
    - intros E. transitivity ((a' * P + T) * finv P - T * finv P); [|rewrite E; ring].
      transitivity (a' * (finv P * P)); [rewrite (Fq_inv_l P HP); ring|ring].
    - intros ->. transitivity (- T * (finv P * P) + T); [ring|]. rewrite (Fq_inv_l P HP). ring.
  Qed.
  (** As many signers as the threshold: exactly when the leading coefficient is 0. *)
  Theorem C53_threshold : forall u a, List.length u = List.length ids -> determines ids (u ++ [a]) <-> a = f0.
  Proof.
    intros u a Hu. destruct (C53_one_value u [] Hu) as [b Hb]. rewrite Hb. assert (b = f0) as ->; [|tauto]. symmetry. apply Hb.
    apply dev_determines. rewrite (dev_ext _ (peval u)); [now apply dev_small; lia|]. intros x. rewrite peval_app. cbn [peval]. ring.
  Qed.
End Condition.

(** * Runs *)
Section Runs.
  Context `{L : group_laws} `{Hf : hash_fn} (HH : hash_ok Hf).
  Context (ids : list Z) (message : list byte) (ND : List.NoDup ids) (HU : Forall is_u16 ids).
  Context (rg : rng) (now t : Z) (sec : SecretShare) (pub : Public) (s0 : State sround).
  Context (NEW : NewSignState rg now t ids sec pub message = Ret s0).
  (** Our secret share matches our public one. *)
  Context (A : G) (EA : pub_Shares pub !! sh_ID sec = Some A) (HA : geq (gbmul (sh_Secret sec)) A).
  Context (es : list event) (s : State sround) (out : list Message).
  Context (RUN : run sign_round s0 es = Ret (s, out)).
  Notation gk := (pub_GroupKey pub).
  (** The weighted public shares of the signers add up to the group key. *)
  Definition can_sign : Prop := geq (Gsum (map (weighted ids pub) ids)) gk.

  Lemma shares_total (c : Fq) (cl : commitment_list) (wt : Z -> G) : forall (zs : list (Z * Fq)) (cl' : commitment_list) ids', map fst zs = ids' -> map fst cl' = ids' ->
    (forall i z D E, In (i, z) zs -> In (i, (D, E)) cl' -> geq (gbmul z) (gadd (nonce_point message cl (i, (D, E))) (gsmul c (wt i)))) ->
    geq (gbmul (Fsum (map snd zs))) (gadd (Gsum (map (nonce_point message cl) cl')) (gsmul c (Gsum (map wt ids')))).
  Proof.
    intros zs cl'. revert zs. induction cl' as [|[i [D E]] cl' IH]; intros [|[j z] zs] ids' H1 H2 H3; cbn [map fst] in *; subst ids'; try discriminate.
    - cbn. rewrite gsmul_gid, gadd_id_l. symmetry. apply gb_id.
    - cbn [map fst] in H2. inversion H2. subst j.
      assert (forall a l, Fsum (a :: l) = fadd a (Fsum l)) as Hs by reflexivity. cbn [map snd]. rewrite Hs, <- gb_add.
      assert (forall a l, Gsum (a :: l) = gadd a (Gsum l)) as Hg by reflexivity. rewrite !Hg.
      rewrite (IH zs (map fst zs)); auto.
      2:{ intros k y D' E' Hk1 Hk2. apply H3; now right. }
      rewrite (H3 i z D E) by (now left). rewrite gsmul_add_r.
      rewrite <- !gadd_assoc. apply gadd_proper; [reflexivity|]. rewrite !gadd_assoc. apply gadd_proper; [|rewrite H1; reflexivity]. apply gadd_comm.
  Qed.

  (** The final check, for a set of accepted shares. *)
  Lemma final_check cl zs R : view_ok (given es) rg ids sec cl -> shares_given (given es) rg ids sec pub message cl zs -> geq R (group_nonce message cl) ->
    schnorr_valid gk message R (Fsum (map snd zs)) <-> chal (group_nonce message cl) gk message = f0 \/ can_sign.
  Proof.
    intros HV (G1 & G2 & G3) HR. destruct (the_run HH rg now t ids sec pub message s0 NEW ND HU es s out RUN) as (r0 & E1 & _).
    assert (geq (gbmul (Fsum (map snd zs))) (gadd (group_nonce message cl) (gsmul (chal (group_nonce message cl) gk message) (Gsum (map (lamA ids pub) ids))))) as T.
    { unfold group_nonce at 1. apply shares_total; [exact G1|apply HV|]. intros i z D E Hi Hc. destruct (Z.eq_dec i (sh_ID sec)) as [->|Hne].
      - rewrite (G2 z Hi). refine (own_share_valid (given es) rg ids sec pub message r0 _ _ cl A HV EA HA D E Hc); assumption.
      - exact (proj1 (G3 i z Hi Hne) D E Hc). }
    assert (map (lamA ids pub) ids = map (weighted ids pub) ids) as EW.
    { apply map_ext_in. intros i Hi. exact (lamA_weighted HH rg now t ids sec pub message s0 NEW ND HU es s out RUN i Hi). }
    rewrite EW in T. unfold schnorr_valid, can_sign. rewrite (chal_proper _ _ gk gk message HR ltac:(reflexivity)), HR, T.
    generalize (chal (group_nonce message cl) gk message). intros c. generalize (group_nonce message cl) (Gsum (map (weighted ids pub) ids)) (gk : G). intros N W K.
    split.
    - intros X. apply gadd_cancel_l in X. destruct (gbase_gen W) as [x Ex]. destruct (gbase_gen K) as [y Ey]. change (gsmul x gbase) with (gbmul x) in Ex. change (gsmul y gbase) with (gbmul y) in Ey.
      rewrite Ex, Ey in X. assert ((c * x)%Fq = (c * y)%Fq) as Z. { apply gb_inj. rewrite <- !gb_smul. exact X. }
      assert ((c * (x - y))%Fq = 0%Fq) as Y. { transitivity (c * x - c * y)%Fq; [ring|]. rewrite Z. ring. }
      apply Fq_integral in Y as [Y|Y]; [now left|right]. rewrite Ex, Ey. apply gb_inj. transitivity (x - y + y)%Fq; [ring|rewrite Y; ring].
    - intros [->|X]; [rewrite !gsmul_0; reflexivity|now rewrite X].
  Qed.

  (** A signature comes out only if the signers' shares determine the group key, or the challenge is 0. *)
  Theorem C53_success : st_done s = true -> st_err s = None ->
    can_sign \/ exists cl, commitments_of es ids (sh_ID sec) (SetScalarRandom rg 0) (SetScalarRandom rg 1) cl /\ chal (group_nonce message cl) gk message = f0.
  Proof.
    intros D Er. destruct (the_run HH rg now t ids sec pub message s0 NEW ND HU es s out RUN) as (r0 & E1 & HL).
    pose proof (li_F _ _ _ _ _ _ _ HL D) as [_ H]. rewrite Er in H. destruct H as (cl & zs & sg & H1 & HV & HG & HO & H3 & H4 & H5).
    rewrite H4 in H5. apply (final_check cl zs _ HV HG H3) in H5 as [H5|H5]; [right; exists cl; split; [|exact H5]; now apply view_commitments|now left].
  Qed.
  (** If they do not, and the challenge is not 0, a run in which all messages are right ends with this error, and nobody is blamed. *)
  Theorem C53_failure : forall err, st_err s = Some err -> pe_PartyID err = 0 ->
    pe_text err = "message timeout"%string \/
    pe_text err = "full signature is invalid"%string /\ ~ can_sign /\
    exists cl, commitments_of es ids (sh_ID sec) (SetScalarRandom rg 0) (SetScalarRandom rg 1) cl /\ chal (group_nonce message cl) gk message <> f0.
  Proof.
    intros err Er H0. destruct (the_run HH rg now t ids sec pub message s0 NEW ND HU es s out RUN) as (r0 & E1 & HL).
    assert (st_done s = true) as D. { destruct (st_done s) eqn:D; auto. rewrite (inv_err _ s (li_inv _ _ _ _ _ _ _ HL) D) in Er. discriminate. }
    pose proof (li_F _ _ _ _ _ _ _ HL D) as [_ H]. rewrite Er in H. destruct H as [_ [[_ X]|[H|[H|H]]]]; [now left| | |right].
    - exfalso. destruct H as (_ & Hin & _). rewrite H0 in Hin. revert Hin. intros Hin. exact (nonzero HH rg now t ids sec pub message s0 NEW ND HU es s out RUN 0 Hin eq_refl).
    - exfalso. destruct H as (_ & Hin & _). rewrite H0 in Hin. exact (nonzero HH rg now t ids sec pub message s0 NEW ND HU es s out RUN 0 Hin eq_refl).
    - destruct H as (X & _ & cl & zs & R & HV & HG & HR & HX). rewrite (final_check cl zs R HV HG HR) in HX. split; [exact X|]. split; [tauto|].
      exists cl. split; [now apply view_commitments|tauto].
  Qed.

  (** The public shares on a polynomial: the condition of the first part. *)
  Theorem C53_can_sign : forall f, (forall i, In i ids -> exists B, pub_Shares pub !! i = Some B /\ geq B (gbmul (spoly f (qof i)))) -> geq gk (gbmul (spoly f f0)) ->
    can_sign <-> determines ids f.
  Proof.
    intros f HB HK. unfold can_sign, determines.
    assert (geq (Gsum (map (weighted ids pub) ids)) (gbmul (Fsum (map (fun i => lagrange_spec i ids * spoly f (qof i))%Fq ids)))) as X.
    { rewrite <- Gsum_gbmul. apply Gsum_map_ext. intros i Hi. destruct (HB i Hi) as (B & E & HE). unfold weighted. rewrite E, HE. gcollapse. reflexivity. }
    rewrite X, HK. apply gb_inj.
  Qed.
End Runs.

(** As many signers as the threshold of a key whose polynomial has full degree: no history gives a signature, unless a challenge is 0. *)
Theorem C53_too_few : forall `{L : group_laws} `{Hf : hash_fn}, hash_ok Hf -> forall ids message rg now t sec pub s0 es s out u a,
  valid_ids ids -> NewSignState rg now t ids sec pub message = Ret s0 -> run sign_round s0 es = Ret (s, out) ->
  List.length u = List.length ids -> a <> f0 -> (forall i, In i ids -> exists B, pub_Shares pub !! i = Some B /\ geq B (gbmul (spoly (u ++ [a]) (qof i)))) ->
  geq (pub_GroupKey pub) (gbmul (spoly (u ++ [a]) f0)) -> sh_Secret sec = spoly (u ++ [a]) (qof (sh_ID sec)) ->
  st_done s = true -> st_err s = None ->
  exists cl, commitments_of es ids (sh_ID sec) (SetScalarRandom rg 0) (SetScalarRandom rg 1) cl /\ chal (group_nonce message cl) (pub_GroupKey pub) message = f0.
Proof.
  intros Gr L Hf HH ids message rg now t sec pub s0 es s out u a V NEW RUN Hu Ha HB HK HS D Er.
  assert (List.NoDup ids) as ND by apply V. pose proof (valid_u16 ids V) as HU.
  pose proof (self_in' HH rg now t ids sec pub message s0 NEW ND HU es s out RUN) as Hin. destruct (HB _ Hin) as (B & EB & HBe).
  assert (geq (gbmul (sh_Secret sec)) B) as HA by (rewrite HBe, HS; reflexivity).
  destruct (C53_success HH ids message ND HU rg now t sec pub s0 NEW B EB HA es s out RUN D Er) as [X|X]; [exfalso|exact X].
  apply (C53_can_sign ids pub (u ++ [a]) HB HK) in X. apply (C53_threshold ids V u a Hu) in X. contradiction.
Qed.

(** With honest peers nobody is blamed, whatever the number of signers: only a timeout or the failing final check ends such a run with an error. *)
Section HonestPeers.
  Context `{L : group_laws} `{Hf : hash_fn} (HH : hash_ok Hf).
  Context (ids : list Z) (message : list byte) (ND : List.NoDup ids) (HU : Forall is_u16 ids).
  Context (rg : rng) (now t : Z) (sec : SecretShare) (pub : Public) (s0 : State sround).
  Context (NEW : NewSignState rg now t ids sec pub message = Ret s0).
  Context (es : list event) (s : State sround) (out : list Message).
  Context (RUN : run sign_round s0 es = Ret (s, out)).
  (** [j] runs this code with the same key and message and the secret of the public share we hold for it, what we were given in its name was sent by it,
      and it was given the same commitments as we were. *)
  Definition honest_peer (j : Z) : Prop :=
    exists rgj nowj tj secj pubj s0j esj sj outj, sh_ID secj = j /\ NewSignState rgj nowj tj ids secj pubj message = Ret s0j /\
      geq (pub_GroupKey pub) (pub_GroupKey pubj) /\ (exists A, pub_Shares pub !! j = Some A /\ geq A (gbmul (sh_Secret secj))) /\
      (SetScalarRandom rgj 0 <> f0 /\ SetScalarRandom rgj 1 <> f0) /\ run sign_round s0j esj = Ret (sj, outj) /\
      (forall m, given es m -> m_From m = j -> exists m0, In m0 outj /\ same_msg m0 m) /\
      (forall m m' b b', given es m \/ In m out -> given esj m' \/ In m' outj -> m_Type m = MTSign1 -> m_Type m' = MTSign1 ->
         m_From m = m_From m' -> m_Sign1 m = Some b -> m_Sign1 m' = Some b' -> geq (s1_Di b) (s1_Di b') /\ geq (s1_Ei b) (s1_Ei b')).
  Theorem C53_nobody_blamed : (forall j, In j ids -> j <> sh_ID sec -> honest_peer j) -> forall err, st_err s = Some err ->
    pe_PartyID err = 0 /\ (pe_text err = "message timeout"%string \/ pe_text err = "full signature is invalid"%string).
  Proof.
    intros HP err Er. assert (pe_PartyID err = 0) as H0.
    { destruct (Z.eq_dec (pe_PartyID err) 0) as [H0|H0]; auto. exfalso.
      destruct (C10_blame HH rg now t ids sec pub message s0 NEW ND HU es s out RUN err Er H0) as (X & Y & _).
      destruct (HP _ X Y) as (rgj & nowj & tj & secj & pubj & s0j & esj & sj & outj & Hj & NEWj & KEY & SHARE & NZ & RUNj & AUTH & BC). rewrite <- Hj in SHARE, AUTH.
      exact (C09_sign_blame HH ids message ND HU rg rgj now nowj t tj sec secj pub pubj s0 s0j NEW NEWj KEY SHARE NZ es esj s sj out outj RUN RUNj AUTH BC err Er (eq_sym Hj)). }
    split; [exact H0|]. destruct (the_run HH rg now t ids sec pub message s0 NEW ND HU es s out RUN) as (r0 & E1 & HL).
    assert (st_done s = true) as D. { destruct (st_done s) eqn:D; auto. rewrite (inv_err _ s (li_inv _ _ _ _ _ _ _ HL) D) in Er. discriminate. }
    pose proof (li_F _ _ _ _ _ _ _ HL D) as [_ H]. rewrite Er in H. destruct H as [_ [[_ X]|[H|[H|H]]]]; [now left| | |right; apply H].
    - exfalso. destruct H as (_ & Hin & _). rewrite H0 in Hin. exact (nonzero HH rg now t ids sec pub message s0 NEW ND HU es s out RUN 0 Hin eq_refl).
    - exfalso. destruct H as (_ & Hin & _). rewrite H0 in Hin. exact (nonzero HH rg now t ids sec pub message s0 NEW ND HU es s out RUN 0 Hin eq_refl).
  Qed.
End HonestPeers.

(** Cases: one signer of the key 5 + 3x (threshold 1) fails without blame; two signers of 5 + 3x + 7x^2 cannot sign; and when the leading coefficient happens to be 0,
    one signer of a key with threshold 1 does produce a signature. *)
Example C53_example :
  valid_ids [2] /\ ~ determines [2] [qof 5; qof 3] /\
  ts_view (ts_run (ts_new [2] 2 0) [prc; prc; prc]) = (true, 2, Some (0, "full signature is invalid"%string), false) /\
  ~ determines [1; 3] [qof 5; qof 3; qof 7] /\ determines [1; 3] [qof 5; qof 3; f0] /\
  ts_view (ts_run (@NewSignState toy_group toy_hash (toy_rng 2) 0 0 [2] (@NewSecretShare toy_group 2 (qof 5)) (@mkPublic toy_group k3 1 (<[1 := qof 5]> (<[2 := qof 5]> (<[3 := qof 5]> ∅))) (qof 5)) t_message) [prc; prc; prc])
    = (true, 2, None, true).
Proof.
  assert (valid_ids [2]) as V by solve_valid. assert (valid_ids [1; 3]) as V' by solve_valid.
  assert (forall a b : Z, (a mod q25519 =? b mod q25519) = false -> qof a <> qof b) as NE.
  { intros a b H E. apply (f_equal fz) in E. change (a mod q25519 = b mod q25519) in E. rewrite E, Z.eqb_refl in H. discriminate. }
  split; [exact V|]. split.
  { rewrite (C53_threshold [2] V [qof 5] (qof 3) eq_refl). apply (NE 3 0). vm_compute. reflexivity. }
  split; [vm_compute; reflexivity|]. split.
  { rewrite (C53_threshold [1; 3] V' [qof 5; qof 3] (qof 7) eq_refl). apply (NE 7 0). vm_compute. reflexivity. }
  split; [now apply (C53_threshold [1; 3] V' [qof 5; qof 3] f0 eq_refl)|]. vm_compute. reflexivity.
Qed.

Print Assumptions C53_one_value.
Print Assumptions C53_threshold.
Print Assumptions C53_success.
Print Assumptions C53_failure.
Print Assumptions C53_too_few.
Print Assumptions C53_nobody_blamed.
