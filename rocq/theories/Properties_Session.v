(** C54: messages carry nothing that ties them to a session; what replaying old ones does. *)
From Coq Require Import ZArith Lia List Bool String Permutation Sorted Ring Setoid Morphisms.
From Coq.Strings Require Import Byte.
From stdpp Require Import base gmap list fin_maps.
From Verif Require Import ZField Primes Bytes Scalar Go Group ToyGroup Party Poly PolyFacts Zk Eddsa Messages State StateFacts Spec_State
  Keygen Sign RoundFacts Lift Net Progress NetProgress Spec_Poly PolyAlg Spec_Group Spec_Wire Spec_Sign Spec_SignRun Spec_Keygen SignFacts SignRun KeygenFacts KeygenRun
  Properties_Algebra Properties_Codec Properties_Sign Properties_Keygen Properties_HonestSign Properties_HonestKeygen Properties_Agree ToyRuns.
Import ListNotations.
Local Open Scope Z_scope.

Local Opaque SetScalarRandom.

(** * Signing *)
Section SignReplay.
  Context `{L : group_laws} `{Hf : hash_fn} (HH : hash_ok Hf).
  (** Our session, and another one of the honest [j]: with other signers, another message and other public data if one likes. *)
  Context (ids idsj : list Z) (message messagej : list byte) (ND : List.NoDup ids) (HU : Forall is_u16 ids) (NDj : List.NoDup idsj) (HUj : Forall is_u16 idsj).
  Context (rg rgj : rng) (now nowj t tj : Z) (sec secj : SecretShare) (pub pubj : Public) (s0 s0j : State sround).
  Context (NEW : NewSignState rg now t ids sec pub message = Ret s0) (NEWj : NewSignState rgj nowj tj idsj secj pubj messagej = Ret s0j).
  Notation j := (sh_ID secj).
  Context (es esj : list event) (s sj : State sround) (out outj : list Message).
  Context (RUN : run sign_round s0 es = Ret (s, out)) (RUNj : run sign_round s0j esj = Ret (sj, outj)).

  (** All we were given in j's name is from that session.  We finish without error only if j's share satisfies the equation of our session too, i.e. if
      e_j (rho - rho') + s_j (lambda c - lambda' c') = 0. *)
  Theorem C54_sign_relation :
    In j ids -> (exists A, pub_Shares pub !! j = Some A /\ geq A (gbmul (sh_Secret secj))) -> j <> sh_ID sec ->
    (forall m, given es m -> m_From m = j -> exists m0, In m0 outj /\ same_msg m0 m) ->
    st_done s = true -> st_err s = None ->
    exists cl clj, commitments_of es ids (sh_ID sec) (SetScalarRandom rg 0) (SetScalarRandom rg 1) cl /\ commitments_of esj idsj j (SetScalarRandom rgj 0) (SetScalarRandom rgj 1) clj /\
      (SetScalarRandom rgj 1 * (binding message cl j - binding messagej clj j) +
       sh_Secret secj * (lagrange_spec j ids * chal (group_nonce message cl) (pub_GroupKey pub) message - lagrange_spec j idsj * chal (group_nonce messagej clj) (pub_GroupKey pubj) messagej))%Fq = f0.
  Proof.
    intros Hin (A & EA & HA) Hj AUTH D Er.
    destruct (finished_view HH ids message ND HU rg now t sec pub s0 NEW es s out RUN D Er) as (sig & cl & zs & A1 & HV & A3 & A4 & A5 & A6 & A7 & A8).
    pose proof Hin as Hin'. rewrite <- A7 in Hin'. apply In_fst in Hin' as [z Hz]. destruct (A8 j z Hz Hj) as (HX & m & M1 & M2 & M3 & M4).
    destruct (AUTH m M1 M2) as (m0 & Hm0 & HS).
    destruct (C14_same_nonces HH rgj nowj tj idsj secj pubj messagej s0j NEWj NDj HUj esj sj outj RUNj) as [O|[O|(clj & HVj & O)]]; rewrite O in Hm0.
    { destruct Hm0. } { destruct Hm0 as [<-|[]]. rewrite (same_type _ _ HS) in M3. discriminate. }
    destruct Hm0 as [<-|[<-|[]]]; [rewrite (same_type _ _ HS) in M3; discriminate|].
    rewrite (same_s2 _ _ _ HS eq_refl eq_refl) in M4. inversion M4; subst z. clear M4.
    pose proof Hin as Hc. rewrite <- (co_ids _ _ _ _ _ _ HV) in Hc. apply In_fst in Hc as [[Dj Ej] Hc].
    assert (geq Dj (gbmul (SetScalarRandom rgj 0)) /\ geq Ej (gbmul (SetScalarRandom rgj 1))) as [HD HE].
    { destruct (co_other _ _ _ _ _ _ HV j Dj Ej Hc Hj) as (m2 & Q1 & Q2 & Q3 & Q4 & _). destruct (AUTH m2 Q1 Q2) as (m0 & Hm0 & HS2). rewrite O in Hm0.
      destruct Hm0 as [<-|[<-|[]]].
      - destruct (same_s1 _ _ _ HS2 eq_refl eq_refl) as (b' & X1 & X2). rewrite Q4 in X1. inversion X1; subst b'. exact X2.
      - rewrite (same_type _ _ HS2) in Q3. discriminate. }
    exists cl, clj. split; [exact HV|]. split; [exact HVj|].
    specialize (HX Dj Ej Hc). unfold weighted in HX. rewrite EA in HX. rewrite HA in HX. unfold nonce_point in HX. cbn [fst snd] in HX. rewrite HD, HE in HX.
    revert HX. gcollapse. intros HX. apply gb_inj in HX. unfold sig_share in HX. symmetry in HX.
    match type of HX with ?l = ?r => assert (fsub l r = f0) as HY by (rewrite HX; ring) end. rewrite <- HY. ring.
  Qed.
End SignReplay.

(** * Key generation *)
Section KeygenReplay.
  Context `{L : group_laws} `{Hf : hash_fn}.
  Context (ids : list Z) (thr : Z) (V : valid_ids ids) (HT : is_u16 thr) (HSo : sorted ids).
  (** A session in which all parties finished... *)
  Context (rg : Z -> rng) (now timeout : Z -> Z) (s0 : Z -> State kround).
  Context (NEW : forall i, In i ids -> NewKeygenState (rg i) (now i) (timeout i) i ids thr = Ret (s0 i)).
  Context (c : config) (HR : net_reach keygen_round ids (mkConfig s0 []) c).
  Context (DONE : forall i, In i ids -> st_done (cf_state c i) = true /\ st_err (cf_state c i) = None).
  (** ... and a new State of one of them. *)
  Context (self : Z) (Hself : In self ids) (rgn : rng) (nown tn : Z) (s0n : State kround).
  Context (NEWn : NewKeygenState rgn nown tn self ids thr = Ret s0n).

  Let rgm (k : Z) : rng := if k =? self then rgn else rg k.
  Let s0m (k : Z) : State kround := if k =? self then s0n else s0 k.
  Let nowm (k : Z) : Z := if k =? self then nown else now k.
  Let tm (k : Z) : Z := if k =? self then tn else timeout k.

  Lemma NEWm k : In k ids -> NewKeygenState (rgm k) (nowm k) (tm k) k ids thr = Ret (s0m k).
  Proof. intros Hk. unfold rgm, s0m, nowm, tm. destruct (Z.eqb_spec k self) as [->|]; auto. Qed.

  Lemma old_sent k m : In k ids -> (m = own_KG1 (rg k) k thr \/ In m (own_KG2s (rg k) k ids thr)) -> In m (cf_sent c).
  Proof.
    intros Hk Hm. destruct (net_local keygen_round _ _ _ HR) as [_ H2]. destruct (H2 k) as (es & out & E & H1 & H3). apply H3.
    destruct (DONE k Hk) as [D Er].
    assert (Forall (event_ok (KW ids thr rg)) es) as HE.
    { pose proof (net_closed keygen_round (KU ids thr rg) (KW ids thr rg) ids s0 c (KUW ids thr rg) (khonest_out ids thr V HT rg now timeout s0 NEW) HR) as HF.
      apply List.Forall_forall. intros [nw m'| | |] Hin; cbn; auto. rewrite List.Forall_forall in HF. destruct (H1 nw m' Hin) as (m0 & A & B). exact (KUW ids thr rg m0 m' (HF m0 A) B). }
    destruct (khonest_run ids thr V HT rg now timeout s0 NEW k es _ _ Hk HE E) as (r0 & _ & _ & HL).
    pose proof (li_F _ _ _ _ _ _ _ HL D) as [_ HF]. rewrite Er in HF. destruct HF as (_ & _ & _ & _ & _ & _ & _ & HO & _). rewrite HO.
    destruct Hm as [->|Hm]; [now left|now right].
  Qed.

  (** The new State, given only messages the others sent in the old session, finishes without error, whatever it drew: the others take no part.  The key it
      then holds is the old one exactly if it drew the old constant term. *)
  Theorem C54_keygen_refuted : exists es s out pub sk,
    run keygen_round s0n es = Ret (s, out) /\ (forall m, given es m -> m_From m <> self -> exists m0, In m0 (cf_sent c) /\ same_msg m0 m) /\
    st_done s = true /\ st_err s = None /\ kg_output s = mkKOutput (Some pub) (Some sk) /\
    forall i old osk, In i ids -> kg_output (cf_state c i) = mkKOutput (Some old) (Some osk) ->
      geq (pub_GroupKey pub) (pub_GroupKey old) <-> SetScalarRandom rgn 0 = SetScalarRandom (rg self) 0.
  Proof.
    destruct (C04_completes ids thr V HT rgm nowm tm s0m NEWm HSo) as (cn & HRn & HD). destruct (HD self Hself) as [D Er].
    pose proof (khonest_out ids thr V HT rgm nowm tm s0m NEWm) as HKO.
    destruct (net_local_W keygen_round (KU ids thr rgm) (KW ids thr rgm) ids s0m cn (KUW ids thr rgm) HKO HRn self) as (es & out & HE & E).
    pose proof (khonest_final ids thr V HT rgm nowm tm s0m NEWm self es _ _ Hself HE E D) as X. rewrite Er in X.
    destruct X as (pub & sk & X1 & _ & _ & _ & _ & _ & X2 & _).
    assert (s0m self = s0n) as Es by (unfold s0m; now rewrite Z.eqb_refl). rewrite Es in E.
    exists es, (cf_state cn self), out, pub, sk. split; [exact E|]. split.
    { intros m (nw & Hm) Hfr. rewrite List.Forall_forall in HE. destruct (HE _ Hm) as (m0 & (l & Hl & Hm0) & Hsame). exists m0. split; [|exact Hsame].
      assert (m_From m = l) as El. { rewrite (same_from _ _ Hsame). destruct Hm0 as [->|Hm0]; [reflexivity|]. apply in_map_iff in Hm0 as (i & <- & _). reflexivity. }
      apply (old_sent l); [exact Hl|]. unfold rgm in Hm0. rewrite (proj2 (Z.eqb_neq l self)) in Hm0 by congruence. exact Hm0. }
    split; [exact D|]. split; [exact Er|]. split; [exact X1|].
    intros i old osk Hi Ho. destruct (DONE i Hi) as [Do Eo]. pose proof (C04_honest ids thr V HT rg now timeout s0 NEW c i HR Hi Do) as Y. rewrite Eo in Y.
    destruct Y as (old' & osk' & Y1 & _ & _ & _ & _ & _ & Y2 & _). rewrite Ho in Y1. assert (old' = old) as -> by congruence. rewrite X2, Y2. rewrite gb_inj.
    unfold shared.
    assert (forall r : Z -> rng, Fsum (map (fun k => spoly (dealt (r k) (Z.to_nat thr)) f0) ids) = fadd (SetScalarRandom (r self) 0) (Fsum (map (fun k => SetScalarRandom (r k) 0) (others_of self ids)))) as S.
    { intros r. rewrite (Fsum_perm _ (map (fun k => spoly (dealt (r k) (Z.to_nat thr)) f0) (self :: others_of self ids))).
      - assert (forall rr, spoly (dealt rr (Z.to_nat thr)) f0 = SetScalarRandom rr 0) as Hz. { intros rr. rewrite <- peval_spoly, peval_0. reflexivity. }
        cbn [map]. change (Fsum (?u :: ?l)) with (fadd u (Fsum l)). rewrite Hz. f_equal. apply Fsum_ext_in. intros k _. apply Hz.
      - apply Permutation_map. apply others_perm; auto. apply V. }
    rewrite !S. assert (rgm self = rgn) as -> by (unfold rgm; now rewrite Z.eqb_refl).
    rewrite (map_ext_in (fun k => SetScalarRandom (rgm k) 0) (fun k => SetScalarRandom (rg k) 0) (others_of self ids)).
    2:{ intros k Hk. apply others_of_In in Hk as [_ Hk]. unfold rgm. now rewrite (proj2 (Z.eqb_neq k self)) by congruence. }
    generalize (Fsum (map (fun k => SetScalarRandom (rg k) 0) (others_of self ids))). intros u. split; [|now intros ->].
    intros X. match type of X with fadd ?a _ = fadd ?b _ => transitivity (fsub (fadd a u) u); [ring|rewrite X; ring] end.
  Qed.
End KeygenReplay.

(** A new signing State of party 1 for the same message is given what 3 sent in an earlier session: it blames 3, which did nothing wrong and takes no part. *)
Definition ses_new (seed : Z) : outcome tsstate := @NewSignState toy_group toy_hash (toy_rng seed) 0 0 s13 (t_secret 1) t_public t_message.
Definition ses_es : list (@event toy_group) := prc :: hnd (sg1_of 3) ++ prc :: hnd (sg2_of 3) ++ [prc].
Lemma ses_given (A B : list tmsg) m : given (prc :: hnd A ++ prc :: hnd B ++ [prc]) m -> In m (A ++ B).
Proof.
  intros (nw & [H|H]); [discriminate|]. apply in_app_iff. apply in_app_iff in H as [H|[H|H]]; [left|discriminate|right].
  - apply in_map_iff in H as (x & E & H). inversion E; subst. exact H.
  - apply in_app_iff in H as [H|[H|[]]]; [|discriminate]. apply in_map_iff in H as (x & E & H). inversion E; subst. exact H.
Qed.
Theorem C54_sign_refuted : exists es : list (@event toy_group),
  (forall m, given es m -> In m (sg1_of 3 ++ sg2_of 3)) /\
  ts_view (ts_run (ts_new s13 1 0) es) = (true, 2, None, true) /\
  ts_view (ts_run (ses_new 5) es) = (true, 2, Some (3, "signature share is invalid"%string), false).
Proof. exists ses_es. split; [exact (ses_given (sg1_of 3) (sg2_of 3))|]. split; vm_compute; reflexivity. Qed.

(** The hypotheses of C54_keygen_refuted: a session with everybody finished exists for all randomness (C04_completes), and any State of any party can follow. *)
Example C54_example : valid_ids k3 /\ sorted k3 /\ is_u16 1 /\ In 2 k3 /\
  (forall i, In i k3 -> exists s, @NewKeygenState toy_group toy_hash (toy_rng i) 0 0 i k3 1 = Ret s) /\
  (exists s, @NewKeygenState toy_group toy_hash (toy_rng 7) 0 0 2 k3 1 = Ret s) /\
  tk_view (tk_run (@NewKeygenState toy_group toy_hash (toy_rng 7) 0 0 2 k3 1) (prc :: hnd (kg1_of 1 ++ kg1_of 3) ++ prc :: hnd (to_ 2 (kg2_of 1) ++ to_ 2 (kg2_of 3)) ++ [prc]))
    = (true, 2, 0%nat, [], false).
Proof.
  split; [solve_valid|]. split; [repeat constructor; lia|]. split; [unfold is_u16; lia|]. split; [right; left; reflexivity|]. split.
  { intros i [<-|[<-|[<-|[]]]]; eexists; reflexivity. }
  split; [eexists; reflexivity|]. vm_compute. reflexivity.
Qed.

Print Assumptions C54_sign_relation.
Print Assumptions C54_keygen_refuted.
Print Assumptions C54_sign_refuted.
