(** C06, C07, C08, C09 (keygen), C18 (keygen), C19 (keygen), C35: one keygen party against arbitrary peers. *)
From Coq Require Import ZArith Lia List Bool String Permutation Sorted Ring Setoid Morphisms.
From Coq.Strings Require Import Byte.
From stdpp Require Import base gmap list fin_maps.
From Verif Require Import ZField Primes Bytes Scalar Go Group ToyGroup Party Poly PolyFacts Zk Eddsa Messages State StateFacts Spec_State
  Keygen Sign RoundFacts Lift Net Spec_Poly PolyAlg Spec_Group Spec_Wire Spec_Sign Spec_SignRun Spec_Keygen SignFacts SignRun KeygenFacts KeygenRun
  Properties_Algebra Properties_Codec Properties_Sign ToyRuns.
Import ListNotations.
Local Open Scope Z_scope.

Local Opaque SetScalarRandom.

Lemma NewKeygenState_round `{Gr : group_ops} `{Hf : hash_fn} rg now t self ids thr s0 :
  NewKeygenState rg now t self ids thr = Ret s0 ->
  exists r0, kg_NewRound rg self ids thr = Ret r0 /\ s0 = NewBaseState keygen_round now t r0.
Proof. unfold NewKeygenState. intros E. apply obind_ret in E as (r0 & E1 & E2). apply Ret_inj in E2. eauto. Qed.

(** * C07: the proof of knowledge *)
Section ZK.
  Context `{L : group_laws} `{Hf : hash_fn}.
  Theorem C07_complete : forall k i x ctx A pr, geq A (gbmul x) ->
    NewSchnorrProof k i A ctx x = Ret pr -> zk_Verify pr i A ctx = Ret true.
  Proof.
    intros k i x ctx A pr HA. unfold NewSchnorrProof, zk_Verify. intros E. apply obind_ret in E as (c & E1 & E2). apply Ret_inj in E2. subst pr.
    cbn [pr_S pr_R]. unfold zk_challenge in *. destruct (Nat.ltb _ _); [discriminate|]. apply Ret_inj in E1. cbn [obind].
    assert (geq (gdsmul c (gneg A) (fadd (fmul x c) k)) (gbmul k)) as HM.
    { unfold gdsmul. rewrite HA. gcollapse. apply gb_inj. ring. }
    unfold zk_input in *. rewrite HM. rewrite E1. now rewrite feqb_refl.
  Qed.
  (** A proof can be made for every context of at least 32 bytes. *)
  Theorem C07_proof_exists : forall k i x ctx A, (32 <= List.length ctx)%nat -> exists pr, NewSchnorrProof k i A ctx x = Ret pr.
  Proof.
    intros. unfold NewSchnorrProof, zk_challenge. replace (Nat.ltb _ _) with false by (symmetry; apply Nat.ltb_ge; auto). cbn [obind]. eauto.
  Qed.
  (** What Verify really accepts: the challenge is computed from 128 bytes instead of 64, which SetUniformBytes refuses, so it is
      always 0 and every pair (0, R) is a proof of everything. *)
  Theorem C07_accepts_everything : hash_ok Hf -> forall pr i A ctx, (32 <= List.length ctx)%nat ->
    zk_Verify pr i A ctx = Ret true <-> pr_S pr = f0.
  Proof.
    intros HH pr i A ctx HC. unfold zk_Verify, zk_challenge. replace (Nat.ltb _ _) with false by (symmetry; apply Nat.ltb_ge; auto). cbn [obind].
    unfold scalar_set_uniform, hash_Sum. rewrite app_length, repeat_length, HH. cbn [Nat.eqb Nat.add]. rewrite <- feqb_eq.
    split; [apply Ret_inj|intros ->; reflexivity].
  Qed.
End ZK.
(** The binding half of C07 fails: a proof that verifies although its S is not the hash of its statement. *)
Theorem C07_refuted : exists (pr : Schnorr) (i : Z) (ctx : list byte) (A : @G toy_group),
  @zk_Verify toy_group toy_hash pr i A ctx = Ret true /\
  pr_S pr <> @zk_hash toy_group toy_hash i ctx A (@gadd toy_group (@gbmul toy_group (pr_R pr)) (@gneg toy_group (@gsmul toy_group (pr_S pr) A))).
Proof.
  exists (mkSchnorr f0 (qof 3)), 1, ctx0, (qof 17). split; [vm_compute; reflexivity|]. apply feqb_neq. vm_compute. reflexivity.
Qed.

(** * C08: the check on a share *)
Section VSS.
  Context `{L : group_laws} `{Hf : hash_fn}.
  Theorem C08_check : forall k m s C, kr_no k = 2%nat -> 1 <= kr_self k < 65536 ->
    m_KeyGen2 m = Some (mkKeyGen2 s) -> kr_Commitments k !! m_From m = Some C ->
    (on_commitment (kr_self k) C s ->
       exists k', r_process keygen_round k (Some m) = ROk k' tt /\ kr_Secret k' = fadd (kr_Secret k) s /\ kr_no k' = 2%nat) /\
    (~ on_commitment (kr_self k) C s -> r_process keygen_round k (Some m) = RErr k (m_From m) "VSS failed to validate").
  Proof.
    intros k m s C Hno Hs Hm HC. cbn [keygen_round r_process]. rewrite Hno. unfold kg2_process. rewrite Hm. setoid_rewrite HC. cbv zeta. cbn [k2_Share].
    destruct (exp_eval_id C (kr_self k)) as (P & E1 & E2 & E3); [unfold is_u16; lia|lia|]. rewrite E1. cbn [lift_r]. rewrite E2. cbn [lift_r].
    assert (geqb (gbmul s) P = true <-> on_commitment (kr_self k) C s) as Hfit.
    { unfold on_commitment. change (geqb (gbmul s) P = true) with (geq (gbmul s) P). rewrite E3, gpeval_gpoly. reflexivity. }
    destruct (geqb (gbmul s) P); cbn [negb]; split; intros X.
    - eexists. split; [reflexivity|]. cbn. auto.
    - exfalso. apply X. now apply Hfit.
    - apply Hfit in X. discriminate.
    - reflexivity.
  Qed.
  (** The share of a polynomial fits its commitment. *)
  Theorem C08_honest_share : forall self f, on_commitment self (commitment f) (spoly f (qof self)).
  Proof.
    intros self f. unfold on_commitment. rewrite <- gpeval_gpoly. change (commitment f) with (NewPolynomialExponent f).
    rewrite gpeval_commit, peval_spoly. reflexivity.
  Qed.
End VSS.

(** * C18 for keygen *)
Section Erase.
  Context `{Gr : group_ops} `{Hf : hash_fn}.
  Definition kerased (k : kround) : Prop :=
    kr_Secret k = f0 /\ (forall p, kr_Polynomial k = Some p -> Forall (eq f0) p) /\
    (forall c, kr_CommitmentsSum k = Some c -> Forall (eq gid) c) /\ (forall j c, kr_Commitments k !! j = Some c -> Forall (eq gid) c).
  Lemma kreset_erased k k' : kg_Reset k = Ret k' -> kerased k'.
  Proof.
    unfold kg_Reset. destruct (kr_Polynomial k) as [p|]; [|discriminate]. destruct (kr_CommitmentsSum k) as [c|]; [|discriminate].
    intros E. apply Ret_inj in E. subst k'. split; cbn; auto.
    assert (forall {A B} (x : B) (l : list A), Forall (eq x) (map (fun _ => x) l)) as X. { intros A B x l. induction l; cbn; constructor; auto. }
    split; [|split].
    - intros p' [= <-]. apply X.
    - intros c' [= <-]. apply X.
    - intros j c' Hj. rewrite lookup_fmap in Hj. apply fmap_Some in Hj as (c1 & _ & ->). apply X.
  Qed.
  Theorem C18_keygen : forall rg now t self ids thr s0 s out, NewKeygenState rg now t self ids thr = Ret s0 ->
    reaches keygen_round s0 s out -> st_done s = true -> kerased (st_round s).
  Proof.
    intros rg now t self ids thr s0 s out E [es ER] D. apply NewKeygenState_round in E as (r0 & _ & ->).
    assert (linv keygen_round (fun _ => True) r0 (fun _ _ _ => True) (fun r _ _ => kerased r) s out) as HL.
    { eapply linv_run; [exact keygen_round_ok|exact Logic.I| | |apply List.Forall_forall; intros [] _; exact Logic.I|exact ER].
      - intros n r o rcv ks sched _ _ _ _ _ _. unfold step_post.
        destruct (process_loop _ _ _ _); auto; [|intros ? HH0; exact (kreset_erased _ _ HH0)].
        destruct (r_generate _ _ _); auto; [|intros ? HH0; exact (kreset_erased _ _ HH0)].
        destruct (r_next _ _); auto. intros ? HH0; exact (kreset_erased _ _ HH0).
      - intros n r o r3 _ _ _ HH0. exact (kreset_erased _ _ HH0). }
    exact (li_F _ _ _ _ _ _ _ HL D).
  Qed.
End Erase.

Section Keygen1.
  Context `{L : group_laws} `{Hf : hash_fn}.
  Context (rg : rng) (now t : Z) (self : Z) (ids : list Z) (thr : Z) (s0 : State kround).
  Context (NEW : NewKeygenState rg now t self ids thr = Ret s0).
  (** The IDs are non-zero uint16 values, listed once each; the threshold is a uint16. *)
  Context (V : valid_ids ids) (HT : is_u16 thr).
  Notation others := (others_of self ids).
  Notation f := (dealt rg (Z.to_nat thr)).
  Context (es : list event) (s : State kround) (out : list Message).
  Context (RUN : run keygen_round s0 es = Ret (s, out)).

  Lemma kthe_run : exists r0, kg_NewRound rg self ids thr = Ret r0 /\
    linv keygen_round (given es) r0 (PK (given es) rg self ids thr) (FK (given es) rg self ids thr) s out.
  Proof.
    destruct (NewKeygenState_round _ _ _ _ _ _ _ NEW) as (r0 & E1 & ->). exists r0. split; auto.
    eapply keygen_run; [exact E1|exact V|exact HT|apply given_events|exact RUN].
  Qed.
  Lemma p0_dealt : p0 rg thr = f.
  Proof. unfold p0, dealt. cbn [seq map]. f_equal. rewrite <- seq_shift, map_map. reflexivity. Qed.
  Lemma kself_in' : In self ids.
  Proof. destruct kthe_run as (r0 & E1 & _). exact (proj1 (knew (given es) _ _ _ _ _ E1 V HT)). Qed.

  (** The polynomial is gone as soon as the shares have been handed out: whenever they have been returned by ProcessAll
      (and not only at the end), every coefficient still stored is zero. *)
  Theorem C18_polynomial : (exists m, In m out /\ m_Type m = MTKeyGen2) -> forall p, kr_Polynomial (st_round s) = Some p -> Forall (eq f0) p.
  Proof.
    intros (m & Hm & Ht) p Hp. destruct kthe_run as (r0 & E1 & HL). destruct (st_done s) eqn:D.
    - destruct (C18_keygen rg now t self ids thr s0 s out NEW (ex_intro _ es RUN) D) as (_ & X & _). auto.
    - destruct (li_P _ _ _ _ _ _ _ HL D) as (n & _ & _ & _ & _ & H). destruct n as [|[|[|n]]]; [| | |contradiction].
      + destruct H as [-> _]. destruct Hm.
      + destruct H as (_ & _ & _ & _ & ->). destruct Hm as [<-|[]]. discriminate.
      + destruct H as ((p' & Hp' & X) & _). congruence.
  Qed.
  (** The messages sent never depend on what was received: a commitment to f, then the shares f(i). *)
  Theorem C08_sent : out = [] \/ exists pr,
    zk_Verify pr self (gbmul (spoly f f0)) ctx0 = Ret true /\
    (out = [NewKeyGen1 self pr (commitment f)] \/
     out = NewKeyGen1 self pr (commitment f) :: map (fun i => NewKeyGen2 self i (spoly f (qof i))) others).
  Proof.
    destruct kthe_run as (r0 & E1 & HL).
    assert (kout_ok rg self ids thr out) as HO.
    { destruct (st_done s) eqn:D.
      - apply (li_F _ _ _ _ _ _ _ HL D).
      - destruct (li_P _ _ _ _ _ _ _ HL D) as (n & _ & _ & HP). eapply PK_out; eauto. }
    destruct HO as [HO|HO]; [left; auto|]. right. exists (own_proof rg self thr). split.
    { rewrite <- peval_spoly, peval_0. change (nth 0 f 0%Fq) with (SetScalarRandom rg 0).
      eapply C07_complete; [reflexivity|]. apply own_proof_eq. }
    unfold own_KG1, own_KG2s, C0 in HO. rewrite p0_dealt in HO. destruct HO as [HO|HO]; [left; exact HO|right].
    rewrite HO. f_equal. apply map_ext. intros i. now rewrite peval_spoly.
  Qed.

  (** The proof sent is for the constant coefficient, with the nonce read after all coefficients. *)
  Theorem C07_sent : forall m, In m out -> m_Type m = MTKeyGen1 -> exists pr,
    m = NewKeyGen1 self pr (commitment f) /\ zk_Verify pr self (gbmul (spoly f f0)) ctx0 = Ret true /\
    pr_R pr = fadd (fmul (spoly f f0) (pr_S pr)) (SetScalarRandom rg (S (Z.to_nat thr))).
  Proof.
    intros m Hm Ht. destruct kthe_run as (r0 & E1 & HL).
    assert (kout_ok rg self ids thr out) as HO.
    { destruct (st_done s) eqn:D.
      - apply (li_F _ _ _ _ _ _ _ HL D).
      - destruct (li_P _ _ _ _ _ _ _ HL D) as (n & _ & _ & HP). eapply PK_out; eauto. }
    assert (m = own_KG1 rg self thr) as ->.
    { destruct HO as [HO|[HO|HO]]; rewrite HO in Hm; cbn in Hm; [destruct Hm|destruct Hm as [<-|[]]; auto|].
      destruct Hm as [<-|Hm]; auto. apply in_map_iff in Hm as (i & <- & _). discriminate. }
    exists (own_proof rg self thr). unfold own_KG1, C0. rewrite p0_dealt. split; [reflexivity|].
    rewrite <- peval_spoly, peval_0. change (nth 0 f 0%Fq) with (SetScalarRandom rg 0). split.
    - eapply C07_complete; [reflexivity|]. apply own_proof_eq.
    - pose proof (own_proof_eq rg self thr) as E. unfold NewSchnorrProof in E. apply obind_ret in E as (c & _ & E). apply Ret_inj in E. rewrite <- E. reflexivity.
  Qed.
  (** A party finishes only if it was given, by every other party, a commitment with a verifying proof for its constant. *)
  Theorem C07_checked : st_done s = true -> st_err s = None -> forall j, In j ids -> j <> self ->
    exists m pr A tl, given es m /\ m_From m = j /\ m_Type m = MTKeyGen1 /\ m_KeyGen1 m = Some (mkKeyGen1 pr (A :: tl)) /\ zk_Verify pr j A ctx0 = Ret true.
  Proof.
    intros D Er j Hj Hne. destruct kthe_run as (r0 & E1 & HL). pose proof (li_F _ _ _ _ _ _ _ HL D) as [_ H]. rewrite Er in H.
    destruct H as (Cs & sh & c & pub & HV & _). destruct (HV j) as (m & pr & A & tl & M1 & M2 & M3 & M4 & M5 & M6).
    { apply others_of_In. auto. }
    exists m, pr, A, tl. rewrite <- M5. auto 10.
  Qed.

  (** * C06 *)
  Theorem C06_no_output_otherwise : st_done s = false \/ st_err s <> None -> kg_output s = mkKOutput None None.
  Proof.
    intros H. destruct kthe_run as (r0 & E1 & HL). unfold kg_output. destruct (st_done s) eqn:D.
    - pose proof (li_F _ _ _ _ _ _ _ HL D) as [_ HF]. destruct H as [H|H]; [discriminate|]. destruct (st_err s); [apply HF|congruence].
    - destruct (li_P _ _ _ _ _ _ _ HL D) as (n & _ & _ & HP). apply HP.
  Qed.
  (** Whatever the peers sent, the group key and all public shares lie on one polynomial of the right degree. *)
  Theorem C06_public : st_done s = true -> st_err s = None -> exists pub sk g,
    kg_output s = mkKOutput (Some pub) (Some sk) /\ sh_ID sk = self /\ geq (sh_Public sk) (gbmul (sh_Secret sk)) /\
    pub_PartyIDs pub = ids /\ pub_Threshold pub = thr /\
    List.length g = S (Z.to_nat thr) /\ geq (pub_GroupKey pub) (gbmul (spoly g f0)) /\
    (forall i, In i ids -> exists A, pub_Shares pub !! i = Some A /\ geq A (gbmul (spoly g (qof i)))) /\
    (forall i, ~ In i ids -> pub_Shares pub !! i = None).
  Proof.
    intros D Er. destruct kthe_run as (r0 & E1 & HL). pose proof (li_F _ _ _ _ _ _ _ HL D) as [_ H]. rewrite Er in H.
    destruct H as (Cs & sh & c & pub & HV & HG & [HC1 HC2] & HO & Eo & P1 & P2 & P3 & P4 & P5).
    destruct (commit_gen c) as (g & G1 & G2). exists pub, (NewSecretShare self (fadd (peval (p0 rg thr) (idF self)) (Fsum (map sh others)))), g.
    assert (forall x, geq (gpeval c x) (gbmul (spoly g x))) as Hc. { intros x. rewrite G2, gpeval_commit, peval_spoly. reflexivity. }
    split; [exact Eo|]. split; [reflexivity|]. split; [reflexivity|]. split; auto. split; auto. split.
    { rewrite G1, HC1. unfold C0, NewPolynomialExponent. rewrite map_length, p0_dealt. unfold dealt. now rewrite map_length, seq_length. }
    split; [rewrite P5; apply Hc|]. split; auto. intros i Hi. destruct (P3 i Hi) as (A & A1 & A2). exists A. split; auto. rewrite A2. apply Hc.
  Qed.
  (** The secret share is our own polynomial at our ID plus one share of each peer, which lies on the polynomial the peer committed to. *)
  Theorem C08_secret : st_done s = true -> st_err s = None -> exists pub sk (sh : Z -> Fq),
    kg_output s = mkKOutput (Some pub) (Some sk) /\
    sh_Secret sk = fadd (spoly f (qof self)) (Fsum (map sh others)) /\
    forall j, In j ids -> j <> self -> exists C, committed es j C /\ share_sent es self j (sh j) /\ on_commitment self C (sh j).
  Proof.
    intros D Er. destruct kthe_run as (r0 & E1 & HL). pose proof (li_F _ _ _ _ _ _ _ HL D) as [_ H]. rewrite Er in H.
    destruct H as (Cs & sh & c & pub & HV & HG & [HC1 HC2] & HO & Eo & _). do 2 eexists. exists sh. split; [exact Eo|]. split.
    { cbn [NewSecretShare sh_Secret]. now rewrite p0_dealt, peval_spoly. }
    intros j Hj Hne. assert (In j others) as Hjo by (apply others_of_In; auto). destruct (HG j Hjo) as [Hfit Hm]. exists (Cs j).
    destruct (HV j Hjo) as (m & pr & A & tl & M1 & M2 & M3 & M4 & _). split; [exists m, pr; auto|]. split; [exact Hm|].
    unfold on_commitment. rewrite <- gpeval_gpoly. exact Hfit.
  Qed.
  (** The secret share lies on the same polynomial provided every commitment received has threshold + 1 coefficients.
      (Missing for the full property: that condition is not checked by the code, see C06_refuted.) *)
  Theorem C06_secret_partial :
    (forall j C, In j ids -> j <> self -> committed es j C -> List.length C = S (Z.to_nat thr)) ->
    st_done s = true -> st_err s = None -> exists pub sk A,
    kg_output s = mkKOutput (Some pub) (Some sk) /\ pub_Shares pub !! self = Some A /\ geq (sh_Public sk) A.
  Proof.
    intros HLen D Er. destruct kthe_run as (r0 & E1 & HL). pose proof (li_F _ _ _ _ _ _ _ HL D) as [_ H]. rewrite Er in H.
    destruct H as (Cs & sh & c & pub & HV & HG & [HC1 HC2] & HO & Eo & P1 & P2 & P3 & P4 & P5).
    destruct (P3 self kself_in') as (A & A1 & A2). do 2 eexists. exists A. split; [exact Eo|]. split; auto.
    cbn [NewSecretShare sh_Public]. rewrite A2, HC2. unfold total.
    rewrite <- gb_add. apply gadd_proper.
    - unfold C0. now rewrite gpeval_commit.
    - rewrite <- Gsum_gbmul. apply Gsum_map_ext. intros j Hj. destruct (HG j Hj) as [Hfit _]. apply others_of_In in Hj as Hj'. destruct Hj' as [Hj1 Hj2].
      destruct (HV j Hj) as (m & pr & B & tl & M1 & M2 & M3 & M4 & _).
      rewrite (HLen j (Cs j) Hj1 Hj2) by (exists m, pr; auto). unfold C0, NewPolynomialExponent. rewrite map_length, p0_dealt. unfold dealt. rewrite map_length, seq_length.
      rewrite Nat.eqb_refl. exact Hfit.
  Qed.

  Lemma Gsum_split (g : Z -> G) (p : Z -> bool) l :
    geq (Gsum (map g l)) (gadd (Gsum (map g (List.filter p l))) (Gsum (map g (List.filter (fun j => negb (p j)) l)))) /\
    geq (Gsum (map (fun j => if p j then g j else gid) l)) (Gsum (map g (List.filter p l))).
  Proof.
    induction l as [|j l [IH1 IH2] ]; cbn [map List.filter]; [split; [now rewrite gadd_id_l|reflexivity]|].
    destruct (p j); cbn [negb map]; change (Gsum (?a :: ?l)) with (gadd a (Gsum l)); (split; [rewrite IH1|rewrite IH2]).
    - apply gadd_assoc.
    - reflexivity.
    - rewrite !gadd_assoc. apply gadd_proper; [apply gadd_comm|reflexivity].
    - apply gadd_id_l.
  Qed.
  (** C06, exactly: the commitments of the expected length make up the public data, those of another length ([dropped]) count for the secret
      share only. *)
  Theorem C06_exact : st_done s = true -> st_err s = None -> exists pub sk (Cs : Z -> list G),
    kg_output s = mkKOutput (Some pub) (Some sk) /\ (forall j, In j ids -> j <> self -> committed es j (Cs j)) /\
    let fits j := Nat.eqb (List.length (Cs j)) (S (Z.to_nat thr)) in
    let counted x := gadd (gbmul (spoly f x)) (Gsum (map (fun j => gpoly (Cs j) x) (List.filter fits others))) in
    let dropped x := Gsum (map (fun j => gpoly (Cs j) x) (List.filter (fun j => negb (fits j)) others)) in
    geq (pub_GroupKey pub) (counted f0) /\ (forall i, In i ids -> exists A, pub_Shares pub !! i = Some A /\ geq A (counted (qof i))) /\
    geq (sh_Public sk) (gadd (counted (qof self)) (dropped (qof self))) /\
    forall A, pub_Shares pub !! self = Some A -> (geq (sh_Public sk) A <-> geq (dropped (qof self)) gid).
  Proof.
    intros D Er. destruct kthe_run as (r0 & E1 & HL). pose proof (li_F _ _ _ _ _ _ _ HL D) as [_ H]. rewrite Er in H.
    destruct H as (Cs & sh & c & pub & HV & HG & [HC1 HC2] & HO & Eo & P1 & P2 & P3 & P4 & P5).
    exists pub. eexists. exists Cs. split; [exact Eo|]. split.
    { intros j Hj Hne. destruct (HV j) as (m & pr & B & tl & M1 & M2 & M3 & M4 & _); [apply others_of_In; auto|]. exists m, pr. auto. }
    cbv zeta. set (fits := fun j => Nat.eqb (List.length (Cs j)) (S (Z.to_nat thr))).
    assert (forall x, geq (gpeval c x) (gadd (gbmul (spoly f x)) (Gsum (map (fun j => gpoly (Cs j) x) (List.filter fits others))))) as HCt.
    { intros x. rewrite HC2. unfold total. apply gadd_proper; [unfold C0; now rewrite gpeval_commit, p0_dealt, peval_spoly|].
      rewrite <- (proj2 (Gsum_split (fun j => gpoly (Cs j) x) fits others)). apply Gsum_map_ext. intros j _.
      unfold C0, NewPolynomialExponent. rewrite map_length, p0_dealt. unfold dealt. rewrite map_length, seq_length. change (Nat.eqb _ _) with (fits j). destruct (fits j); [now rewrite gpeval_gpoly|reflexivity]. }
    assert (forall i, In i ids -> exists A, pub_Shares pub !! i = Some A /\ geq A (gadd (gbmul (spoly f (qof i))) (Gsum (map (fun j => gpoly (Cs j) (qof i)) (List.filter fits others))))) as HA.
    { intros i Hi. destruct (P3 i Hi) as (A & A1 & A2). exists A. split; auto. rewrite A2. apply HCt. }
    assert (geq (sh_Public (NewSecretShare self (fadd (peval (p0 rg thr) (idF self)) (Fsum (map sh others)))))
      (gadd (gadd (gbmul (spoly f (qof self))) (Gsum (map (fun j => gpoly (Cs j) (qof self)) (List.filter fits others))))
        (Gsum (map (fun j => gpoly (Cs j) (qof self)) (List.filter (fun j => negb (fits j)) others))))) as HS.
    { cbn [NewSecretShare sh_Public]. rewrite <- gadd_assoc, <- (proj1 (Gsum_split (fun j => gpoly (Cs j) (qof self)) fits others)), <- gb_add.
      apply gadd_proper; [now rewrite p0_dealt, peval_spoly|]. rewrite <- Gsum_gbmul. apply Gsum_map_ext. intros j Hj. destruct (HG j Hj) as [Hfit _].
      rewrite <- gpeval_gpoly. exact Hfit. }
    split; [now rewrite P5|]. split; [exact HA|]. split; [exact HS|].
    intros A HA0. destruct (HA self kself_in') as (A' & A1 & A2). rewrite HA0 in A1. inversion A1; subst A'. rewrite HS, A2. split.
    - intros X. eapply gadd_cancel_l. rewrite X. symmetry. apply gadd_id_r.
    - intros X. rewrite X. apply gadd_id_r.
  Qed.

  (** * C08/C09: whom a run blames *)
  Theorem C08_blame : forall err, st_err s = Some err ->
    (pe_PartyID err = 0 /\ pe_text err = "message timeout"%string) \/
    (In (pe_PartyID err) ids /\ pe_PartyID err <> self /\
     ((pe_text err = "ZK Schnorr failed"%string /\
       exists m pr A tl, given es m /\ m_From m = pe_PartyID err /\ m_Type m = MTKeyGen1 /\ m_KeyGen1 m = Some (mkKeyGen1 pr (A :: tl)) /\
         zk_Verify pr (pe_PartyID err) A ctx0 = Ret false) \/
      (pe_text err = "VSS failed to validate"%string /\
       exists C z, committed es (pe_PartyID err) C /\ share_sent es self (pe_PartyID err) z /\ ~ on_commitment self C z))).
  Proof.
    intros err Er. destruct kthe_run as (r0 & E1 & HL).
    assert (st_done s = true) as D. { destruct (st_done s) eqn:D; auto. rewrite (inv_err _ s (li_inv _ _ _ _ _ _ _ HL) D) in Er. discriminate. }
    pose proof (li_F _ _ _ _ _ _ _ HL D) as [_ H]. rewrite Er in H. destruct H as [_ [H|[H|H]]]; auto; right.
    - destruct H as (Ht & Hin & H). apply others_of_In in Hin as [H1 H2]. auto.
    - destruct H as (Ht & Hin & Cs & m & z & HV & M1 & M2 & M3 & M4 & M5 & M6). pose proof Hin as Hin'. apply others_of_In in Hin as [H1 H2]. split; auto. split; auto.
      right. split; auto. exists (Cs (pe_PartyID err)), z. destruct (HV _ Hin') as (m' & pr & A & tl & N1 & N2 & N3 & N4 & _).
      split; [exists m', pr; auto|]. split; [exists m; auto 10|]. unfold on_commitment. rewrite <- gpeval_gpoly. exact M6.
  Qed.
End Keygen1.

(** * C09 for keygen: whatever the others do, a party whose messages come from an honest State is not blamed *)
Section KBlame.
  Context `{L : group_laws} `{Hf : hash_fn}.
  Lemma zk_Verify_proper pr i A A' ctx : geq A A' -> zk_Verify pr i A ctx = zk_Verify pr i A' ctx.
  Proof.
    intros H. unfold zk_Verify, zk_challenge, zk_input. destruct (Nat.ltb _ _); [reflexivity|]. cbn [obind].
    assert (geq (gdsmul (pr_S pr) (gneg A) (pr_R pr)) (gdsmul (pr_S pr) (gneg A') (pr_R pr))) as HM by (unfold gdsmul; now rewrite H).
    apply genc_eq in H, HM. now rewrite H, HM.
  Qed.
  Context (ids idsj : list Z) (V : valid_ids ids) (Vj : valid_ids idsj).
  Context (rg rgj : rng) (now nowj t tj self j thr thrj : Z) (HT : is_u16 thr) (HTj : is_u16 thrj) (s0 s0j : State kround).
  Context (NEW : NewKeygenState rg now t self ids thr = Ret s0) (NEWj : NewKeygenState rgj nowj tj j idsj thrj = Ret s0j).
  Context (es esj : list event) (s sj : State kround) (out outj : list Message).
  Context (RUN : run keygen_round s0 es = Ret (s, out)) (RUNj : run keygen_round s0j esj = Ret (sj, outj)).
  (** What we were given in j's name was sent by j (it may have been marshalled on the way). *)
  Context (AUTH : forall m, given es m -> m_From m = j -> exists m0, In m0 outj /\ same_msg m0 m).

  Theorem C09_keygen_blame : forall err, st_err s = Some err -> pe_PartyID err <> j.
  Proof.
    intros err Er Hj.
    assert (In j idsj) as Hin by (eapply kself_in'; eauto).
    assert (j <> 0) as Hj0 by (pose proof (valid_in idsj j Vj Hin); lia).
    assert (In self ids) as Hself by (eapply kself_in'; eauto).
    assert (self <> 0) as Hs0 by (pose proof (valid_in ids self V Hself); lia).
    set (f := dealt rgj (Z.to_nat thrj)).
    assert (exists pr, zk_Verify pr j (gbmul (spoly f f0)) ctx0 = Ret true /\
      forall m, given es m -> m_From m = j -> exists m0, same_msg m0 m /\ (m0 = NewKeyGen1 j pr (commitment f) \/ exists i, In i idsj /\ m0 = NewKeyGen2 j i (spoly f (qof i)))) as (pr & Hpr & Hm).
    { destruct (C08_sent rgj nowj tj j idsj thrj s0j NEWj Vj HTj esj sj outj RUNj) as [O|(pr & Hv & O)].
      - exists (mkSchnorr f0 f0). destruct (C08_blame rg now t self ids thr s0 NEW V HT es s out RUN err Er) as [[X _]|(_ & _ & [(_ & m & pr & A & tl & M1 & M2 & _)|(_ & C & z & (m & pr & M1 & M2 & _) & _)])].
        + congruence.
        + exfalso. destruct (AUTH m M1 ltac:(congruence)) as (m0 & X & _). rewrite O in X. destruct X.
        + exfalso. destruct (AUTH m M1 ltac:(congruence)) as (m0 & X & _). rewrite O in X. destruct X.
      - exists pr. split; auto. intros m Hg Hf'. destruct (AUTH m Hg Hf') as (m0 & X & HS). exists m0. split; auto. destruct O as [O|O]; rewrite O in X.
        + destruct X as [<-|[]]. auto.
        + destruct X as [<-|X]; auto. right. apply in_map_iff in X as (i & <- & Hi). apply others_of_In in Hi as [Hi _]. eauto. }
    assert (forall m pr' C, given es m -> m_From m = j -> m_Type m = MTKeyGen1 -> m_KeyGen1 m = Some (mkKeyGen1 pr' C) -> pr' = pr /\ Forall2 geq C (commitment f)) as K1.
    { intros m pr' C G1 G2 G3 G4. destruct (Hm m G1 G2) as (m0 & HS & [->|(i & _ & ->)]); [|rewrite (same_type _ _ HS) in G3; discriminate].
      destruct (same_k1 _ _ _ HS eq_refl eq_refl) as (b & X1 & X2 & X3). rewrite G4 in X1. inversion X1; subst b. auto. }
    destruct (C08_blame rg now t self ids thr s0 NEW V HT es s out RUN err Er) as [[X _]|(_ & _ & [(_ & m & pr' & A & tl & M1 & M2 & M3 & M4 & M5)|(_ & C & z & (m & pr' & M1 & M2 & M3 & M4) & (m' & N1 & N2 & N3 & N4 & N5) & HX)])].
    - congruence.
    - rewrite Hj in *. destruct (K1 m pr' (A :: tl) M1 M2 M3 M4) as (-> & HC).
      assert (geq A (gbmul (spoly f f0))) as HA. { rewrite <- peval_spoly, peval_0. unfold f, dealt in *. cbn in *. now inversion HC. }
      rewrite (zk_Verify_proper pr j _ _ ctx0 HA) in M5. congruence.
    - rewrite Hj in *. destruct (K1 m pr' C M1 M2 M3 M4) as (-> & HC). apply HX. unfold on_commitment. rewrite <- gpeval_gpoly, HC, gpeval_gpoly.
      destruct (Hm m' N1 N2) as (m0 & HS & [->|(i & Hi & ->)]); [rewrite (same_type _ _ HS) in N4; discriminate|].
      rewrite (same_to _ _ HS) in N3. rewrite (same_k2 _ _ _ HS eq_refl eq_refl) in N5. assert (z = spoly f (qof i)) as -> by congruence.
      cbn [NewKeyGen2 m_To m_Header h_To] in N3. pose proof (valid_in idsj i Vj Hi). destruct N3 as [N3|N3]; [lia|]. subst i. apply C08_honest_share.
  Qed.
End KBlame.

(** * C19 and C35 for keygen *)
Section KRun.
  Context `{L : group_laws} `{Hf : hash_fn}.
  Definition kg_message_ok (m : Message) : Prop :=
    has_body m /\ (forall b, m_KeyGen1 m = Some b -> k1_Commitments b <> []).
  (** Messages whose body was decoded and whose commitment is not empty never crash a keygen State, provided no timer fires before
      the first ProcessAll.  (Missing: messages without body, the empty commitment and early timeouts, which do crash it:
      C19_refuted, C19_empty_commitment_refuted, C17_keygen_refuted.) *)
  Theorem C19_keygen_partial : forall rg now t self ids thr s0 es, valid_ids ids -> is_u16 thr ->
    NewKeygenState rg now t self ids thr = Ret s0 -> (forall m, given es m -> kg_message_ok m) ->
    (Forall (fun e => e <> ECallback) es \/ (exists sched sched' es', es = EProcess sched sched' :: es')) ->
    exists s out, run keygen_round s0 es = Ret (s, out).
  Proof.
    intros rg now t self ids thr s0 es V HT NEW HB HE. destruct (NewKeygenState_round _ _ _ _ _ _ _ NEW) as (r0 & E1 & ->).
    assert (forall m, given es m -> m_Type m = MTKeyGen1 -> exists b, m_KeyGen1 m = Some b /\ k1_Commitments b <> []) as B1.
    { intros m Hm Ht. destruct (HB m Hm) as [H1 H2]. unfold m_Type, MTKeyGen1 in Ht. unfold has_body in H1.
      destruct (m_KeyGen1 m) as [b|]; [|intuition congruence]. exists b. auto. }
    assert (forall m, given es m -> m_Type m = MTKeyGen2 -> exists b, m_KeyGen2 m = Some b) as B2.
    { intros m Hm Ht. destruct (HB m Hm) as [H1 H2]. unfold m_Type, MTKeyGen2 in Ht. unfold has_body in H1.
      destruct (m_KeyGen2 m) as [b|]; [eauto|intuition congruence]. }
    destruct HE as [HE|(sched & sched' & es' & ->)].
    - destruct (keygen_nopanic_nocb (given es) rg self ids thr r0 E1 V HT B1 B2 now t es) as (s & out & E & _); eauto. apply given_events.
    - destruct (keygen_nopanic_started (given (EProcess sched sched' :: es')) rg self ids thr r0 E1 V HT B1 B2 now t es' sched sched') as (s & out & E & _); eauto.
      pose proof (given_events (EProcess sched sched' :: es')) as X. now inversion X.
  Qed.
  (** In particular the State of valid parameters runs. *)
  Theorem C35_runs_partial : forall rg now t self ids thr s0 sched sched' es, valid_ids ids -> is_u16 thr ->
    NewKeygenState rg now t self ids thr = Ret s0 -> (forall m, given es m -> kg_message_ok m) ->
    exists s out, run keygen_round s0 (EProcess sched sched' :: es) = Ret (s, out).
  Proof.
    intros. eapply C19_keygen_partial; eauto.
    intros m (nw & [Hm|Hm]); [discriminate|]. apply H2. now exists nw.
  Qed.
End KRun.
Section KParams.
  Context `{Gr : group_ops} `{Hf : hash_fn}.
  (** For the party lists a user should give (sorted, as party.IDSlice requires, with valid IDs), NewKeygenState accepts exactly the
      parameters it should. *)
  Theorem C35_accepts_iff : forall rg now t self ids thr, sorted ids -> valid_ids ids -> is_u16 thr ->
    (exists s0, NewKeygenState rg now t self ids thr = Ret s0) <-> (In self ids /\ 1 <= thr <= Z.of_nat (List.length ids) - 1).
  Proof.
    intros rg now t self ids thr S V HT. pose proof (ids_len_lt ids V) as HL. unfold is_u16 in HT.
    unfold NewKeygenState, kg_NewRound, NewBaseRound. split.
    - intros [s0 E]. destruct (Z.eqb_spec thr 0); [discriminate|]. destruct (Z.ltb_spec (u16 (N_ids ids - 1)) thr) as [|Hle]; [discriminate|].
      destruct (Contains ids self) eqn:EC; [|discriminate]. apply Contains_true_In in EC. split; auto.
      assert (1 <= List.length ids)%nat. { destruct ids; [contradiction|cbn; lia]. }
      unfold N_ids, u16 in Hle. rewrite (Z.mod_small (Z.of_nat _)) in Hle by lia. rewrite Z.mod_small in Hle by lia. lia.
    - intros [Hi Ht]. destruct (Z.eqb_spec thr 0); [lia|].
      unfold N_ids, u16. rewrite (Z.mod_small (Z.of_nat _)) by lia. rewrite Z.mod_small by lia.
      destruct (Z.ltb_spec (Z.of_nat (List.length ids) - 1) thr); [lia|]. rewrite (proj2 (Contains_In ids self S) Hi). cbn. eauto.
  Qed.
End KParams.

(** * Refutations *)
(** C06: party 2 commits to a polynomial of degree 2 although the threshold is 1.  round1.go drops the error of CommitmentsSum.Add, so
    the commitment does not enter the public data, while the share is accepted and enters the secret. *)
Definition bad_kg1 : tmsg := @NewKeyGen1 toy_group 2 (mkSchnorr f0 f0) [qof 5; qof 6; qof 7].
Definition bad_kg2 : tmsg := @NewKeyGen2 toy_group 2 1 (qof 18).
Definition bad_history : list (@event toy_group) :=
  prc :: hnd (bad_kg1 :: kg1_of 3) ++ prc :: hnd (bad_kg2 :: to_ 1 (kg2_of 3)) ++ [prc].
Theorem C06_refuted : exists (s : tkstate) out pub sk A, tk_run (tk_new k3 1 1 0) bad_history = Ret (s, out) /\
  st_done s = true /\ st_err s = None /\ kg_output s = mkKOutput (Some pub) (Some sk) /\
  pub_Shares pub !! 1 = Some A /\ @geqb toy_group (sh_Public sk) A = false.
Proof.
  set (r := tk_run (tk_new k3 1 1 0) bad_history).
  assert (match r with Ret (s, _) => st_done s && match st_err s with None => true | _ => false end &&
     match kg_output s with mkKOutput (Some p) (Some k) => match pub_Shares p !! 1 with Some A => negb (@geqb toy_group (sh_Public k) A) | None => false end | _ => false end
     | _ => false end = true) as E by (vm_compute; reflexivity).
  destruct r as [[s out]| |]; try discriminate. destruct (st_done s) eqn:D; [|discriminate]. destruct (st_err s) eqn:Er; [discriminate|].
  destruct (kg_output s) as [[p|] [k|]] eqn:Eo; try discriminate. destruct (pub_Shares p !! 1) as [A|] eqn:EA; [|discriminate].
  exists s, out, p, k, A. cbn in E. apply negb_true_iff in E. auto 10.
Qed.

(** C19: 71 bytes from the network that crash a keygen State: a KeyGen1 message of party 2 whose polynomial has the degree field 0xFFFF,
    which decodes to a commitment without coefficients. *)
Definition crash_bytes : list byte := [x01; x00; x02; x00; x00] ++ repeat x00 64 ++ [xff; xff].
Definition panics {A} (x : outcome A) : bool := match x with Panics _ => true | _ => false end.
Theorem C19_empty_commitment_refuted :
  match @msg_UnmarshalBinary toy_group (@zero_message toy_group) crash_bytes with
  | Ret m => panics (tk_run (tk_new [1; 2] 1 1 0) (prc :: hnd [m] ++ [prc]))
  | _ => false end = true.
Proof. vm_compute. reflexivity. Qed.

(** C35: NewKeygenState accepts the party ID 0 and repeated IDs.  With the first, ProcessAll crashes; with the second, ProcessAll never
    starts the protocol. *)
Section Stuck.
  Context `{Gr : group_ops} `{Hf : hash_fn}.
  (** A repeated ID is accepted by NewKeygenState, and the State then waits for ever: no ProcessAll does anything, whatever is received. *)
  Theorem C35_duplicates_refuted : forall rg now t self ids thr s0 es s out, ~ List.NoDup ids -> In self ids -> Z.of_nat (List.length ids) < 65536 ->
    NewKeygenState rg now t self ids thr = Ret s0 -> run keygen_round s0 es = Ret (s, out) ->
    out = [] /\ kg_output s = mkKOutput None None /\ (st_done s = false -> st_roundNumber s = 0) /\
    (st_done s = true -> exists err, st_err s = Some err /\ pe_text err = "message timeout"%string).
  Proof.
    intros rg now t self ids thr s0 es s out HD Hin Hlt E ER. apply NewKeygenState_round in E as (r0 & E0 & ->).
    assert (r_self keygen_round r0 = self /\ r_ids keygen_round r0 = ids /\ kr_out r0 = mkKOutput None None) as (Es & Ei & Eo).
    { revert E0. unfold kg_NewRound, NewBaseRound. destruct (_ =? _); [discriminate|]. destruct (_ <? _); [discriminate|]. destruct (Contains _ _); [|discriminate].
      cbn. intros E. apply Ret_inj in E. subst r0. auto. }
    assert (linv keygen_round (fun _ => True) r0 (fun n r o => n = 0%nat /\ o = [] /\ kr_out r = mkKOutput None None)
      (fun r e o => o = [] /\ kr_out r = mkKOutput None None /\ exists err, e = Some err /\ pe_RoundNumber err = 0 /\ pe_text err = "message timeout"%string) s out) as HL.
    { eapply linv_run; [exact keygen_round_ok|auto| | |apply List.Forall_forall; intros [] _; exact Logic.I|exact ER].
      - intros n r o rcv ks sched _ _ _ [Hk _ _] HF _. exfalso. apply HD. unfold full in HF. rewrite Ei in HF.
        assert (incl (self :: map_keys [] rcv) ids) as Hincl.
        { intros i [<-|Hi]; auto. apply map_keys_In in Hi as [v Hv]. apply Hk in Hv. rewrite Es, Ei in Hv. now apply others_of_In in Hv. }
        assert (List.NoDup (self :: map_keys [] rcv)) as HN.
        { constructor; [|apply map_keys_NoDup]. intros Hi. apply map_keys_In in Hi as [v Hv]. apply Hk in Hv. rewrite Es, Ei in Hv. apply others_of_In in Hv as [_ Hv]. congruence. }
        eapply NoDup_incl_NoDup; [exact HN| |exact Hincl]. cbn [List.length]. rewrite map_keys_length.
        assert (1 <= List.length ids)%nat. { destruct ids; [contradiction|cbn; lia]. }
        unfold N_ids, u16 in HF. rewrite (Z.mod_small (Z.of_nat _)) in HF by lia. rewrite Z.mod_small in HF by lia. lia.
      - intros n r o r3 (-> & -> & Ho) _ _ E3. split; auto. split; [|eexists; split; [reflexivity|]; cbn; auto].
        cbn in E3. unfold kg_Reset in E3. destruct (kr_Polynomial r), (kr_CommitmentsSum r); try discriminate. apply Ret_inj in E3. now subst. }
    destruct (st_done s) eqn:D.
    - destruct (li_F _ _ _ _ _ _ _ HL D) as (-> & Ho & err & Er & Hn & Ht). split; auto. split; [exact Ho|]. split; [discriminate|eauto].
    - destruct (li_P _ _ _ _ _ _ _ HL D) as (n & En & _ & -> & -> & Ho). split; auto. split; [exact Ho|]. split; [lia|discriminate].
  Qed.

  (** The verdict of NewKeygenState on every sorted list, whether its IDs are valid or not: it never crashes, and looks only at the threshold,
      modulo 2^16, and at self. *)
  Theorem C35_exact : forall rg now t self ids thr, sorted ids -> is_u16 thr ->
    ((exists s0, NewKeygenState rg now t self ids thr = Ret s0) <-> (In self ids /\ 1 <= thr <= (Z.of_nat (List.length ids) - 1) mod 65536)) /\
    ((exists s0, NewKeygenState rg now t self ids thr = Ret s0) \/ (exists w, NewKeygenState rg now t self ids thr = Fail w)).
  Proof.
    intros rg now t self ids thr HS HT. unfold is_u16 in HT. unfold NewKeygenState, kg_NewRound, NewBaseRound.
    assert (u16 (N_ids ids - 1) = (Z.of_nat (List.length ids) - 1) mod 65536) as ->.
    { unfold N_ids, u16. rewrite Zminus_mod_idemp_l. reflexivity. }
    pose proof (Contains_In ids self HS) as HC.
    destruct (Z.eqb_spec thr 0); [split; [split; [intros [s0 E]; discriminate|lia]|cbn; eauto]|].
    destruct (Z.ltb_spec ((Z.of_nat (List.length ids) - 1) mod 65536) thr); [split; [split; [intros [s0 E]; discriminate|lia]|cbn; eauto]|].
    destruct (Contains ids self); cbn.
    - split; [split; [intros _; split; [now apply HC|lia]|eauto]|eauto].
    - split; [split; [intros [s0 E]; discriminate|intros [X _]; apply HC in X; discriminate]|eauto].
  Qed.

  Lemma poly_zero p : poly_eval p (idF 0) = Panics "attempt to leak secret".
  Proof. unfold poly_eval. replace (feqb (idF 0) f0) with true; auto. Qed.
  Lemma kg1_loop_fields rcv ks : forall r r', kr_no r = 1%nat ->
    (exists u, process_loop keygen_round r rcv ks = ROk r' u) \/ (exists c t, process_loop keygen_round r rcv ks = RErr r' c t) ->
    kr_no r' = 1%nat /\ kr_self r' = kr_self r /\ kr_ids r' = kr_ids r /\ kr_out r' = kr_out r.
  Proof.
    assert (forall k m k', kr_no k = 1%nat -> (exists u, r_process keygen_round k m = ROk k' u) \/ (exists c t, r_process keygen_round k m = RErr k' c t) ->
      kr_no k' = 1%nat /\ kr_self k' = kr_self k /\ kr_ids k' = kr_ids k /\ kr_out k' = kr_out k) as X.
    { intros k m k' E. cbn [r_process keygen_round]. rewrite E. unfold kg1_process, lift_r.
      destruct m as [m|]; [|intros [[u H]|(c & t & H)]; discriminate]. destruct (m_KeyGen1 m); [|intros [[u H]|(c & t & H)]; discriminate].
      destruct (exp_constant _); try (intros [[u H]|(c & t & H)]; discriminate).
      destruct (zk_Verify _ _ _ _) as [ok| |]; try (intros [[u H]|(c & t & H)]; discriminate).
      destruct ok; cbn [negb]; [|intros [[u H]|(c & t & H)]; [discriminate|inversion H; subst; auto] ].
      destruct (kr_CommitmentsSum k); [|intros [[u H]|(c & t & H)]; discriminate].
      intros [[u H]|(c & t & H)]; [inversion H; subst; auto|discriminate]. }
    induction ks as [|i ks IH]; intros r r' E; cbn [process_loop].
    - intros [[u H]|(c & t & H)]; [inversion H; subst; auto|discriminate].
    - specialize (X r (default None (rcv !! i))). destruct (r_process keygen_round r (default None (rcv !! i))) as [r1 u1|r1 c1 t1|].
      + destruct (X r1 E) as (A & B & C & D); eauto. intros H. destruct (IH r1 r' A H) as (A' & B' & C' & D'). repeat split; congruence.
      + intros [[u H]|(c & t & H)]; [discriminate|]. injection H as <- <- <-. apply X; eauto.
      + intros [[u H]|(c & t & H)]; discriminate.
  Qed.

  (** The ID 0 is accepted by NewKeygenState, and no party of such a list ever sends a share or gets a key: a call that would have to
      compute the share of 0 crashes instead. *)
  Theorem C35_zero_refuted : forall rg now t self ids thr s0 es s out, In 0 ids ->
    NewKeygenState rg now t self ids thr = Ret s0 -> run keygen_round s0 es = Ret (s, out) ->
    (forall m, In m out -> m_Type m = MTKeyGen1) /\ kg_output s = mkKOutput None None /\ (st_done s = true -> st_err s <> None).
  Proof.
    intros rg now t self ids thr s0 es s out H0 E ER. apply NewKeygenState_round in E as (r0 & E0 & ->).
    assert (r_ids keygen_round r0 = ids /\ kr_out r0 = mkKOutput None None /\ kr_no r0 = 0%nat) as (Ei & Eo & En).
    { revert E0. unfold kg_NewRound, NewBaseRound. destruct (_ =? _); [discriminate|]. destruct (_ <? _); [discriminate|]. destruct (Contains _ _); [|discriminate].
      cbn. intros E. apply Ret_inj in E. subst r0. auto. }
    assert (forall k k', kg_Reset k = Ret k' -> kr_out k' = kr_out k) as HR.
    { intros k k'. unfold kg_Reset. destruct (kr_Polynomial k), (kr_CommitmentsSum k); try discriminate. intros X. apply Ret_inj in X. now subst. }
    assert (linv keygen_round (fun _ => True) r0
      (fun n r o => (n < 2)%nat /\ kr_no r = n /\ (n = 1%nat -> kr_self r <> 0) /\ (forall m, In m o -> m_Type m = MTKeyGen1) /\ kr_out r = mkKOutput None None)
      (fun r e o => (forall m, In m o -> m_Type m = MTKeyGen1) /\ kr_out r = mkKOutput None None /\ e <> None) s out) as HL.
    { eapply linv_run; [exact keygen_round_ok| | | |apply List.Forall_forall; intros [] _; exact Logic.I|exact ER].
      - split; [lia|]. split; auto. split; [discriminate|]. split; [intros m []|exact Eo].
      - intros n r o rcv ks sched (Hn & Hno & Hse & Ho & Hout) _ Hi _ _ _. destruct n as [|[|n] ]; [| |lia].
        + rewrite kg0_loop by auto. unfold step_post. cbn [r_generate keygen_round]. rewrite Hno. unfold kg0_generate, lift_r. cbv zeta.
          destruct (NewPolynomial _ _ _ _) as [poly| |]; try exact Logic.I. destruct (exp_constant _) as [pub| |]; try exact Logic.I.
          destruct (NewSchnorrProof _ _ _ _ _) as [pf| |]; try exact Logic.I. destruct (id_scalar (kr_self r)) as [x| |] eqn:EX; try exact Logic.I.
          destruct (poly_eval poly x) as [sh| |] eqn:ESH; try exact Logic.I. cbn. rewrite Hno. cbn.
          split; [lia|]. split; auto. split; [|split; auto].
          * intros _ EZ. rewrite EZ, id_scalar_ok in EX by (unfold is_u16; lia). injection EX as <-. rewrite poly_zero in ESH. discriminate.
          * intros m Hm. apply in_app_or in Hm as [Hm|[<-|[] ] ]; auto.
        + unfold step_post. pose proof (kg1_loop_fields rcv ks r) as HLF. destruct (process_loop keygen_round r rcv ks) as [r1 u1|r1 c1 t1|]; [| |exact Logic.I].
          * destruct (HLF r1 Hno) as (A & B & C & D); [eauto|]. cbn [r_generate keygen_round]. rewrite A. unfold kg1_generate.
            destruct (kr_Polynomial r1) as [poly|]; [|exact Logic.I]. rewrite B, C.
            change (kr_ids r) with (r_ids keygen_round r). rewrite Hi, Ei. rewrite <- Ei, Ei.
            assert (forall l acc, In 0 l -> exists w, lift_r (ofold (fun acc id => if id =? kr_self r then Ret acc else
                let* x := id_scalar id in let* share := poly_eval poly x in Ret (acc ++ [NewKeyGen2 (kr_self r) id share])) acc l) (fun msgs =>
                ROk (mkKround (kr_no r1) (kr_self r) ids (kr_Threshold r1) (kr_Secret r1) (Some (poly_reset poly))
                       (kr_CommitmentsSum r1) (kr_Commitments r1) (kr_outp r1) (kr_out r1) (kr_rng r1)) msgs) = RPanic w) as HP.
            { induction l as [|i l IH]; intros acc; [intros []|]. intros Hin. cbn [ofold]. destruct (Z.eq_dec i 0) as [->|Hi0].
              - rewrite (proj2 (Z.eqb_neq 0 (kr_self r))) by (intros X; now apply Hse). rewrite id_scalar_ok by (unfold is_u16; lia). cbn [obind]. rewrite poly_zero. cbn. eauto.
              - destruct Hin as [Hin|Hin]; [congruence|]. destruct (i =? kr_self r); [apply IH; auto|].
                destruct (id_scalar i) as [x| |]; cbn [obind]; try (cbn; eauto; fail). destruct (poly_eval poly x); cbn [obind]; try (cbn; eauto; fail). }
            destruct (HP ids [] H0) as [w ->]. exact Logic.I.
          * destruct (HLF r1 Hno) as (A & B & C & D); [eauto|]. intros r3 E3. split; auto. split; [rewrite (HR _ _ E3); congruence|discriminate].
      - intros n r o r3 (Hn & Hno & Hse & Ho & Hout) _ _ E3. split; auto. split; [rewrite (HR _ _ E3); auto|discriminate]. }
    split; [|split].
    - destruct (st_done s) eqn:D; [apply (li_F _ _ _ _ _ _ _ HL D)|]. destruct (li_P _ _ _ _ _ _ _ HL D) as (n & _ & _ & X). tauto.
    - destruct (st_done s) eqn:D; [apply (li_F _ _ _ _ _ _ _ HL D)|]. destruct (li_P _ _ _ _ _ _ _ HL D) as (n & _ & _ & X). tauto.
    - intros D. apply (li_F _ _ _ _ _ _ _ HL D).
  Qed.
End Stuck.

Theorem C35_zero_id_refuted : exists s0 s1, tk_new [0; 1] 1 0 0 = Ret s0 /\ tk_new [0; 1] 1 1 0 = Ret s1 /\
  panics (@run toy_group tkround tkg s0 [prc]) = true /\
  panics (@run toy_group tkround tkg s1 (prc :: hnd [@NewKeyGen1 toy_group 0 (mkSchnorr f0 f0) [qof 5; qof 6]] ++ [prc])) = true.
Proof. eexists _, _. split; [reflexivity|]. split; [reflexivity|]. split; vm_compute; reflexivity. Qed.

(** * Concrete cases meeting the hypotheses of the theorems above *)
(** Party 1 next to a party 0 sends its commitment and gets no further; sorted lists with a repetition, with 0, too short. *)
Example C35_exact_example : match tk_run (tk_new [0; 1] 1 1 0) [prc; prc] with Ret (s, out) => (st_done s, st_roundNumber s, map m_Type out) | _ => (true, 0, []) end = (false, 1, [MTKeyGen1]) /\
  In 0 [0; 1] /\ sorted [0; 1; 1] /\ sorted [1] /\ is_u16 1 /\
  match tk_new [0; 1; 1] 1 1 0 with Ret _ => true | _ => false end = true /\ match tk_new [1] 1 1 0 with Fail _ => true | _ => false end = true.
Proof.
  split; [vm_compute; reflexivity|]. split; [left; auto|]. split; [repeat constructor; lia|]. split; [repeat constructor; lia|].
  split; [unfold is_u16; lia|]. split; vm_compute; reflexivity.
Qed.
(** Party 1 of three, with an honest party 3 and a party 2 that sends a commitment of its own choice and a matching share: finishes. *)
Definition ok_history : list (@event toy_group) :=
  prc :: hnd (@NewKeyGen1 toy_group 2 (mkSchnorr f0 f0) [qof 5; qof 6] :: kg1_of 3) ++ prc :: hnd (@NewKeyGen2 toy_group 2 1 (qof 11) :: to_ 1 (kg2_of 3)) ++ [prc].
Example C06_example : valid_ids k3 /\ is_u16 1 /\ (exists s0, tk_new k3 1 1 0 = Ret s0) /\
  match tk_run (tk_new k3 1 1 0) ok_history with Ret (s, out) =>
    st_done s && match st_err s with None => true | _ => false end && Nat.eqb (List.length out) 3 | _ => false end = true.
Proof.
  split; [split; repeat constructor; cbn; lia|]. split; [unfold is_u16; lia|]. split; [eexists; reflexivity|]. vm_compute. reflexivity.
Qed.
(** A wrong share is blamed on its sender, a wrong proof too (S must be 0 as the challenge is). *)
Definition err_of (r : outcome (tkstate * list tmsg)) : option (Z * Z * string) :=
  match r with Ret (s, _) => option_map (fun e => (pe_PartyID e, pe_RoundNumber e, pe_text e)) (st_err s) | _ => None end.
Example C08_example :
  err_of (tk_run (tk_new k3 1 1 0) (prc :: hnd (@NewKeyGen1 toy_group 2 (mkSchnorr f0 f0) [qof 5; qof 6] :: kg1_of 3) ++ prc :: hnd (@NewKeyGen2 toy_group 2 1 (qof 12) :: to_ 1 (kg2_of 3)) ++ [prc]))
    = Some (2, 2, "VSS failed to validate"%string) /\
  err_of (tk_run (tk_new k3 1 1 0) (prc :: hnd (@NewKeyGen1 toy_group 2 (mkSchnorr f1 f0) [qof 5; qof 6] :: kg1_of 3) ++ [prc])) = Some (2, 1, "ZK Schnorr failed"%string).
Proof. split; vm_compute; reflexivity. Qed.
(** C09: in the second run the messages of party 3 come from its State, and party 2 is the one blamed. *)
Example C09_keygen_example : match tk_run (tk_new k3 1 3 0) (prc :: hnd (concat (map kg1_of k3)) ++ [prc]) with
  | Ret (_, l) => Nat.eqb (List.length l) 3 | _ => false end = true.
Proof. vm_compute. reflexivity. Qed.
Example C07_example : exists pr, @NewSchnorrProof toy_group toy_hash (qof 9) 1 (@gbmul toy_group (qof 4)) ctx0 (qof 4) = Ret pr /\
  @zk_Verify toy_group toy_hash pr 1 (@gbmul toy_group (qof 4)) ctx0 = Ret true.
Proof. eexists. split; [reflexivity|]. vm_compute. reflexivity. Qed.
Example C19_keygen_example : forall m, In m [@NewKeyGen1 toy_group 2 (mkSchnorr f0 f0) [qof 5; qof 6]; @NewKeyGen2 toy_group 2 1 (qof 12)] -> kg_message_ok m.
Proof.
  intros m [<-|[<-|[]]]; split.
  - left. split; [reflexivity|discriminate].
  - intros b E. inversion E. discriminate.
  - right. left. split; [reflexivity|discriminate].
  - intros b E. discriminate.
Qed.
Example C35_example : (exists s0, tk_new k3 2 1 0 = Ret s0) /\ (forall s0, tk_new k3 3 1 0 <> Ret s0) /\ (forall s0, tk_new k3 0 1 0 <> Ret s0) /\ (forall s0, tk_new k3 1 4 0 <> Ret s0).
Proof. split; [eexists; reflexivity|]. repeat split; intros s0; discriminate. Qed.
Example C35_duplicates_example : ~ List.NoDup [1; 1; 2] /\ exists s0, tk_new [1; 1; 2] 1 1 0 = Ret s0.
Proof. split; [intros H; inversion H; subst; cbn in *; tauto|eexists; reflexivity]. Qed.

Print Assumptions C07_complete.
Print Assumptions C07_accepts_everything.
Print Assumptions C08_check.
Print Assumptions C18_keygen.
Print Assumptions C08_sent.
Print Assumptions C07_sent.
Print Assumptions C07_checked.
Print Assumptions C06_no_output_otherwise.
Print Assumptions C06_public.
Print Assumptions C08_secret.
Print Assumptions C06_secret_partial.
Print Assumptions C06_exact.
Print Assumptions C06_refuted.
Print Assumptions C08_blame.
Print Assumptions C09_keygen_blame.
Print Assumptions C19_keygen_partial.
Print Assumptions C19_empty_commitment_refuted.
Print Assumptions C35_runs_partial.
Print Assumptions C35_accepts_iff.
Print Assumptions C35_duplicates_refuted.
Print Assumptions C35_zero_id_refuted.
Print Assumptions C35_exact.
Print Assumptions C35_zero_refuted.
