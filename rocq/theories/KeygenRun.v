(** The keygen run of one party, against arbitrary peers. *)
From Coq Require Import ZArith Lia List Bool String Permutation Ring Setoid Morphisms.
From Coq.Strings Require Import Byte.
From stdpp Require Import base gmap list fin_maps.
From Verif Require Import ZField Primes Bytes Scalar Go Group Party Poly PolyFacts Zk Eddsa Messages State StateFacts Keygen Sign RoundFacts Lift Spec_Poly PolyAlg Spec_Group SignFacts KeygenFacts Spec_State Properties_State.
Import ListNotations.
Local Open Scope Z_scope.

Section KeygenRun.
  Context `{L : group_laws} `{Hf : hash_fn}.
  Local Opaque SetScalarRandom.

  Section Party.
    Context (W : Message -> Prop).
    Context (rg : rng) (self : Z) (ids : list Z) (thr : Z) (r0 : kround).
    Context (NEW : kg_NewRound rg self ids thr = Ret r0) (V : valid_ids ids) (HT : is_u16 thr).
    Notation others := (others_of self ids).

    (** The polynomial, its commitment, the messages sent. *)
    Definition p0 : Polynomial := SetScalarRandom rg 0 :: map (fun i => SetScalarRandom rg (1 + i)) (seq 0 (Z.to_nat thr)).
    Definition C0 : Exponent := NewPolynomialExponent p0.
    Definition own_proof : Schnorr :=
      match NewSchnorrProof (SetScalarRandom rg (S (Z.to_nat thr))) self (gbmul (SetScalarRandom rg 0)) ctx0 (SetScalarRandom rg 0) with
      | Ret p => p | _ => mkSchnorr f0 f0 end.
    Definition own_KG1 : Message := NewKeyGen1 self own_proof C0.
    Definition own_KG2s : list Message := map (fun i => NewKeyGen2 self i (peval p0 (idF i))) others.

    Definition kview (Cs : Z -> Exponent) : Prop := forall j, In j others -> exists m pr A tl,
      W m /\ m_From m = j /\ m_Type m = MTKeyGen1 /\ m_KeyGen1 m = Some (mkKeyGen1 pr (Cs j)) /\ Cs j = A :: tl /\ zk_Verify pr j A ctx0 = Ret true.
    (** The commitments that are added up: those of the expected length. *)
    Definition total (Cs : Z -> Exponent) (x : Fq) : G :=
      gadd (gpeval C0 x) (Gsum (map (fun j => if Nat.eqb (List.length (Cs j)) (List.length C0) then gpeval (Cs j) x else gid) others)).
    Definition sum_ok (Cs : Z -> Exponent) (c : Exponent) : Prop :=
      List.length c = List.length C0 /\ forall x, geq (gpeval c x) (total Cs x).

    Record kbase (r : kround) : Prop := {
      kb_self : kr_self r = self; kb_ids : kr_ids r = ids; kb_thr : kr_Threshold r = thr;
      kb_outp : kr_outp r = true; kb_out : kr_out r = mkKOutput None None; kb_rng : kr_rng r = rg
    }.
    Definition PK (n : nat) (r : kround) (out : list Message) : Prop :=
      kbase r /\ kr_no r = n /\
      match n with
      | 0%nat => out = [] /\ kr_Commitments r = ∅ /\ kr_Polynomial r = None
      | 1%nat => kr_Polynomial r = Some p0 /\ kr_CommitmentsSum r = Some C0 /\ kr_Commitments r = ∅ /\
                 kr_Secret r = peval p0 (idF self) /\ out = [own_KG1]
      | 2%nat => (exists p, kr_Polynomial r = Some p /\ Forall (eq f0) p) /\ kr_Secret r = peval p0 (idF self) /\ out = own_KG1 :: own_KG2s /\
                 exists Cs c, kview Cs /\ (forall j, In j others -> kr_Commitments r !! j = Some (Cs j)) /\
                   kr_CommitmentsSum r = Some c /\ sum_ok Cs c
      | _ => False
      end.

    Definition kout_ok (out : list Message) : Prop := out = [] \/ out = [own_KG1] \/ out = own_KG1 :: own_KG2s.
    Definition kshares_given (Cs : Z -> Exponent) (sh : Z -> Fq) : Prop := forall j, In j others ->
      share_fits self (Cs j) (sh j) /\
      exists m, W m /\ m_From m = j /\ (m_To m = 0 \/ m_To m = self) /\ m_Type m = MTKeyGen2 /\ m_KeyGen2 m = Some (mkKeyGen2 (sh j)).

    Definition kerr_ok (e : PError) (out : list Message) : Prop :=
      (pe_PartyID e = 0 /\ pe_text e = "message timeout"%string) \/
      (pe_text e = "ZK Schnorr failed"%string /\ In (pe_PartyID e) others /\
         exists m pr A tl, W m /\ m_From m = pe_PartyID e /\ m_Type m = MTKeyGen1 /\ m_KeyGen1 m = Some (mkKeyGen1 pr (A :: tl)) /\
           zk_Verify pr (pe_PartyID e) A ctx0 = Ret false) \/
      (pe_text e = "VSS failed to validate"%string /\ In (pe_PartyID e) others /\
         exists Cs m s, kview Cs /\ W m /\ m_From m = pe_PartyID e /\ (m_To m = 0 \/ m_To m = self) /\ m_Type m = MTKeyGen2 /\
           m_KeyGen2 m = Some (mkKeyGen2 s) /\ ~ share_fits self (Cs (pe_PartyID e)) s).

    Definition FK (r : kround) (err : option PError) (out : list Message) : Prop :=
      kout_ok out /\
      match err with
      | None => exists Cs sh c pub, kview Cs /\ kshares_given Cs sh /\ sum_ok Cs c /\ out = own_KG1 :: own_KG2s /\
          kr_out r = mkKOutput (Some pub) (Some (NewSecretShare self (fadd (peval p0 (idF self)) (Fsum (map sh others))))) /\
          pub_PartyIDs pub = ids /\ pub_Threshold pub = thr /\
          (forall i, In i ids -> exists A, pub_Shares pub !! i = Some A /\ geq A (gpeval c (idF i))) /\
          (forall i, ~ In i ids -> pub_Shares pub !! i = None) /\
          geq (pub_GroupKey pub) (gpeval c f0)
      | Some e => kr_out r = mkKOutput None None /\ kerr_ok e out
      end.

    (** *** Setting up *)
    Lemma ids_len_lt : Z.of_nat (List.length ids) < 65536.
    Proof.
      destruct V as [ND F]. assert (List.length ids <= List.length (map Z.of_nat (seq 1 (Z.to_nat 65535))))%nat as Hl.
      { apply List.NoDup_incl_length; [exact ND|]. intros i Hi. apply in_map_iff. exists (Z.to_nat i).
        rewrite List.Forall_forall in F. specialize (F i Hi). cbv beta in F. split; [lia|]. apply in_seq. lia. }
      rewrite map_length, seq_length in Hl. lia.
    Qed.
    Lemma knew : In self ids /\ 1 <= thr < Z.of_nat (List.length ids) /\ PK 0 r0 [].
    Proof.
      pose proof ids_len_lt as HL. revert NEW. unfold kg_NewRound, NewBaseRound. destruct (Z.eqb_spec thr 0); [discriminate|].
      destruct (Z.ltb_spec (u16 (N_ids ids - 1)) thr) as [|Hle]; [discriminate|]. destruct (Contains ids self) eqn:EC; cbn; [|discriminate].
      intros E. apply Ret_inj in E. subst r0. apply Contains_true_In in EC. split; auto.
      assert (1 <= List.length ids)%nat. { destruct ids; [contradiction|cbn; lia]. }
      split. { unfold N_ids, u16 in Hle. rewrite (Z.mod_small (Z.of_nat _)) in Hle by lia. rewrite Z.mod_small in Hle by lia. unfold is_u16 in HT. lia. }
      split; [split; cbn; auto|]. split; cbn; auto.
    Qed.
    Lemma kself_in : In self ids. Proof. apply knew. Qed.
    Lemma kr0_self : kr_self r0 = self. Proof. destruct knew as (_ & _ & H & _). apply H. Qed.
    Lemma kr0_ids : kr_ids r0 = ids. Proof. destruct knew as (_ & _ & H & _). apply H. Qed.
    Lemma kself_ok : is_u16 self /\ self <> 0.
    Proof. pose proof (valid_in ids self V kself_in). unfold is_u16. lia. Qed.
    Lemma idF_ids i : In i ids -> id_scalar i = Ret (idF i) /\ idF i <> f0.
    Proof. intros Hi. split; [apply id_scalar_ok; eapply valid_in_u16; eauto|eapply valid_idF_neq0; eauto]. Qed.

    Lemma kfull_keys rcv ks : (forall k v, rcv !! k = Some v -> In k others) -> Z.of_nat (size rcv) = u16 (N_ids ids - 1) ->
      Permutation ks (map fst (map_to_list (rcv : gmap Z (option Message)))) -> Permutation ks others.
    Proof.
      intros Hk Hs Hp. pose proof kself_in as Hi. pose proof ids_len_lt as Hl. destruct V as [ND _]. pose proof (others_of_length self ids ND Hi) as Ho.
      etransitivity; [exact Hp|]. etransitivity; [symmetry; apply (map_keys_perm [])|]. apply map_full; auto.
      - now apply others_of_NoDup.
      - unfold N_ids, u16 in Hs. rewrite (Z.mod_small (Z.of_nat _)) in Hs by lia. rewrite Z.mod_small in Hs by lia. lia.
    Qed.

    Lemma own_proof_eq : NewSchnorrProof (SetScalarRandom rg (S (Z.to_nat thr))) self (gbmul (SetScalarRandom rg 0)) ctx0 (SetScalarRandom rg 0) = Ret own_proof.
    Proof. reflexivity. Qed.

    Lemma kreset_out r r3 : kg_Reset r = Ret r3 -> kr_out r3 = kr_out r.
    Proof. unfold kg_Reset. destruct (kr_Polynomial r), (kr_CommitmentsSum r); try discriminate. intros E. apply Ret_inj in E. now subst. Qed.

    Lemma PK_out n r out : PK n r out -> kout_ok out.
    Proof.
      intros (_ & _ & H). destruct n as [|[|[|n]]].
      - destruct H as [-> _]. now left.
      - right; left. apply H.
      - right; right. apply H.
      - contradiction.
    Qed.

    Lemma kg0_gen r out sched : PK 0 r out -> exists r2, r_generate keygen_round sched r = ROk r2 [own_KG1] /\
      PK 1 (kg_set_no r2 1) [own_KG1] /\ kr_no r2 = 0%nat.
    Proof.
      intros (HB & Hno & -> & HC & _). destruct knew as (_ & Ht & _). cbn [keygen_round r_generate]. rewrite Hno. unfold kg0_generate. cbv zeta.
      rewrite (kb_rng r HB), (kb_thr r HB), (kb_self r HB). unfold NewPolynomial.
      pose proof ids_len_lt. unfold u16. rewrite Z.mod_small by lia. destruct (Z.eqb_spec (thr + 1) 0); [lia|]. cbn [lift_r]. fold p0 C0.
      change (exp_constant C0) with (Ret (gbmul (SetScalarRandom rg 0))). cbn [lift_r].
      rewrite own_proof_eq. cbn [lift_r]. destruct (idF_ids self kself_in) as [-> Hn]. cbn [lift_r].
      rewrite (poly_eval_ok p0 (idF self)) by exact Hn. cbn [lift_r].
      eexists. split; [reflexivity|]. split; [|exact Hno]. split; [split; cbn; auto; apply HB|]. split; cbn; auto.
    Qed.

    Lemma Forall_poly_reset p : Forall (eq f0) (poly_reset p).
    Proof. unfold poly_reset. apply List.Forall_forall. intros x Hx. apply in_map_iff in Hx as (? & <- & _). reflexivity. Qed.
    Lemma kg1_gen r sched : kbase r -> kr_no r = 1%nat -> kr_Polynomial r = Some p0 -> exists r2, r_generate keygen_round sched r = ROk r2 own_KG2s /\
      r2 = mkKround 1 self ids thr (kr_Secret r) (Some (poly_reset p0)) (kr_CommitmentsSum r) (kr_Commitments r) true (mkKOutput None None) rg.
    Proof.
      intros HB Hno HP. cbn [keygen_round r_generate]. rewrite Hno. unfold kg1_generate. rewrite HP.
      assert (forall l acc, incl l ids -> ofold (fun acc id =>
                if id =? kr_self r then Ret acc else
                obind (id_scalar id) (fun x => obind (poly_eval p0 x) (fun share => Ret (acc ++ [NewKeyGen2 (kr_self r) id share])))) acc l
              = Ret (acc ++ map (fun i => NewKeyGen2 self i (peval p0 (idF i))) (others_of self l))) as X.
      { induction l as [|i l IH]; intros acc Hl; cbn [ofold].
        - cbn. now rewrite app_nil_r.
        - rewrite (kb_self r HB). unfold others_of. cbn [List.filter]. destruct (Z.eqb_spec i self); cbn [negb obind].
          + rewrite (kb_self r HB) in IH. apply IH. intros j Hj. apply Hl. right; auto.
          + destruct (idF_ids i) as [-> Hn]; [apply Hl; left; auto|]. cbn [obind]. rewrite (poly_eval_ok p0 _ Hn). cbn [obind].
            rewrite (kb_self r HB) in IH. rewrite IH by (intros j Hj; apply Hl; right; auto). rewrite <- app_assoc. reflexivity. }
      rewrite (kb_ids r HB). rewrite X by (intros i; auto). cbn [app lift_r]. eexists. split; [reflexivity|].
      rewrite Hno, (kb_self r HB), (kb_thr r HB), (kb_outp r HB), (kb_out r HB), (kb_rng r HB). reflexivity.
    Qed.

    Lemma kg2_gen r c sched : kbase r -> kr_no r = 2%nat -> kr_CommitmentsSum r = Some c -> c <> [] -> exists r2 pub, r_generate keygen_round sched r = ROk r2 [] /\
      kr_no r2 = 2%nat /\ kr_Polynomial r2 = kr_Polynomial r /\ kr_CommitmentsSum r2 = Some c /\
      kr_out r2 = mkKOutput (Some pub) (Some (NewSecretShare self (kr_Secret r))) /\ pub_PartyIDs pub = ids /\ pub_Threshold pub = thr /\
      (forall i, In i ids -> exists A, pub_Shares pub !! i = Some A /\ geq A (gpeval c (idF i))) /\
      (forall i, ~ In i ids -> pub_Shares pub !! i = None) /\ geq (pub_GroupKey pub) (gpeval c f0).
    Proof.
      intros HB Hno HC Hne. cbn [keygen_round r_generate]. rewrite Hno. unfold kg2_generate. rewrite HC, (kb_ids r HB).
      assert (forall l (acc : gmap Z G), incl l ids -> exists m, ofold (fun (acc : gmap Z G) id =>
                obind (id_scalar id) (fun x => obind (exp_eval c x) (fun e => Ret (<[id := e]> acc)))) acc l = Ret m /\
              (forall i, In i l -> exists A, m !! i = Some A /\ geq A (gpeval c (idF i))) /\ (forall i, ~ In i l -> m !! i = acc !! i)) as X.
      { induction l as [|i l IH]; intros acc Hl; cbn [ofold].
        - exists acc. repeat split; auto. contradiction.
        - destruct (idF_ids i) as [-> Hn]; [apply Hl; left; auto|]. cbn [obind]. destruct (exp_eval_ok c _ Hn) as (A & -> & HA). cbn [obind].
          destruct (IH (<[i := A]> acc)) as (m & E & P1 & P2); [intros j Hj; apply Hl; right; auto|]. exists m. split; [exact E|]. split.
          + intros j [<-|Hj]; [|now apply P1]. destruct (in_dec Z.eq_dec i l) as [Hin|Hin]; [now apply P1|].
            rewrite (P2 i Hin), lookup_insert. eauto.
          + intros j Hj. rewrite P2 by (intros Hx; apply Hj; right; auto). rewrite lookup_insert_ne; auto. intros ->. apply Hj. left; auto. }
      destruct (X ids ∅) as (m & -> & P1 & P2); [intros i; auto|]. cbn [lift_r]. destruct c as [|A tl]; [congruence|]. cbn [exp_constant lift_r].
      rewrite (kb_outp r HB), (kb_self r HB), (kb_thr r HB). eexists _, _. split; [reflexivity|]. cbn. repeat (split; auto).
      symmetry. exact (gpeval_0 A tl).
    Qed.

    Lemma PK0_step r out rcv ks sched : PK 0 r out -> step_post keygen_round PK FK 0 out sched (process_loop keygen_round r rcv ks).
    Proof.
      intros HP. rewrite kg0_loop by apply HP. cbn [step_post]. destruct (kg0_gen r out sched HP) as (r2 & -> & H1 & Hno).
      cbn [keygen_round r_next]. rewrite Hno. destruct HP as (_ & _ & -> & _). exact H1.
    Qed.

    Lemma PK1_step r out rcv ks sched : PK 1 r out -> rcv_ok keygen_round W r0 1 rcv -> full keygen_round r0 rcv ->
      Permutation ks (map fst (map_to_list rcv)) -> step_post keygen_round PK FK 1 out sched (process_loop keygen_round r rcv ks).
    Proof.
      intros (HB & Hno & Hpo & Hcs & Hcm & Hse & ->) HR HF HP. destruct V as [ND _].
      assert (from_ok rcv) as Hfrom. { intros k m Hk. apply (ro_val _ _ _ _ _ HR k m Hk). }
      assert (forall k v, rcv !! k = Some v -> In k others) as Hkey.
      { intros k v Hk. pose proof (ro_key _ _ _ _ _ HR k v Hk) as X. cbn [keygen_round r_self r_ids] in X. now rewrite kr0_self, kr0_ids in X. }
      unfold full in HF. cbn [keygen_round r_ids] in HF. rewrite kr0_ids in HF. pose proof (kfull_keys rcv ks Hkey HF HP) as Hks.
      assert (List.NoDup ks) as NDk. { eapply Permutation_NoDup; [symmetry; exact Hks|]. now apply others_of_NoDup. }
      pose proof (kg1_loop rcv Hfrom ks r C0 NDk Hno Hcs) as HL. destruct (process_loop keygen_round r rcv ks) as [r1 u|r1 c t|w]; cbn [step_post]; auto.
      2:{ intros r3 E3. apply kreset_out in E3. destruct HL as ((cs & cc & E1) & -> & Hin & m & b & A & tl & Em & Eb & Ec & Hid).
          destruct (ro_val _ _ _ _ _ HR c m Em) as (Hfr & _ & Ht & Hw). cbn [keygen_round r_accepted nth_error] in Ht.
          split; [right; left; reflexivity|]. split; [rewrite E3, E1; apply HB|]. right; left. cbn [pe_text pe_PartyID]. split; auto.
          split; [now apply (Permutation_in _ Hks)|]. exists m, (k1_Proof b), A, tl. split; auto. split; auto. split; [congruence|]. split; auto.
          rewrite Eb, <- Ec. now destruct b. }
      destruct HL as (E1 & Hun & Hch). set (c1 := fold_left _ _ _) in E1.
      assert (kbase r1) as HB1. { rewrite E1. split; cbn; apply HB. }
      destruct (kg1_gen r1 sched HB1) as (r2 & -> & E2); [rewrite E1; exact Hno|rewrite E1; exact Hpo|].
      cbn [keygen_round r_next]. assert (kr_no r2 = 1%nat) as -> by (rewrite E2; reflexivity). cbn [app].
      set (Cs := fun j => default [] (kr_Commitments r1 !! j)).
      assert (forall j, In j others -> kr_Commitments r1 !! j = Some (Cs j)) as HCs.
      { intros j Hj. apply (Permutation_in _ (Permutation_sym Hks)) in Hj. destruct (Hch j Hj) as (m & b & A & tl & _ & _ & _ & _ & E). unfold Cs. setoid_rewrite E. reflexivity. }
      split; [split; rewrite E2; cbn; auto|]. split; [reflexivity|]. rewrite E2. cbn [kr_Polynomial kr_Secret kr_Commitments kr_CommitmentsSum]. split; [eexists; split; [reflexivity|apply Forall_poly_reset]|].
      split; [rewrite E1; exact Hse|]. split; [reflexivity|]. exists Cs, c1. split.
      { intros j Hj. pose proof (HCs j Hj) as E. apply (Permutation_in _ (Permutation_sym Hks)) in Hj.
        destruct (Hch j Hj) as (m & b & A & tl & Em & Eb & Ec & Ez & E'). destruct (ro_val _ _ _ _ _ HR j m Em) as (Hfr & _ & Ht & Hw).
        cbn [keygen_round r_accepted nth_error] in Ht. pose proof (eq_trans (eq_sym E) E') as E3. inversion E3 as [E'']. exists m, (k1_Proof b), A, tl.
        split; auto. split; auto. split; [congruence|]. split; [rewrite Eb, E''; now destruct b|]. split; [congruence|auto]. }
      split; [exact HCs|]. split; [rewrite E1; reflexivity|]. split; [apply fold_addk_len|]. intros x. unfold c1, total.
      rewrite (fold_addk_eval _ (List.length C0)) by reflexivity. apply gadd_proper; [reflexivity|].
      etransitivity; [apply Gsum_perm; apply Permutation_map; exact Hks|]. apply Gsum_map_ext. intros j Hj. setoid_rewrite (HCs j Hj). reflexivity.
    Qed.

    Lemma PK2_step r out rcv ks sched : PK 2 r out -> rcv_ok keygen_round W r0 2 rcv -> full keygen_round r0 rcv ->
      Permutation ks (map fst (map_to_list rcv)) -> step_post keygen_round PK FK 2 out sched (process_loop keygen_round r rcv ks).
    Proof.
      intros (HB & Hno & Hpo & Hse & -> & Cs & c & HV & HCs & Hcs & Hsum) HR HF HP. destruct V as [ND _].
      assert (from_ok rcv) as Hfrom. { intros k m Hk. apply (ro_val _ _ _ _ _ HR k m Hk). }
      assert (forall k v, rcv !! k = Some v -> In k others) as Hkey.
      { intros k v Hk. pose proof (ro_key _ _ _ _ _ HR k v Hk) as X. cbn [keygen_round r_self r_ids] in X. now rewrite kr0_self, kr0_ids in X. }
      unfold full in HF. cbn [keygen_round r_ids] in HF. rewrite kr0_ids in HF. pose proof (kfull_keys rcv ks Hkey HF HP) as Hks.
      assert (List.NoDup ks) as NDk. { eapply Permutation_NoDup; [symmetry; exact Hks|]. now apply others_of_NoDup. }
      destruct kself_ok as [Hu Hnz].
      pose proof (kg2_loop rcv self Hfrom Hu Hnz ks r NDk Hno (kb_self r HB)) as HL.
      destruct (process_loop keygen_round r rcv ks) as [r1 u|r1 j t|w]; cbn [step_post]; auto.
      2:{ intros r3 E3. apply kreset_out in E3. destruct HL as ((s1 & E1) & -> & Hin & m & s & C & Em & Eb & Ec & Hid).
          destruct (ro_val _ _ _ _ _ HR j m Em) as (Hfr & Hto & Ht & Hw). cbn [keygen_round r_accepted nth_error r_self] in Ht, Hto. rewrite kr0_self in Hto.
          apply (Permutation_in _ Hks) in Hin. rewrite (HCs j Hin) in Ec. inversion Ec; subst C.
          split; [right; right; reflexivity|]. split; [rewrite E3, E1; apply HB|]. right; right. cbn [pe_text pe_PartyID]. split; auto.
          split; auto. exists Cs, m, s. split; auto. split; auto. split; auto. split; auto. split; [congruence|]. split; auto. }
      destruct HL as (sh & E1 & Hch).
      assert (kbase r1) as HB1. { rewrite E1. split; cbn; apply HB. }
      destruct (kg2_gen r1 c sched HB1) as (r2 & pub & -> & Hno2 & _ & _ & Eo & P1 & P2 & P3 & P4 & P5).
      { rewrite E1. exact Hno. } { rewrite E1. exact Hcs. } { destruct Hsum as [Hl _]. intros ->. discriminate. }
      cbn [keygen_round r_next]. rewrite Hno2. intros r3 E3. apply kreset_out in E3. rewrite app_nil_r.
      split; [right; right; reflexivity|]. exists Cs, sh, c, pub. split; auto. split; [|split; auto; split; auto; split].
      - intros j Hj. pose proof Hj as Hj'. apply (Permutation_in _ (Permutation_sym Hks)) in Hj. destruct (Hch j Hj) as (m & C & Em & Eb & Ec & Hfit).
        rewrite (HCs j Hj') in Ec. inversion Ec; subst C. split; auto.
        destruct (ro_val _ _ _ _ _ HR j m Em) as (Hfr & Hto & Ht & Hw). cbn [keygen_round r_accepted nth_error r_self] in Ht, Hto. rewrite kr0_self in Hto.
        exists m. split; auto. split; auto. split; auto. split; [congruence|auto].
      - rewrite E3, Eo, E1. cbn. rewrite Hse. do 4 f_equal. apply Fsum_perm, Permutation_map, Hks.
      - repeat (split; auto).
    Qed.

    Lemma PK_step n r out rcv ks sched : PK n r out -> rcv_ok keygen_round W r0 n rcv -> full keygen_round r0 rcv ->
      Permutation ks (map fst (map_to_list rcv)) -> step_post keygen_round PK FK n out sched (process_loop keygen_round r rcv ks).
    Proof.
      intros HP. destruct n as [|[|[|n]]]; intros.
      - now apply PK0_step.
      - now apply PK1_step.
      - now apply PK2_step.
      - destruct HP as (_ & _ & []).
    Qed.
    Lemma PK_timeout n r out r3 : PK n r out -> kg_Reset r = Ret r3 -> FK r3 (Some (mkPError 0 (Z.of_nat n) "message timeout")) out.
    Proof.
      intros HP E3. apply kreset_out in E3. split; [eapply PK_out; eauto|]. split; [rewrite E3; apply HP|]. left. auto.
    Qed.

    Lemma keygen_run now t es s out : Forall (event_ok W) es -> run keygen_round (NewBaseState keygen_round now t r0) es = Ret (s, out) ->
      linv keygen_round W r0 PK FK s out.
    Proof.
      intros HW E. eapply linv_run; [exact keygen_round_ok| | | |exact HW|exact E].
      - apply knew.
      - intros. now apply PK_step.
      - intros. eapply PK_timeout; eauto.
    Qed.

    (** *** No panics *)
    Lemma PK_reset n r out : PK n r out -> (1 <= n)%nat -> exists r3, kg_Reset r = Ret r3.
    Proof.
      intros (_ & _ & H) Hn. unfold kg_Reset. destruct n as [|[|[|n]]]; [lia| | |contradiction].
      - destruct H as (-> & -> & _). eauto.
      - destruct H as ((p & -> & _) & _ & _ & Cs & c & _ & _ & -> & _). eauto.
    Qed.
    Lemma PK_safe n r out rcv ks sched : PK n r out -> rcv_ok keygen_round W r0 n rcv -> full keygen_round r0 rcv ->
      (forall k m, rcv !! k = Some (Some m) -> (m_Type m = MTKeyGen1 -> exists b, m_KeyGen1 m = Some b /\ k1_Commitments b <> []) /\ (m_Type m = MTKeyGen2 -> exists b, m_KeyGen2 m = Some b)) ->
      Permutation ks (map fst (map_to_list rcv)) -> safe_step keygen_round r rcv ks sched.
    Proof.
      intros HP HR HF HB Hp. unfold safe_step. destruct n as [|[|[|n]]]; [| | |destruct HP as (_ & _ & [])].
      - rewrite kg0_loop by apply HP. destruct (kg0_gen r out sched HP) as (r2 & -> & _ & Hno). cbn [keygen_round r_next]. now rewrite Hno.
      - pose proof HP as (HB0 & Hno & Hpo & Hcs & Hcm & Hse & _). pose proof V as [ND _].
        assert (from_ok rcv) as Hfrom. { intros k m Hk. apply (ro_val _ _ _ _ _ HR k m Hk). }
        assert (forall k v, rcv !! k = Some v -> In k others) as Hkey.
        { intros k v Hk. pose proof (ro_key _ _ _ _ _ HR k v Hk) as X. cbn [keygen_round r_self r_ids] in X. now rewrite kr0_self, kr0_ids in X. }
        assert (Permutation ks others) as Hks. { apply (kfull_keys rcv ks Hkey); auto. unfold full in HF. cbn [keygen_round r_ids] in HF. now rewrite kr0_ids in HF. }
        assert (List.NoDup ks) as NDk. { eapply Permutation_NoDup; [symmetry; exact Hks|]. now apply others_of_NoDup. }
        pose proof (kg1_loop rcv Hfrom ks r C0 NDk Hno Hcs) as HL. destruct (process_loop keygen_round r rcv ks) as [r1 u|r1 c t|w].
        + destruct HL as (E1 & _ & _). destruct (kg1_gen r1 sched) as (r2 & -> & E2).
          { rewrite E1. split; cbn; apply HB0. } { rewrite E1. exact Hno. } { rewrite E1. exact Hpo. }
          cbn [keygen_round r_next]. rewrite E2. exact Logic.I.
        + destruct HL as ((cs & cc & ->) & _). cbn [keygen_round r_reset]. unfold kg_Reset. cbn. rewrite Hpo. eauto.
        + destruct HL as (k & Hin & X). assert (In k (map fst (map_to_list rcv))) as Hin'. { exact (Permutation_in _ Hp Hin). }
          apply in_map_iff in Hin' as ((k' & v) & <- & Hin'). cbn in *. apply elem_of_list_In, elem_of_map_to_list in Hin'. rewrite Hin' in X. cbn in X.
          destruct v as [m|]; [|pose proof (ro_some _ _ _ _ _ HR _ Hin'); lia].
          destruct (ro_val _ _ _ _ _ HR k' m Hin') as (_ & _ & Ht & Hw). cbn [keygen_round r_accepted nth_error] in Ht. destruct (proj1 (HB k' m Hin')) as (b & Eb & Hc); [congruence|]. rewrite Eb in X. contradiction.
      - pose proof HP as (HB0 & Hno & (p & Hpo & _) & Hse & _ & Cs & c & HV & HCs & Hcs & Hsum). pose proof V as [ND _].
        assert (from_ok rcv) as Hfrom. { intros k m Hk. apply (ro_val _ _ _ _ _ HR k m Hk). }
        assert (forall k v, rcv !! k = Some v -> In k others) as Hkey.
        { intros k v Hk. pose proof (ro_key _ _ _ _ _ HR k v Hk) as X. cbn [keygen_round r_self r_ids] in X. now rewrite kr0_self, kr0_ids in X. }
        assert (Permutation ks others) as Hks. { apply (kfull_keys rcv ks Hkey); auto. unfold full in HF. cbn [keygen_round r_ids] in HF. now rewrite kr0_ids in HF. }
        assert (List.NoDup ks) as NDk. { eapply Permutation_NoDup; [symmetry; exact Hks|]. now apply others_of_NoDup. }
        destruct kself_ok as [Hu Hnz].
        pose proof (kg2_loop rcv self Hfrom Hu Hnz ks r NDk Hno (kb_self r HB0)) as HL.
        destruct (process_loop keygen_round r rcv ks) as [r1 u|r1 j t|w].
        + destruct HL as (sh & E1 & _). destruct (kg2_gen r1 c sched) as (r2 & pub & -> & Hno2 & Hp2 & Hc2 & _).
          { rewrite E1. split; cbn; apply HB0. } { rewrite E1. exact Hno. } { rewrite E1. exact Hcs. } { destruct Hsum as [Hl _]. intros ->. discriminate. }
          cbn [keygen_round r_next r_reset]. rewrite Hno2. unfold kg_Reset. rewrite Hp2, Hc2, E1. cbn. rewrite Hpo. eauto.
        + destruct HL as ((s1 & ->) & _). cbn [keygen_round r_reset]. unfold kg_Reset. cbn. rewrite Hpo, Hcs. eauto.
        + destruct HL as (k & Hin & X). assert (In k (map fst (map_to_list rcv))) as Hin'. { exact (Permutation_in _ Hp Hin). }
          apply (Permutation_in _ Hks) in Hin.
          apply in_map_iff in Hin' as ((k' & v) & <- & Hin'). cbn in *. apply elem_of_list_In, elem_of_map_to_list in Hin'. rewrite Hin' in X. cbn in X.
          destruct v as [m|]; [|pose proof (ro_some _ _ _ _ _ HR _ Hin'); lia].
          destruct (ro_val _ _ _ _ _ HR k' m Hin') as (_ & _ & Ht & Hw). cbn [keygen_round r_accepted nth_error] in Ht. destruct (proj2 (HB k' m Hin')) as (b & Eb); [congruence|]. rewrite Eb, (HCs k' Hin) in X. destruct X; discriminate.
    Qed.
    Context (HB1 : forall m, W m -> m_Type m = MTKeyGen1 -> exists b, m_KeyGen1 m = Some b /\ k1_Commitments b <> [])
      (HB2 : forall m, W m -> m_Type m = MTKeyGen2 -> exists b, m_KeyGen2 m = Some b).
    Lemma PK_nopanic n r out rcv ks sched : PK n r out -> rcv_ok keygen_round W r0 n rcv -> full keygen_round r0 rcv ->
      Permutation ks (map fst (map_to_list rcv)) -> safe_step keygen_round r rcv ks sched.
    Proof.
      intros A B C D. eapply PK_safe; eauto. intros k m Hk. pose proof (ro_val _ _ _ _ _ B k m Hk) as (_ & _ & _ & Hw). split; auto.
    Qed.

    Lemma PK_types n r out : PK n r out -> (n < List.length (r_accepted keygen_round r0))%nat.
    Proof. intros (_ & _ & H). cbn. destruct n as [|[|[|n]]]; try lia. Qed.

    Lemma init_full now t : Z.of_nat (size (st_received (NewBaseState keygen_round now t r0))) = u16 (N_ids (r_ids keygen_round (st_round (NewBaseState keygen_round now t r0))) - 1).
    Proof.
      cbn [NewBaseState st_round keygen_round r_ids]. rewrite kr0_ids. pose proof ids_len_lt as Hl. pose proof V as [ND _].
      pose proof (others_of_length self ids ND kself_in) as Ho.
      assert (Permutation (map_keys [] (st_received (NewBaseState keygen_round now t r0))) others) as HP.
      { apply Permutation.NoDup_Permutation; [apply map_keys_NoDup|now apply others_of_NoDup|]. intros i. rewrite map_keys_In.
        split.
        - intros [v Hv]. apply init_received in Hv as [_ Hv]. cbn [keygen_round r_self r_ids] in Hv. now rewrite kr0_self, kr0_ids in Hv.
        - intros Hi. exists None. apply init_received. cbn [keygen_round r_self r_ids]. rewrite kr0_self, kr0_ids. auto. }
      apply Permutation_length in HP. rewrite map_keys_length in HP. unfold N_ids, u16. rewrite (Z.mod_small (Z.of_nat _)) by lia. rewrite Z.mod_small by lia.
      cbn [NewBaseState] in HP |- *. lia.
    Qed.

    Lemma keygen_step_nopanic s out e : linv keygen_round W r0 PK FK s out -> e <> ECallback -> exists s' o, step keygen_round s e = Ret (s', o).
    Proof. exact (nopanic_step keygen_round W r0 PK FK PK_types (fun n r out rcv ks sched A _ _ B C D => PK_nopanic n r out rcv ks sched A B C D) s out e). Qed.

    (** Every history whose first event is ProcessAll (or that contains no timer callback) returns normally. *)
    Lemma keygen_nopanic_nocb now t es : Forall (event_ok W) es -> Forall (fun e => e <> ECallback) es ->
      exists s out, run keygen_round (NewBaseState keygen_round now t r0) es = Ret (s, out) /\ linv keygen_round W r0 PK FK s out.
    Proof.
      induction es as [|e es IH] using rev_ind; intros HF HC.
      - eexists _, _. split; [reflexivity|]. apply (keygen_run now t []); auto.
      - apply Forall_app in HF as [HF He]. apply Forall_app in HC as [HC Hce]. inversion He; subst. inversion Hce; subst. destruct (IH HF HC) as (s & out & E & HL).
        destruct (nopanic_step keygen_round W r0 PK FK PK_types (fun n r out rcv ks sched A _ _ B C D => PK_nopanic n r out rcv ks sched A B C D) s out e HL) as (s' & o & E'); auto.
        assert (run keygen_round (NewBaseState keygen_round now t r0) (es ++ [e]) = Ret (s', out ++ o)) as E2.
        { rewrite run_app, E. cbn [obind fst snd run]. rewrite E'. cbn. now rewrite app_nil_r. }
        exists s', (out ++ o). split; [exact E2|]. eapply keygen_run; [|exact E2]. apply Forall_app; auto.
    Qed.
    Lemma keygen_nopanic_started now t es sched sched' : Forall (event_ok W) es ->
      exists s out, run keygen_round (NewBaseState keygen_round now t r0) (EProcess sched sched' :: es) = Ret (s, out) /\
        linv keygen_round W r0 PK FK s out /\ (st_done s = true \/ 1 <= st_roundNumber s).
    Proof.
      induction es as [|e es IH] using rev_ind; intros HF.
      - destruct (keygen_nopanic_nocb now t [EProcess sched sched']) as (s & out & E & HL).
        { constructor; [exact Logic.I|constructor]. } { constructor; [discriminate|constructor]. }
        exists s, out. split; [exact E|]. split; [exact HL|]. cbn [run] in E. apply obind_ret in E as ([s1 o1] & E1 & E2). cbn in E2. apply Ret_inj in E2. inversion E2; subst s1 out. clear E2.
        cbn [step] in E1. apply process_cases in E1. pose proof knew as (Hin & _ & HP0).
        destruct E1 as [E1 _ X|r c t1 D HS EP ER EE|r r' c t1 D HS EP EG ER EE|r r' ct tl rcv q D HS EP EG EA EQ EN].
        + exfalso. subst s. destruct X as [X|X]; [discriminate|]. apply X. apply init_full.
        + left. apply reportError_ret in ER as (r2 & _ & _ & ->); auto.
        + left. apply reportError_ret in ER as (r2 & _ & _ & ->); auto.
        + destruct (r_next keygen_round r').
          * right. subst s. cbn. lia.
          * left. apply finish_ret in EN as (r2 & _ & _ & ->); auto.
      - apply Forall_app in HF as [HF He]. inversion He; subst. destruct (IH HF) as (s & out & E & HL & HD).
        assert (exists s' o, step keygen_round s e = Ret (s', o)) as (s' & o & E').
        { destruct (match e with ECallback => true | _ => false end) eqn:Ecb.
          - destruct e; try discriminate. cbn [step]. unfold timerCallback. destruct (tm_pending _); cbn; eauto.
            match goal with |- context [reportError _ ?s0 0 ?t] => assert (exists s', reportError keygen_round s0 0 t = Ret s') as [s' ->] end; cbn; eauto.
            unfold reportError, finish. cbn [st_done]. destruct (st_done s) eqn:D; eauto. cbn. destruct (li_P _ _ _ _ _ _ _ HL D) as (n1 & En & Ea & HP).
            destruct HD as [HD|HD]; [congruence|]. destruct (PK_reset _ _ _ HP) as [r3 ->]; [lia|].
            pose proof (inv_closed keygen_round s (li_inv _ _ _ _ _ _ _ HL)) as HC. rewrite D in HC. rewrite HC. cbn. eauto.
          - eapply (nopanic_step keygen_round W r0 PK FK PK_types (fun n r out rcv ks sched A _ _ B C D => PK_nopanic n r out rcv ks sched A B C D)); [exact HL|].
            intros ->. discriminate. }
        assert (run keygen_round (NewBaseState keygen_round now t r0) (EProcess sched sched' :: es ++ [e]) = Ret (s', out ++ o)) as E2.
        { rewrite app_comm_cons, run_app, E. cbn [obind fst snd run]. rewrite E'. cbn. now rewrite app_nil_r. }
        exists s', (out ++ o). split; [exact E2|]. split.
        + eapply keygen_run; [|exact E2]. constructor; [exact Logic.I|]. apply Forall_app; auto.
        + apply step_monotone in E' as (A & B & _). destruct HD as [HD|HD]; [left; auto|right; lia].
    Qed.
  End Party.
End KeygenRun.
