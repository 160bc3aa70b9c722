(** C31: the command line flows. *)
From Coq Require Import ZArith Lia List Bool String Permutation.
From Coq.Strings Require Import Byte.
From stdpp Require Import base gmap list fin_maps.
From Verif Require Import ZField Primes Bytes Scalar Go Group ToyGroup Spec_Poly PolyAlg Party Poly PolyFacts Zk Eddsa Messages State Spec_State StateFacts Keygen Sign Helpers Cmd
  Spec_Group Properties_Algebra Spec_Wire CodecFacts Properties_Codec Lift Net Progress NetProgress Lockstep RoundFacts ToyRuns
  Spec_Sign SignFacts SignRun Spec_SignRun Properties_Sign Properties_HonestSign KeygenFacts KeygenRun Spec_Keygen Properties_Keygen Properties_HonestKeygen
  Spec_Public Properties_Public Properties_Helpers.
Import ListNotations.
Local Open Scope Z_scope.

Section Wire.
  Context `{L : group_laws}.
  Lemma built_wire m : built m -> exists b m', msg_MarshalBinary m = Ret b /\ msg_UnmarshalBinary zero_message b = Ret m' /\ same_msg m m'.
  Proof. intros H. destruct (C20_round_trip m zero_message H) as (b & m' & A & _ & B & C & _). exists b, m'. split; auto. split; auto. now right. Qed.
End Wire.

(** What WaitForError tells about a State: it returns without error exactly from one that finished without, with an error exactly from an aborted
    one, and waits for ever (for a program that has nothing else to do) exactly for one that is still running. *)
Section WaitForError.
  Context `{Gr : group_ops} {R : Type} (I : RoundI R) (ROK : round_ok I).
  Theorem C31_wait : forall now t r (s : State R) out (sts : gmap Z (option (State R))) i, reaches I (NewBaseState I now t r) s out -> sts !! i = Some (Some s) ->
    (forall s', wait sts i = Ret s' <-> s' = s /\ st_done s = true /\ st_err s = None) /\
    ((exists e, wait sts i = Fail e) <-> st_err s <> None) /\ ((exists w, wait sts i = Panics w) <-> st_done s = false).
  Proof.
    intros now t r s out sts i [es E] Hi. assert (inv I s) as HI by (eapply inv_run; [exact ROK|apply inv_init|exact E]).
    pose proof (inv_err I s HI) as He. unfold wait. rewrite Hi. destruct (st_done s); [destruct (st_err s) as [x|]|rewrite (He eq_refl)].
    - split; [split; [discriminate|intros (_ & _ & X); discriminate]|]. split; [split; [discriminate|eauto]|]. split; [intros [w X]; discriminate|discriminate].
    - split; [split; [intros [= <-]; auto|intros (-> & _ & _); auto]|]. split; [split; [intros [w X]; discriminate|congruence]|]. split; [intros [w X]; discriminate|discriminate].
    - split; [split; [discriminate|intros (_ & X & _); discriminate]|]. split; [split; [intros [w X]; discriminate|congruence]|]. split; eauto.
  Qed.
End WaitForError.

(** * The three loops of the keygen command *)
Section KeygenLoops.
  Context `{L : group_laws} `{Hf : hash_fn}.
  Context (ids : list Z) (thr : Z) (HS : sorted ids) (V : valid_ids ids) (HT : 1 <= thr < Z.of_nat (List.length ids)).
  Context (rg : Z -> rng) (now timeout : Z -> Z) (s0 : Z -> State kround).
  Context (NEW : forall i, In i ids -> NewKeygenState (rg i) (now i) (timeout i) i ids thr = Ret (s0 i)).

  Lemma thr_u16 : is_u16 thr. Proof. pose proof (valid_len _ V). unfold is_u16. lia. Qed.
  Lemma ku_built m : KU ids thr rg m -> built m.
  Proof.
    pose proof (valid_len _ V) as Hl. intros (i & Hi & [->|Hm]).
    - pose proof (valid_in ids i V Hi). unfold own_KG1. assert (List.length (C0 (rg i) thr) = S (Z.to_nat thr)) as EC.
      { unfold C0, NewPolynomialExponent, p0. rewrite map_length. cbn [List.length]. now rewrite map_length, seq_length. }
      constructor; rewrite ?EC; lia.
    - apply in_map_iff in Hm as (j & <- & Hj). apply others_of_In in Hj as [Hj _]. pose proof (valid_in ids i V Hi). pose proof (valid_in ids j V Hj). constructor; lia.
  Qed.
  Lemma kg_loop_no rcv ks : forall r r1, process_loop keygen_round r rcv ks = ROk r1 tt -> kr_no r1 = kr_no r.
  Proof.
    induction ks as [|k ks IH]; intros r r1; cbn [process_loop]; [now intros [= ->]|].
    destruct (r_process keygen_round r _) as [r2 u|r2 c1 t1|w] eqn:E; try discriminate. intros E2. rewrite (IH _ _ E2). clear - E.
    revert E. cbn [keygen_round r_process]. destruct (kr_no r) as [|[|n]] eqn:En.
    - destruct u. intros [= <-]. exact En.
    - unfold kg1_process. destruct (default None (rcv !! k)) as [m|]; [|discriminate]. destruct (m_KeyGen1 m) as [b|]; [|discriminate].
      destruct (exp_constant _); try discriminate. cbn [lift_r]. destruct (zk_Verify _ _ _ _); try discriminate. cbn [lift_r]. destruct (negb _); [discriminate|].
      destruct (kr_CommitmentsSum r); [|discriminate]. intros [= <- _]. cbn. exact En.
    - unfold kg2_process. destruct (default None (rcv !! k)) as [m|]; [|discriminate]. destruct (m_KeyGen2 m) as [b|]; [|discriminate].
      destruct (kr_Commitments r !! _); [|discriminate]. destruct (id_scalar _); try discriminate. cbn [lift_r]. destruct (exp_eval _ _); try discriminate. cbn [lift_r].
      destruct (negb _); [discriminate|]. intros [= <- _]. cbn. exact En.
  Qed.
  Lemma kg_gen_no sched r r' l : r_generate keygen_round sched r = ROk r' l -> kr_no r' = kr_no r.
  Proof.
    cbn [keygen_round r_generate]. destruct (kr_no r) as [|[|n]] eqn:En.
    - unfold kg0_generate. cbv zeta. repeat (match goal with |- context [lift_r ?x] => destruct x; cbn [lift_r]; try discriminate end). intros [= <- _]. cbn. exact En.
    - unfold kg1_generate. destruct (kr_Polynomial r); [|discriminate]. repeat (match goal with |- context [lift_r ?x] => destruct x; cbn [lift_r]; try discriminate end). intros [= <- _]. cbn. exact En.
    - unfold kg2_generate. destruct (kr_CommitmentsSum r); [|discriminate]. repeat (match goal with |- context [lift_r ?x] => destruct x; cbn [lift_r]; try discriminate end).
      destruct (kr_outp r); [|discriminate]. intros [= <- _]. cbn. exact En.
  Qed.

  Lemma keygen_three : exists r0, three keygen_round ids (KU ids thr rg) (KW ids thr rg) now timeout r0 (fun i => PK (KW ids thr rg) (rg i) i ids thr)
    (fun i => FK (KW ids thr rg) (rg i) i ids thr) s0 MTNone MTKeyGen1 MTKeyGen2 (fun i => own_KG1 (rg i) i thr) (fun i => own_KG2s (rg i) i ids thr).
  Proof.
    pose proof thr_u16 as HT'.
    destruct (choice_ids (fun i r => kg_NewRound (rg i) i ids thr = Ret r /\ s0 i = NewBaseState keygen_round (now i) (timeout i) r) ids
       (mkKround 0 0 [] 0 f0 None None ∅ true (mkKOutput None None) (rg 0))) as [r0 Hr0].
    { intros i Hi. destruct (NewKeygenState_round _ _ _ _ _ _ _ (NEW i Hi)) as (r & A & B). eauto. }
    assert (forall i n r out, PK (KW ids thr rg) (rg i) i ids thr n r out -> (n < 3)%nat) as HP3.
    { intros i n r out (_ & _ & H). destruct n as [|[|[|n]]]; [lia|lia|lia|contradiction]. }
    exists r0. split.
    - exact (KUW ids thr rg).
    - intros i Hi. apply (Hr0 i Hi).
    - intros i Hi. destruct (Hr0 i Hi) as [Ea Eb]. split; [eapply (kr0_self (KW ids thr rg))|eapply (kr0_ids (KW ids thr rg))]; eauto.
    - intros i es s out Hi HE E. destruct (Hr0 i Hi) as [Ea Eb]. rewrite Eb in E. eapply keygen_run; eauto.
    - intros i sched sched' es Hi HE. eapply C04_no_crash; eauto.
    - exact HP3.
    - reflexivity.
    - intros i es s out Hi HE HC E. eapply khonest_noerr; eauto.
    - intros i Hi. split; [exists i; auto|]. repeat split; reflexivity.
    - intros i m Hi Hm. split; [exists i; auto|]. apply in_map_iff in Hm as (j & <- & _). auto.
    - intros i j Hi Hj Hne. exists (NewKeyGen2 j i (peval (p0 (rg j) thr) (idF i))). unfold own_KG2s.
      assert (In i (others_of j ids)) as Hin by (apply others_of_In; auto). pose proof (others_of_NoDup j ids (proj1 V)) as ND.
      assert (forall k, In k (others_of j ids) -> 1 <= k) as Hk. { intros k Hk. apply others_of_In in Hk as [Hk _]. pose proof (valid_in ids k V Hk). lia. }
      clear - Hin ND Hne Hk. induction (others_of j ids) as [|k l IH]; [contradiction|]. inversion ND as [|? ? Hni ND']; subst.
      cbn [map List.filter]. unfold rel at 1. cbn [m_From m_To m_Header NewKeyGen2 h_From h_To]. rewrite (proj2 (Z.eqb_neq j i)) by congruence. cbn [negb andb].
      rewrite (proj2 (Z.eqb_neq k 0)) by (specialize (Hk k (or_introl eq_refl)); lia). cbn [orb].
      destruct (Z.eqb_spec k i) as [->|Hki].
      + f_equal. assert (forall k, In k l -> k <> i) as Hz by (intros k Hkl ->; auto). assert (forall k, In k l -> 1 <= k) as Hk' by (intros; apply Hk; now right).
        clear - Hz Hk' Hne. induction l as [|k l IH]; [reflexivity|]. cbn [map List.filter]. unfold rel at 1. cbn [m_From m_To m_Header NewKeyGen2 h_From h_To].
        rewrite (proj2 (Z.eqb_neq k i)) by (apply Hz; now left). rewrite (proj2 (Z.eqb_neq k 0)) by (specialize (Hk' k (or_introl eq_refl)); lia). rewrite andb_false_r.
        apply IH; intros; [apply Hz|apply Hk']; now right.
      + apply IH; auto; [destruct Hin; [congruence|auto]|intros; apply Hk; now right].
    - intros i r out Hi (_ & _ & H). apply H.
    - intros i r out Hi (_ & _ & H). apply H.
    - intros i r out Hi [_ H]. destruct H as (_ & _ & _ & _ & _ & _ & _ & -> & _). reflexivity.
    - intros i n r out rcv ks r1 sched r2 l (_ & En & _) Hn EL EG. apply kg_loop_no in EL. apply kg_gen_no in EG. cbn [keygen_round r_next].
      destruct (kr_no r2) as [|[|]]; [discriminate|discriminate|lia].
    - intros m Hm. apply built_wire. now apply ku_built.
  Qed.
  Lemma keygen_drive3 v sts : over ids sts -> (forall i, In i ids -> sts !! i = Some (Some (s0 i))) ->
    exists sts', drive3 keygen_round v sts = Ret sts' /\ over ids sts' /\
      forall i, In i ids -> exists s es out, sts' !! i = Some (Some s) /\ hist keygen_round (KW ids thr rg) s0 i s es out /\ st_done s = true /\ st_err s = None.
  Proof. destruct keygen_three as [r0 T]. eapply drive3_three; eauto. Qed.
End KeygenLoops.

(** * The three loops of the signer command *)
Section SignLoops.
  Context `{L : group_laws} `{Hf : hash_fn} (HH : hash_ok Hf).
  Context (t : nat) (f : list Fq) (ids : list Z) (HS : sorted ids) (Hdeg : degree_le t f) (Hids : valid_ids ids) (Hnum : (t + 1 <= List.length ids)%nat).
  Context (message : list byte) (rg : Z -> rng) (pub : Z -> Public) (sh : Z -> SecretShare) (now timeout : Z -> Z) (s0 : Z -> State sround).
  Context (SH : forall i, In i ids -> sh_ID (sh i) = i /\ sh_Secret (sh i) = spoly f (qof i)).
  Context (PUB : forall i j, In i ids -> In j ids -> exists A, pub_Shares (pub i) !! j = Some A /\ geq A (gbmul (spoly f (qof j)))).
  Context (KEY : forall i, In i ids -> geq (pub_GroupKey (pub i)) (gbmul (spoly f f0))).
  Context (NEW : forall i, In i ids -> NewSignState (rg i) (now i) (timeout i) ids (sh i) (pub i) message = Ret (s0 i)).
  Context (NZ : forall i, In i ids -> SetScalarRandom (rg i) 0 <> f0 /\ SetScalarRandom (rg i) 1 <> f0).
  Notation W := (HW f ids message rg).
  Notation U := (HU0 f ids message rg).

  Lemma hu_built m : U m -> built m.
  Proof. intros (i & Hi & [->| ->]); pose proof (valid_in ids i Hids Hi); constructor; lia. Qed.
  Lemma sg_loop_no rcv ks : forall r r1, process_loop sign_round r rcv ks = ROk r1 tt -> sr_no r1 = sr_no r.
  Proof.
    induction ks as [|k ks IH]; intros r r1; cbn [process_loop]; [now intros [= ->]|].
    destruct (r_process sign_round r _) as [r2 u|r2 c1 t1|w] eqn:E; try discriminate. intros E2. rewrite (IH _ _ E2). clear - E.
    revert E. cbn [sign_round r_process]. destruct (sr_no r) as [|[|n]] eqn:En.
    - destruct u. intros [= <-]. exact En.
    - unfold sg1_process. destruct (default None (rcv !! k)) as [m|]; [|discriminate]. destruct (m_Sign1 m) as [b|]; [|discriminate]. cbv zeta.
      destruct (geqb _ _ || geqb _ _); [discriminate|]. destruct (sr_Parties r !! _); [|discriminate]. intros [= <- _]. cbn. exact En.
    - unfold sg2_process. destruct (default None (rcv !! k)) as [m|]; [|discriminate]. cbv zeta. destruct (sr_Parties r !! _); [|discriminate].
      destruct (m_Sign2 m) as [b|]; [|discriminate]. destruct (negb _); [discriminate|]. intros [= <- _]. cbn. exact En.
  Qed.
  Lemma sg_gen_no sched r r' l : r_generate sign_round sched r = ROk r' l -> sr_no r' = sr_no r.
  Proof.
    cbn [sign_round r_generate]. destruct (sr_no r) as [|[|n]] eqn:En.
    - unfold sg0_generate. destruct (sr_Parties r !! _); [|discriminate]. cbv zeta. intros [= <- _]. cbn. exact En.
    - unfold sg1_generate. destruct (computeRhos r); try discriminate. cbv zeta. match goal with |- context [match ?x with _ => _ end] => destruct x end; [|discriminate].
      intros [= <- _]. cbn. exact En.
    - unfold sg2_generate. cbv zeta. destruct (negb _); [discriminate|]. destruct (sr_outp r); [|discriminate]. intros [= <- _]. cbn. exact En.
  Qed.

  Lemma sign_three : exists r0, three sign_round ids U W now timeout r0 (fun i => PS W (rg i) ids (sh i) (pub i) message)
    (fun i => FS W (rg i) ids (sh i) (pub i) message) s0 MTNone MTSign1 MTSign2
    (fun i => NewSign1 i (gbmul (SetScalarRandom (rg i) 0)) (gbmul (SetScalarRandom (rg i) 1))) (fun i => [NewSign2 i (the_share f ids message rg i)]).
  Proof.
    pose proof (HU ids Hids) as Hu16. pose proof (ND ids Hids) as Hnd.
    destruct (choice_ids (fun i r => sg_NewRound (rg i) ids (sh i) (pub i) message = Ret r /\ s0 i = NewBaseState sign_round (now i) (timeout i) r) ids
       (mkSround 0 0 [] [] ∅ gid f0 f0 f0 f0 gid true None (rg 0))) as [r0 Hr0].
    { intros i Hi. destruct (NewSignState_round _ _ _ _ _ _ _ _ (NEW i Hi)) as (r & A & B). eauto. }
    assert (forall i n r out, PS W (rg i) ids (sh i) (pub i) message n r out -> (n < 3)%nat) as HP3.
    { intros i n r out (_ & _ & H). destruct n as [|[|[|n]]]; [lia|lia|lia|contradiction]. }
    assert (forall i cl, In i ids -> view_ok W (rg i) ids (sh i) cl -> own_z (rg i) ids (sh i) (pub i) message cl = the_share f ids message rg i) as Hz.
    { intros i cl Hi HV. eapply own_z_eq; eauto. eapply cl_unique; eauto. }
    exists r0. split.
    - exact (HUW f ids message rg).
    - intros i Hi. apply (Hr0 i Hi).
    - intros i Hi. destruct (Hr0 i Hi) as [Ea Eb]. destruct (new_round W _ _ _ _ _ _ Ea) as (_ & _ & _ & _ & X & _). destruct (SH i Hi) as [Hid _]. cbn [sign_round r_self r_ids]. split; [rewrite <- Hid at 2|]; apply X.
    - intros i es s out Hi HE E. destruct (Hr0 i Hi) as [Ea Eb]. rewrite Eb in E. eapply sign_run; eauto.
    - intros i sched sched' es Hi HE. destruct (Hr0 i Hi) as [Ea Eb]. rewrite Eb.
      destruct (sign_nopanic HH W (rg i) ids (sh i) (pub i) message (r0 i) Ea Hnd Hu16) with (now := now i) (t := timeout i) (es := EProcess sched sched' :: es) as (s & o & E' & _); eauto.
      + intros m Hm. now apply (hw_body f ids message rg).
      + constructor; cbn; auto.
    - exact HP3.
    - reflexivity.
    - intros i es s out Hi HE HC E. destruct (st_err s) as [err|] eqn:Er; auto. exfalso. destruct (Hr0 i Hi) as [Ea Eb].
      assert (linv sign_round W (r0 i) (PS W (rg i) ids (sh i) (pub i) message) (FS W (rg i) ids (sh i) (pub i) message) s out) as HL by (rewrite Eb in E; eapply sign_run; eauto).
      assert (st_done s = true) as D. { destruct (st_done s) eqn:D; auto. rewrite (inv_err _ s (li_inv _ _ _ _ _ _ _ HL) D) in Er. discriminate. }
      pose proof (honest_final HH t f ids Hdeg Hids Hnum message rg pub sh now timeout s0 SH PUB KEY NEW NZ i es s out Hi HE E D) as H. rewrite Er in H. destruct H as [_ H].
      destruct (run_err_source sign_round sign_round_ok es (s0 i) s out err E) as [(r1 & m & r' & c & X)|(sc & r1 & r' & c & X)]; auto.
      + rewrite Eb. apply inv_init.
      + rewrite Eb. reflexivity.
      + now apply sg_process_text in X.
      + now apply sg_generate_text in X.
    - intros i Hi. split; [exists i; auto|]. repeat split; reflexivity.
    - intros i m Hi [<-|[]]. split; [exists i; auto|]. auto.
    - intros i j Hi Hj Hne. eexists. unfold rel. cbn. rewrite (proj2 (Z.eqb_neq j i)) by congruence. reflexivity.
    - intros i r out Hi (_ & _ & _ & ->). destruct (SH i Hi) as [Hid _]. unfold own_Sign1. now rewrite Hid.
    - intros i r out Hi HP. destruct (SH i Hi) as [Hid _]. destruct (PS_out _ _ _ _ _ _ _ _ _ HP) as [->|[->|(cl & HV & ->)]].
      + destruct HP as (_ & _ & H). now destruct H as (_ & _ & H).
      + destruct HP as (_ & _ & H). now destruct H as (_ & _ & H).
      + unfold own_Sign1. rewrite (Hz i cl Hi HV), Hid. reflexivity.
    - intros i r out Hi [_ H]. destruct (SH i Hi) as [Hid _]. destruct H as (cl & zs & sg & _ & HV & _ & -> & _). unfold own_Sign1. rewrite (Hz i cl Hi HV), Hid. reflexivity.
    - intros i n r out rcv ks r1 sched r2 l (_ & En & _) Hn EL EG. apply sg_loop_no in EL. apply sg_gen_no in EG. cbn [sign_round r_next].
      destruct (sr_no r2) as [|[|]]; [discriminate|discriminate|lia].
    - intros m Hm. apply built_wire. now apply hu_built.
  Qed.
  Lemma sign_drive3 v sts : over ids sts -> (forall i, In i ids -> sts !! i = Some (Some (s0 i))) ->
    exists sts', drive3 sign_round v sts = Ret sts' /\ over ids sts' /\
      forall i, In i ids -> exists s es out, sts' !! i = Some (Some s) /\ hist sign_round W s0 i s es out /\ st_done s = true /\ st_err s = None.
  Proof. destruct sign_three as [r0 T]. eapply drive3_three; eauto. Qed.
End SignLoops.

(** * The commands *)
Section Commands.
  Context `{L : group_laws} `{Hf : hash_fn} (HH : hash_ok Hf).

  (** What a key generation for the polynomial [F] should leave: share F(i) for party i, public shares [F(i)]B, key [F(0)]B. *)
  Record dealt_keys (n t : Z) (F : Fq -> Fq) (secrets : gmap Z SecretShare) (public : Public) : Prop := {
    dk_secret : forall i, 1 <= i <= n -> exists sk, secrets !! i = Some sk /\ sh_ID sk = i /\ sh_Secret sk = F (qof i) /\ geq (sh_Public sk) (gbmul (F (qof i)));
    dk_none : forall i, ~ 1 <= i <= n -> secrets !! i = None /\ pub_Shares public !! i = None;
    dk_ids : pub_PartyIDs public = upto n;
    dk_threshold : pub_Threshold public = t;
    dk_share : forall i, 1 <= i <= n -> exists A, pub_Shares public !! i = Some A /\ geq A (gbmul (F (qof i)));
    dk_key : geq (pub_GroupKey public) (gbmul (F f0))
  }.

  Lemma upto_In n i : In i (upto n) <-> 1 <= i <= n.
  Proof.
    unfold upto. rewrite in_map_iff. split.
    - intros (k & <- & Hk). apply in_seq in Hk. lia.
    - intros H. exists (Z.to_nat i). rewrite in_seq. lia.
  Qed.
  Lemma upto_sorted n : sorted (upto n).
  Proof.
    unfold upto. generalize 1%nat. induction (Z.to_nat n) as [|k IH]; intros s; cbn; constructor; auto; [apply IH|].
    apply List.Forall_forall. intros x Hx. apply in_map_iff in Hx as (y & <- & Hy). apply in_seq in Hy. lia.
  Qed.
  Lemma upto_length n : 0 <= n -> Z.of_nat (List.length (upto n)) = n.
  Proof. intros H. unfold upto. rewrite map_length, seq_length. lia. Qed.
  Lemma upto_valid n : n < 65536 -> valid_ids (upto n).
  Proof.
    intros H. split.
    - unfold upto. apply FinFun.Injective_map_NoDup; [intros a b; lia|apply seq_NoDup].
    - apply List.Forall_forall. intros i Hi. apply upto_In in Hi. lia.
  Qed.

  (** Creating the States. *)
  Lemma states_fold {R} (mk : Z -> outcome (State R)) (s0 : Z -> State R) : forall l (acc : gmap Z (option (State R))),
    (forall i, In i l -> mk i = Ret (s0 i)) ->
    exists sts, ofold (fun (acc : gmap Z (option (State R))) id => obind (mk id) (fun s => Ret (<[id := Some s]> acc))) acc l = Ret sts /\
      (forall i, In i l -> sts !! i = Some (Some (s0 i))) /\ (forall i, ~ In i l -> sts !! i = acc !! i).
  Proof.
    induction l as [|i l IH]; intros acc H; cbn [ofold].
    - exists acc. split; auto. split; [intros i []|auto].
    - rewrite H by now left. cbn [obind]. destruct (IH (<[i := Some (s0 i)]> acc)) as (sts & E & A & B); [intros j Hj; apply H; now right|].
      exists sts. split; auto. split.
      + intros j [<-|Hj]; auto. destruct (in_dec Z.eq_dec i l) as [Hi|Hi]; auto. rewrite B by auto. apply lookup_insert.
      + intros j Hj. rewrite B by (intros X; apply Hj; now right). apply lookup_insert_ne. intros ->. apply Hj. now left.
  Qed.

  (** The keygen command succeeds for all its parameters, randomness and scheduling, with the keys of the sum of the
      parties' random polynomials. *)
  Theorem C31_keygen : forall fuel rg now v t n, 0 < t < n -> n <= 100 -> (Z.to_nat n < fuel)%nat ->
    exists secrets public, keygen_cmd fuel rg now v t n = Some (Ret (secrets, public)) /\ dealt_keys n t (shared (upto n) t rg) secrets public.
  Proof.
    intros fuel rg now v t n Ht Hn Hfuel. unfold keygen_cmd. unfold maxN.
    rewrite (proj2 (Z.ltb_ge 100 n)) by lia. rewrite (proj2 (Z.leb_gt n t)) by lia. cbn [orb].
    unfold u16. rewrite !Z.mod_small by lia. rewrite C30_set by lia.
    set (ids := upto n). pose proof (upto_sorted n) as HS. pose proof (upto_valid n ltac:(lia)) as V. pose proof (upto_length n ltac:(lia)) as Hlen. fold ids in HS, V, Hlen.
    assert (is_u16 t) as HT by (unfold is_u16; lia).
    destruct (choice_ids (fun i s => NewKeygenState (rg i) (now i) 0 i ids t = Ret s) ids
      (NewBaseState keygen_round 0 0 (mkKround 0 0 [] 0 f0 None None ∅ true (mkKOutput None None) (rg 0)))) as [s0 Hs0].
    { intros i Hi. apply C35_accepts_iff; auto. split; auto. lia. }
    destruct (states_fold (fun id => NewKeygenState (rg id) (now id) 0 id ids t) s0 ids ∅ Hs0) as (sts & E & A & B).
    rewrite E. cbn [obind]. rewrite (proj2 (Z.ltb_ge n 0)) by lia.
    assert (over ids sts) as HO. { intros i. split; [|intros Hi; rewrite A by auto; discriminate]. intros Hi. destruct (in_dec Z.eq_dec i ids) as [|Hx]; auto. rewrite B in Hi by auto. now rewrite lookup_empty in Hi. }
    destruct (keygen_drive3 ids t HS V ltac:(lia) rg now (fun _ => 0) s0 Hs0 v sts HO A) as (sts' & E3 & _ & HF). rewrite E3. cbn [obind].
    set (F := shared ids t rg).
    assert (forall i, In i ids -> exists s pub sk, wait sts' i = Ret s /\ kg_output s = mkKOutput (Some pub) (Some sk) /\
        sh_ID sk = i /\ sh_Secret sk = F (qof i) /\ geq (sh_Public sk) (gbmul (F (qof i))) /\
        pub_PartyIDs pub = ids /\ pub_Threshold pub = t /\ geq (pub_GroupKey pub) (gbmul (F f0)) /\
        (forall j, In j ids -> exists A, pub_Shares pub !! j = Some A /\ geq A (gbmul (F (qof j)))) /\
        (forall j, ~ In j ids -> pub_Shares pub !! j = None)) as HW.
    { intros i Hi. destruct (HF i Hi) as (s & es & out & Es & HH' & D & Er). exists s. destruct HH' as [Erun HE _ _].
      pose proof (khonest_final ids t V HT rg now (fun _ => 0) s0 Hs0 i es s out Hi HE Erun D) as X. rewrite Er in X. destruct X as (pub & sk & X1 & X2).
      exists pub, sk. split; [|split; auto]. unfold wait. rewrite Es, D, Er. reflexivity. }
    assert (exists l, ids = 1 :: l) as [l El]. { unfold ids, upto. destruct (Z.to_nat n) eqn:En; [lia|]. cbn. eauto. }
    rewrite El. assert (In 1 ids) as H1 by (rewrite El; now left). rewrite <- El.
    destruct (HW 1 H1) as (s & pub & sk & W1 & W2 & _ & _ & _ & W3 & W4 & W5 & W6 & W7). rewrite W1. cbn [obind]. rewrite W2. cbn [ko_Public].
    assert (forall l acc, incl l ids -> exists secrets, ofold (fun (acc : gmap Z SecretShare) id =>
              obind (wait sts' id) (fun s => match ko_SecretKey (kg_output s) with
              | Some shareSecret => match pub_Shares pub !! id with Some sharePublic => Ret (<[id := shareSecret]> acc) | None => Panics "nil pointer" end
              | None => Panics "nil pointer" end)) acc l = Ret secrets /\
       (forall i, In i l -> exists sk, secrets !! i = Some sk /\ sh_ID sk = i /\ sh_Secret sk = F (qof i) /\ geq (sh_Public sk) (gbmul (F (qof i)))) /\
       (forall i, ~ In i l -> secrets !! i = acc !! i)) as X.
    { clear l El. induction l as [|i l IH]; intros acc Hl; cbn [ofold].
      - exists acc. split; auto. split; [intros i []|auto].
      - destruct (HW i (Hl i (or_introl eq_refl))) as (si & pi & ski & Y1 & Y2 & Y3 & Y4 & Y5 & _). rewrite Y1. cbn [obind]. rewrite Y2. cbn [ko_SecretKey].
        destruct (W6 i (Hl i (or_introl eq_refl))) as (Ai & -> & _). cbn [obind].
        destruct (IH (<[i := ski]> acc)) as (secrets & Z1 & Z2 & Z3); [intros x Hx; apply Hl; now right|].
        exists secrets. split; auto. split.
        + intros j [<-|Hj]; auto. destruct (in_dec Z.eq_dec i l) as [Hi|Hi]; auto. exists ski. rewrite Z3 by auto. split; [apply lookup_insert|auto].
        + intros j Hj. rewrite Z3 by (intros Y; apply Hj; now right). apply lookup_insert_ne. intros ->. apply Hj. now left. }
    destruct (X ids ∅ ltac:(intros x; auto)) as (secrets & X1 & X2 & X3). setoid_rewrite X1. cbn [obind].
    exists secrets, pub. split; [reflexivity|]. split; auto.
    - intros i Hi. apply X2. now apply upto_In.
    - intros i Hi. assert (~ In i ids) as Hx by (intros Y; apply upto_In in Y; auto). split; [rewrite X3 by auto; apply lookup_empty|auto].
    - intros i Hi. apply W6. now apply upto_In.
  Qed.

  (** ** The file *)
  Definition reread (sk : SecretShare) : SecretShare := mkSecretShare (u16 (sh_ID sk)) (sh_Secret sk) (gbmul (sh_Secret sk)).
  Lemma reread_ok sk : share_UnmarshalJSON (share_MarshalJSON sk) = Ret (reread sk).
  Proof. unfold share_UnmarshalJSON, share_MarshalJSON. cbn [fst snd]. now rewrite scalar_canonical_bytes. Qed.
  Lemma decode_secrets_ok (secrets : gmap Z SecretShare) :
    exists m, decode_secrets ((fun sk => Some (share_MarshalJSON sk)) <$> secrets) = Ret m /\ forall i, m !! i = (fun sk => Some (reread sk)) <$> secrets !! i.
  Proof.
    unfold decode_secrets. set (m0 := (fun sk => Some (share_MarshalJSON sk)) <$> secrets).
    assert (forall l (acc : gmap Z (option SecretShare)), List.NoDup (map fst l) -> (forall kv, In kv l -> m0 !! fst kv = Some (snd kv)) -> exists m,
      ofold (fun (acc : gmap Z (option SecretShare)) kv => match snd kv with
        | None => Ret (<[fst kv := None]> acc)
        | Some j => obind (share_UnmarshalJSON j) (fun sk => Ret (<[fst kv := Some sk]> acc)) end) acc l = Ret m /\
      (forall i, In i (map fst l) -> m !! i = (fun sk => Some (reread sk)) <$> secrets !! i) /\ (forall i, ~ In i (map fst l) -> m !! i = acc !! i)) as X.
    { induction l as [|[k v] l IH]; intros acc ND H; cbn [ofold].
      - exists acc. split; auto. split; [intros i []|auto].
      - cbn [map fst] in ND. inversion ND as [|? ? Hni ND']; subst. pose proof (H (k, v) (or_introl eq_refl)) as Hk. cbn [fst snd] in *.
        unfold m0 in Hk. rewrite lookup_fmap in Hk. apply fmap_Some in Hk as (sk & Es & ->). rewrite reread_ok. cbn [obind].
        destruct (IH (<[k := Some (reread sk)]> acc) ND') as (m & E & A & B); [intros kv Hkv; apply H; now right|].
        exists m. split; auto. split.
        + cbn [map fst]. intros i [<-|Hi]; auto. rewrite B by auto. rewrite lookup_insert. setoid_rewrite Es. reflexivity.
        + cbn [map fst]. intros i Hi. rewrite B by (intros Y; apply Hi; now right). apply lookup_insert_ne. intros ->. apply Hi. now left. }
    destruct (X (map_to_list m0) ∅) as (m & E & A & B).
    { apply NoDup_ListNoDup. apply NoDup_fst_map_to_list. }
    { intros [k v] Hkv. apply elem_of_map_to_list. now apply elem_of_list_In. }
    exists m. split; [exact E|]. intros i. destruct (secrets !! i) as [sk|] eqn:Es.
    - rewrite A; [now rewrite Es|]. apply in_map_iff. exists (i, Some (share_MarshalJSON sk)). split; auto. apply elem_of_list_In. apply elem_of_map_to_list.
      unfold m0. rewrite lookup_fmap. setoid_rewrite Es. reflexivity.
    - rewrite B; [apply lookup_empty|]. intros Hi. apply in_map_iff in Hi as ([k v] & <- & Hi). apply elem_of_list_In in Hi. apply elem_of_map_to_list in Hi.
      unfold m0 in Hi. rewrite lookup_fmap in Hi. cbn [fst] in Es. setoid_rewrite Es in Hi. discriminate.
  Qed.

  (** A file holds the keys of [F] if it can be read back as such. *)
  Definition key_data (n t : Z) (F : Fq -> Fq) (secrets : gmap Z (option SecretShare)) (public : Public) : Prop :=
    (forall i, 1 <= i <= n -> exists sk, secrets !! i = Some (Some sk) /\ sh_ID sk = i /\ sh_Secret sk = F (qof i)) /\
    pub_PartyIDs public = upto n /\ pub_Threshold public = t /\ geq (pub_GroupKey public) (gbmul (F f0)) /\
    (forall i, 1 <= i <= n -> exists A, pub_Shares public !! i = Some A /\ geq A (gbmul (F (qof i)))).
  Definition key_file (n t : Z) (F : Fq -> Fq) (file : KeyGenFile) : Prop := forall sched, exists secrets public,
    kf_decode sched file = Ret (secrets, Some public) /\ key_data n t F secrets public.

  (** What keygen_cmd writes can be read back. *)
  Theorem C31_file : forall n t f secrets public, 0 <= t < n -> n < 65536 -> degree_le (Z.to_nat t) f -> dealt_keys n t (spoly f) secrets public ->
    key_file n t (spoly f) (kf_encode (secrets, public)).
  Proof.
    intros n t f secrets public Ht Hn Hf' [K1 K2 K3 K4 K5 K6] sched. unfold kf_decode, kf_encode. cbn [kf_Secrets kf_Shares fst snd].
    destruct (decode_secrets_ok secrets) as (m & -> & Hm). cbn [obind]. pose proof (upto_valid n Hn) as V. pose proof (upto_length n ltac:(lia)) as Hlen.
    assert (key_list (pub_PartyIDs public) (pub_Shares public)) as W.
    { rewrite K3. split; [apply sorted_le_lt; [apply V|apply upto_sorted]|]. intros j. rewrite upto_In. split.
      - intros Hj. destruct (K5 j Hj) as (A & EA & _). eauto.
      - intros [P EP]. destruct (Z_le_dec 1 j), (Z_le_dec j n); auto; destruct (K2 j) as [_ X]; [lia|congruence|lia|congruence|lia|congruence]. }
    assert (usable (pub_Shares public)) as Us.
    { intros j P EP. assert (In j (upto n)) as Hj by (rewrite <- K3; apply W; eauto). apply upto_In in Hj. lia. }
    pose proof (key_list_size _ _ W) as Hsz. rewrite K3 in Hsz.
    destruct (C29_json_decode sched (pub_Threshold public) (pub_GroupKey public) (pub_Shares public) Us) as (H1 & H2 & _). cbv zeta in *.
    destruct (proj2 H2) as [p' E].
    { rewrite K4. rewrite (Z.mod_small t) by lia. split; [rewrite Z.mod_small by lia; lia|]. intros ids K.
      rewrite <- (key_list_unique ids _ [] K), (key_list_unique _ _ [] W), K3, K6. symmetry.
      apply interpolated_poly; [exact V|unfold degree_le in Hf'; lia|]. intros j Hj. apply upto_In in Hj. now apply K5. }
    unfold pub_MarshalJSON. rewrite E. cbn [obind]. destruct (H1 p' E) as (Ht' & Hs' & K' & Hg & _).
    exists m, p'. split; [reflexivity|]. split.
    { intros i Hi. destruct (K1 i Hi) as (sk & Es & E1 & E2 & _). exists (reread sk). setoid_rewrite Hm. setoid_rewrite Es. split; [reflexivity|]. cbn.
      split; [rewrite E1; unfold u16; apply Z.mod_small; lia|auto]. }
    split; [rewrite <- (key_list_unique _ _ [] K'), (key_list_unique _ _ [] W); exact K3|].
    split; [rewrite Ht', K4; apply Z.mod_small; lia|]. split; [rewrite Hg; exact K6|]. rewrite Hs'. exact K5.
  Qed.

  (** ** The signer command *)
  Lemma signer_run_ok : forall edv fuel rg now v n t f secrets public message, 0 <= t < n -> n < 65535 -> (Z.to_nat n < fuel)%nat -> degree_le (Z.to_nat t) f ->
    key_data n t (spoly f) secrets public ->
    (forall i, 1 <= i <= n -> SetScalarRandom (rg i) 0 <> f0 /\ SetScalarRandom (rg i) 1 <> f0) ->
    (forall Y sig, Verify Y message sig = true -> edv (pk_ToEd25519 Y) message (sig_ToEd25519 sig) = true) ->
    exists sig, signer_run edv fuel rg now v (Ret (secrets, Some public)) message = Some (Ret sig) /\ Verify (gbmul (spoly f f0)) message sig = true /\
      geq (sig_R sig) (gbmul (the_nonce (upto n) message rg)) /\ sig_S sig = the_S f (upto n) message rg.
  Proof.
    intros edv fuel rg now v n t f secrets public message Ht Hn Hfuel Hdeg HF NZ ED. unfold signer_run.
    destruct HF as (K1 & K3 & K4 & K6 & K5). rewrite K3.
    pose proof (upto_sorted n) as HS. pose proof (upto_valid n ltac:(lia)) as V. pose proof (upto_length n ltac:(lia)) as Hlen.
    assert (N_ids (upto n) = n) as -> by (unfold N_ids, u16; rewrite Hlen; apply Z.mod_small; lia). rewrite C30_set by lia. set (ids := upto n) in *.
    destruct (choice_ids (fun i sk => secrets !! i = Some (Some sk) /\ sh_ID sk = i /\ sh_Secret sk = spoly f (qof i)) ids (mkSecretShare 0 f0 gid)) as [sh Hsh].
    { intros i Hi. apply K1. now apply upto_In. }
    destruct (choice_ids (fun i s => NewSignState (rg i) (now i) 0 ids (sh i) public message = Ret s) ids
      (NewBaseState sign_round 0 0 (mkSround 0 0 [] [] ∅ gid f0 f0 f0 f0 gid true None (rg 0)))) as [s0 Hs0].
    { intros i Hi. destruct (Hsh i Hi) as (_ & Hid & _). apply C36_accepts; auto.
      - now rewrite K3.
      - now apply valid_u16.
      - now rewrite Hid.
      - intros j Hj. rewrite K3. apply upto_In in Hj as Hj'. split; auto. split; [lia|]. destruct (K5 j Hj') as (A & EA & _). eauto. }
    assert (forall l (acc : gmap Z (option (State sround))), incl l ids -> exists sts, ofold (fun (acc : gmap Z (option (State sround))) id =>
            match secrets !! id with
            | Some (Some sk) => match NewSignState (rg id) (now id) 0 ids sk public message with
              | Ret s => Ret (<[id := Some s]> acc) | Fail _ => Ret (<[id := None]> acc) | Panics w => Panics w end
            | _ => Panics "nil SecretShare" end) acc l = Ret sts /\
        (forall i, In i l -> sts !! i = Some (Some (s0 i))) /\ (forall i, ~ In i l -> sts !! i = acc !! i)) as X.
    { induction l as [|i l IH]; intros acc Hl; cbn [ofold].
      - exists acc. split; auto. split; [intros i []|auto].
      - pose proof (Hl i (or_introl eq_refl)) as Hi. destruct (Hsh i Hi) as (-> & _). rewrite (Hs0 i Hi).
        destruct (IH (<[i := Some (s0 i)]> acc)) as (sts & Ex & A & B); [intros j Hj; apply Hl; now right|].
        exists sts. split; auto. split.
        + intros j [<-|Hj]; auto. destruct (in_dec Z.eq_dec i l) as [Hi'|Hi']; auto. rewrite B by auto. apply lookup_insert.
        + intros j Hj. rewrite B by (intros Y; apply Hj; now right). apply lookup_insert_ne. intros ->. apply Hj. now left. }
    destruct (X ids ∅ ltac:(intros x; auto)) as (sts & X1 & A & B). setoid_rewrite X1. clear X X1. cbn [obind].
    assert (over ids sts) as HO. { intros i. split; [|intros Hi; rewrite A by auto; discriminate]. intros Hi. destruct (in_dec Z.eq_dec i ids) as [|Hx]; auto. rewrite B in Hi by auto. now rewrite lookup_empty in Hi. }
    assert (forall i, In i ids -> sh_ID (sh i) = i /\ sh_Secret (sh i) = spoly f (qof i)) as SH by (intros i Hi; apply (Hsh i Hi)).
    assert (forall i j, In i ids -> In j ids -> exists A, pub_Shares public !! j = Some A /\ geq A (gbmul (spoly f (qof j)))) as PUB.
    { intros i j _ Hj. apply K5. now apply upto_In. }
    assert (forall i, In i ids -> SetScalarRandom (rg i) 0 <> f0 /\ SetScalarRandom (rg i) 1 <> f0) as NZ' by (intros i Hi; apply NZ; now apply upto_In).
    assert (Z.to_nat t + 1 <= List.length ids)%nat as Hnum by lia.
    destruct (sign_drive3 HH (Z.to_nat t) f ids HS Hdeg V Hnum message rg (fun _ => public) sh now (fun _ => 0) s0 SH PUB (fun _ _ => K6) Hs0 NZ' v sts HO A) as (sts' & E3 & _ & HFin).
    rewrite E3. cbn [obind]. assert (exists l, ids = 1 :: l) as [l El]. { unfold ids, upto. destruct (Z.to_nat n) eqn:En; [lia|]. cbn. eauto. }
    rewrite El. assert (In 1 ids) as H1 by (rewrite El; now left). destruct (HFin 1 H1) as (s & es & out & Es & [Erun HE _ _] & D & Er). setoid_rewrite Es.
    pose proof (honest_final HH (Z.to_nat t) f ids Hdeg V Hnum message rg (fun _ => public) sh now (fun _ => 0) s0 SH PUB (fun _ _ => K6) Hs0 NZ' 1 es s out H1 HE Erun D) as Y.
    rewrite Er in Y. destruct Y as (sig & -> & Y1 & Y2 & Y3).
    assert (Verify (pub_GroupKey public) message sig = true) as YV.
    { apply Verify_iff; auto. apply Verify_iff in Y3; auto. eapply schnorr_valid_proper; [|reflexivity|exact Y3]. exact K6. }
    rewrite (ED _ _ YV), YV. cbn [negb]. exists sig. rewrite <- El. auto.
  Qed.
  (** Partial: crypto/ed25519.Verify is a parameter assumed to accept what Verify accepts, and the nonces are assumed not to be 0. *)
  Theorem C31_signer_partial : forall edv fuel sched rg now v n t f file message, 0 <= t < n -> n < 65535 -> (Z.to_nat n < fuel)%nat -> degree_le (Z.to_nat t) f ->
    key_file n t (spoly f) file ->
    (forall i, 1 <= i <= n -> SetScalarRandom (rg i) 0 <> f0 /\ SetScalarRandom (rg i) 1 <> f0) ->
    (forall Y sig, Verify Y message sig = true -> edv (pk_ToEd25519 Y) message (sig_ToEd25519 sig) = true) ->
    exists sig, signer_cmd edv fuel sched rg now v file message = Some (Ret sig) /\ Verify (gbmul (spoly f f0)) message sig = true /\
      geq (sig_R sig) (gbmul (the_nonce (upto n) message rg)) /\ sig_S sig = the_S f (upto n) message rg.
  Proof.
    intros edv fuel sched rg now v n t f file message Ht Hn Hfuel Hdeg HF NZ ED. unfold signer_cmd.
    destruct (HF sched) as (secrets & public & E & K). rewrite E. eapply signer_run_ok; eauto.
  Qed.

  (** ** Both commands in a row *)
  (** Partial for the same two reasons. *)
  Theorem C31_flow_partial : forall edv fuel rg now v t n fuel' sched rg' now' v' message, 0 < t < n -> n <= 100 -> (Z.to_nat n < fuel)%nat -> (Z.to_nat n < fuel')%nat ->
    (forall i, 1 <= i <= n -> SetScalarRandom (rg' i) 0 <> f0 /\ SetScalarRandom (rg' i) 1 <> f0) ->
    (forall Y sig, Verify Y message sig = true -> edv (pk_ToEd25519 Y) message (sig_ToEd25519 sig) = true) ->
    exists secrets public sig, keygen_cmd fuel rg now v t n = Some (Ret (secrets, public)) /\
      signer_cmd edv fuel' sched rg' now' v' (kf_encode (secrets, public)) message = Some (Ret sig) /\ Verify (pub_GroupKey public) message sig = true.
  Proof.
    intros edv fuel rg now v t n fuel' sched rg' now' v' message Ht Hn F1 F2 NZ ED.
    destruct (C31_keygen fuel rg now v t n Ht Hn F1) as (secrets & public & E & K).
    destruct (C04_degree (upto n) t rg) as (g & G1 & G2).
    assert (dealt_keys n t (spoly g) secrets public) as K'.
    { destruct K as [K1 K2 K3 K4 K5 K6]. split; auto.
      - intros i Hi. destruct (K1 i Hi) as (sk & A & B & C & D). exists sk. rewrite <- G2. auto.
      - intros i Hi. rewrite <- G2. auto.
      - rewrite <- G2. auto. }
    pose proof (C31_file n t g secrets public ltac:(lia) ltac:(lia) G1 K') as HF.
    destruct (C31_signer_partial edv fuel' sched rg' now' v' n t g _ message ltac:(lia) ltac:(lia) F2 G1 HF NZ ED) as (sig & S1 & S2 & _).
    exists secrets, public, sig. split; auto. split; auto.
    apply Verify_iff; auto. apply Verify_iff in S2; auto. eapply schnorr_valid_proper; [|reflexivity|exact S2]. apply K'.
  Qed.
End Commands.

(** * What the commands do with other arguments *)
Section CommandsBad.
  Context `{L : group_laws} `{Hf : hash_fn}.

  (** The usage is printed exactly for n > 100 or t >= n (the text says n < 100 and 0 < t). *)
  Theorem C31_usage : forall fuel rg now v t n, n > 100 \/ t >= n -> keygen_cmd fuel rg now v t n = Some (Fail "usage").
  Proof.
    intros fuel rg now v t n H. unfold keygen_cmd, maxN.
    destruct (Z.ltb_spec 100 n), (Z.leb_spec n t); cbn [orb]; auto; lia.
  Qed.
  (** t = 0 is rejected, with the error of NewKeygenState. *)
  Theorem C31_zero_threshold : forall fuel rg now v n, 1 <= n <= 100 -> (Z.to_nat n < fuel)%nat -> exists e, keygen_cmd fuel rg now v 0 n = Some (Fail e).
  Proof.
    intros fuel rg now v n Hn Hfuel. unfold keygen_cmd, maxN. rewrite (proj2 (Z.ltb_ge 100 n)) by lia. rewrite (proj2 (Z.leb_gt n 0)) by lia. cbn [orb].
    unfold u16. rewrite !Z.mod_small by lia. rewrite C30_set by lia. unfold upto. destruct (Z.to_nat n) eqn:En; [lia|]. cbn [seq map ofold].
    unfold NewKeygenState, kg_NewRound. cbn [Z.eqb obind]. eauto.
  Qed.
  (** Arguments are only truncated to 16 bits: t = 1 - 65536 counts as 1. *)
  Theorem C31_threshold_wrap_refuted : forall fuel rg now v t n, 0 < t < n -> n <= 100 -> (Z.to_nat n < fuel)%nat ->
    keygen_cmd fuel rg now v (t - 65536) n = keygen_cmd fuel rg now v t n /\
    exists r, keygen_cmd fuel rg now v (t - 65536) n = Some (Ret r).
  Proof.
    intros fuel rg now v t n Ht Hn Hfuel.
    assert (keygen_cmd fuel rg now v (t - 65536) n = keygen_cmd fuel rg now v t n) as X.
    { unfold keygen_cmd, maxN. rewrite (proj2 (Z.leb_gt n t)), (proj2 (Z.leb_gt n (t - 65536))) by lia.
      assert (u16 (t - 65536) = u16 t) as ->; [|reflexivity]. unfold u16. rewrite <- (Z_mod_plus_full (t - 65536) 1 65536). f_equal. lia. }
    split; auto. rewrite X. destruct (C31_keygen fuel rg now v t n Ht Hn Hfuel) as (a & b & E & _). eauto.
  Qed.
  (** n = -1 and t < -1 pass the checks; the 16-bit n is 65535 and GenerateSet never ends. *)
  Theorem C31_negative_refuted : forall fuel rg now v t, t < -1 -> keygen_cmd fuel rg now v t (-1) = None.
  Proof.
    intros fuel rg now v t Ht. unfold keygen_cmd. change (maxN <? -1) with false. rewrite (proj2 (Z.leb_gt (-1) t)) by lia. cbn [orb].
    change (u16 (-1)) with 65535. unfold GenerateSet. now rewrite C30_slice_max_refuted.
  Qed.
  (** n = 0 and t < 0: no party, and the first one is indexed. *)
  Theorem C31_no_party_refuted : forall fuel rg now v t, t < 0 -> (0 < fuel)%nat -> keygen_cmd fuel rg now v t 0 = Some (Panics "index out of range").
  Proof.
    intros fuel rg now v t Ht Hfuel. unfold keygen_cmd. change (maxN <? 0) with false. rewrite (proj2 (Z.leb_gt 0 t)) by lia. cbn [orb].
    change (u16 0) with 0. rewrite C30_set by lia. change (upto 0) with (@nil Z). cbn [ofold obind]. change (0 <? 0) with false. cbv iota.
    assert (forall o, map_keys o (∅ : gmap Z (option (State kround))) = []) as X.
    { intros o. pose proof (map_keys_length o (∅ : gmap Z (option (State kround)))) as H. rewrite map_size_empty in H. now destruct (map_keys o ∅). }
    unfold drive3, drive. rewrite X. cbn [drive_loop obind fst snd]. rewrite X. cbn [drive_loop obind fst snd]. rewrite X. reflexivity.
  Qed.

  (** The signer assumes that the parties are 1..n: with a file for other IDs (all else being right) it crashes. *)
  Theorem C31_other_ids_refuted : forall edv fuel sched rg now v file message secrets public i,
    kf_decode sched file = Ret (secrets, Some public) -> 1 <= i <= N_ids (pub_PartyIDs public) -> N_ids (pub_PartyIDs public) < 65535 ->
    (Z.to_nat (N_ids (pub_PartyIDs public)) < fuel)%nat -> secrets !! i = None ->
    exists w, signer_cmd edv fuel sched rg now v file message = Some (Panics w).
  Proof.
    intros edv fuel sched rg now v file message secrets public i E Hi Hlt Hfuel Hno. unfold signer_cmd, signer_run. rewrite E. rewrite C30_set by lia.
    set (ids := upto (N_ids (pub_PartyIDs public))). assert (In i ids) as Hin by now apply upto_In.
    assert (forall l (acc : gmap Z (option (State sround))), In i l -> exists w, ofold (fun (acc : gmap Z (option (State sround))) id =>
            match secrets !! id with
            | Some (Some sk) => match NewSignState (rg id) (now id) 0 ids sk public message with
              | Ret s => Ret (<[id := Some s]> acc) | Fail _ => Ret (<[id := None]> acc) | Panics w => Panics w end
            | _ => Panics "nil SecretShare" end) acc l = Panics w) as X.
    { induction l as [|j l IH]; intros acc Hl; [contradiction|]. cbn [ofold]. destruct Hl as [->|Hl].
      - setoid_rewrite Hno. eauto.
      - destruct (secrets !! j) as [[sk|]|]; [|eauto|eauto]. destruct (NewSignState _ _ _ _ _ _ _); [|apply IH; auto|eauto]. apply IH; auto. }
    destruct (X ids ∅ Hin) as [w Ew]. exists w. setoid_rewrite Ew. reflexivity.
  Qed.
  (** Whatever the file: a signature is printed only if Verify accepts it, and ed25519.Verify decides nothing but whether it is printed. *)
  Theorem C31_verifier : forall edv fuel rg now v dec message,
    match signer_run (fun _ _ _ => true) fuel rg now v dec message with
    | Some (Ret sig) => exists secrets public, dec = Ret (secrets, Some public) /\ Verify (pub_GroupKey public) message sig = true /\
        signer_run edv fuel rg now v dec message =
          Some (if edv (pk_ToEd25519 (pub_GroupKey public)) message (sig_ToEd25519 sig) then Ret sig else Fail "signature verification failed (ed25519)")
    | _ => forall sig, signer_run edv fuel rg now v dec message <> Some (Ret sig)
    end.
  Proof.
    intros edv fuel rg now v dec message. unfold signer_run. destruct dec as [ [secrets [public|] ]|e|w]; try discriminate.
    destruct (GenerateSet fuel _) as [ids|]; [|discriminate].
    match goal with |- context [@obind ?A ?B ?X _] => destruct X as [states|e|w] end; cbn [obind]; try discriminate. cbv zeta.
    destruct (drive3 sign_round v states) as [states'|e|w]; cbn [obind]; try discriminate. destruct ids as [|id0 ids]; [discriminate|].
    destruct (states' !! id0) as [ [s|]|]; try discriminate. destruct (sg_output s) as [sig|]; [|discriminate]. cbn [negb].
    destruct (Verify (pub_GroupKey public) message sig) eqn:EV; cbn [negb].
    - exists secrets, public. split; [reflexivity|]. split; [exact EV|]. now destruct (edv _ _ _).
    - intros sig'. destruct (edv _ _ _); discriminate.
  Qed.
End CommandsBad.

(** A case: two parties, threshold 1, in the toy group, all three loops in decreasing order. *)
Definition toy_env : loop_env := mkLoopEnv [2; 1] (fun _ => 7) (fun _ => []) (fun _ => [2; 1]).
Example C31_example :
  match @keygen_cmd toy_group toy_hash 5 (fun i => toy_rng (i + 3)) (fun _ => 0) (fun _ => toy_env) 1 2 with
  | Some (Ret (secrets, public)) => Nat.eqb (size secrets) 2 &&
      match @signer_cmd toy_group toy_hash (fun _ _ _ => true) 5 [] (fun i => toy_rng (i + 9)) (fun _ => 0) (fun _ => toy_env) (@kf_encode toy_group (secrets, public)) [x00; x01] with
      | Some (Ret sig) => @Verify toy_group toy_hash (pub_GroupKey public) [x00; x01] sig && negb (@Verify toy_group toy_hash (pub_GroupKey public) [x00] sig)
      | _ => false end
  | _ => false end = true.
Proof. vm_compute. reflexivity. Qed.

(** signer.go does not look whether the share filed under an ID is that party's.  With 2's share filed under 1 as well (a genuine share, and the right
    public data) both States are 2's and take each other's messages for their own: nothing is refused, nothing goes on, and no signature comes out. *)
Definition two_keys := @keygen_cmd toy_group toy_hash 5 (fun i => toy_rng (i + 3)) (fun _ => 0) (fun _ => toy_env) 1 2.
Definition sign_with (sk1 sk2 : @SecretShare toy_group) public := @signer_run toy_group toy_hash (fun _ _ _ => true) 5 (fun i => toy_rng (i + 9)) (fun _ => 0) (fun _ => toy_env)
  (Ret (<[1 := Some sk1]> (<[2 := Some sk2]> ∅), Some public)) [x00; x01].
Theorem C31_wrong_owner_refuted : exists secrets public sk1 sk2,
  two_keys = Some (Ret (secrets, public)) /\ secrets !! 1 = Some sk1 /\ secrets !! 2 = Some sk2 /\ sh_ID sk1 = 1 /\ sh_ID sk2 = 2 /\
  sign_with sk2 sk2 public = Some (Fail "null signature") /\ exists sig, sign_with sk1 sk2 public = Some (Ret sig).
Proof.
  assert (match two_keys with
    | Some (Ret (secrets, public)) =>
      match secrets !! 1, secrets !! 2 with
      | Some sk1, Some sk2 => (sh_ID sk1 =? 1) && (sh_ID sk2 =? 2) &&
          match sign_with sk2 sk2 public with Some (Fail e) => String.eqb e "null signature" | _ => false end &&
          match sign_with sk1 sk2 public with Some (Ret _) => true | _ => false end
      | _, _ => false end
    | _ => false end = true) as H by (vm_compute; reflexivity).
  revert H. generalize two_keys. intros k. destruct k as [[[secrets public]|e|w]|]; try discriminate.
  destruct (secrets !! 1) as [sk1|] eqn:E1; try discriminate. destruct (secrets !! 2) as [sk2|] eqn:E2; try discriminate.
  intros H. apply andb_prop in H as [H H4]. apply andb_prop in H as [H H3]. apply andb_prop in H as [H1 H2].
  exists secrets, public, sk1, sk2. split; [reflexivity|]. split; [exact E1|]. split; [exact E2|]. split; [now apply Z.eqb_eq|]. split; [now apply Z.eqb_eq|].
  clear E1 E2 H1 H2. revert H3 H4. generalize (sign_with sk2 sk2 public), (sign_with sk1 sk2 public). intros r1 r2 H3 H4.
  destruct r1 as [[?|e|?]|]; try discriminate. apply String.eqb_eq in H3. subst e. destruct r2 as [[sig|?|?]|]; try discriminate. eauto.
Qed.

(** If a signer draws the nonce 0 (probability about 2^-252 for each), the others refuse its commitment and the command fails, although
    nobody did anything wrong.  This is why the theorems above ask for non-zero nonces. *)
Theorem C31_zero_nonce_refuted : exists rg, (forall i k, i <> 1 \/ k <> 0%nat -> rg i k = toy_rng (i + 9) k) /\
  match @keygen_cmd toy_group toy_hash 5 (fun i => toy_rng (i + 3)) (fun _ => 0) (fun _ => toy_env) 1 2 with
  | Some (Ret (secrets, public)) =>
      match @signer_cmd toy_group toy_hash (fun _ _ _ => true) 5 [] rg (fun _ => 0) (fun _ => toy_env) (@kf_encode toy_group (secrets, public)) [x00; x01] with
      | Some (Fail e) => Some e | _ => None end
  | _ => None end = Some "protocol error"%string.
Proof.
  exists (fun i k => if (i =? 1) && Nat.eqb k 0 then 0 else toy_rng (i + 9) k). split.
  - intros i k [H|H]; [now rewrite (proj2 (Z.eqb_neq i 1) H)|]. rewrite (proj2 (Nat.eqb_neq k 0) H). now rewrite andb_false_r.
  - vm_compute. reflexivity.
Qed.

(** A call of PartyRoutine that returns messages decoded every input, had every one of them accepted by HandleMessage, and is
    otherwise one ProcessAll, whose messages it returns encoded; no error is recorded. *)
Section RoutineOk.
  Context `{Gr : group_ops} `{Hf : hash_fn} {R : Type} (I : RoundI R).
  Lemma pr_handle_ok now ins : forall s s', pr_handle I now ins s = (s', Ret tt) -> exists ms, Forall2 (fun b m => msg_UnmarshalBinary zero_message b = Ret m) ins ms /\
    run I s (map (EHandle now) ms) = Ret (s', []) /\
    forall pre m post s1 o1, ms = pre ++ m :: post -> run I s (map (EHandle now) pre) = Ret (s1, o1) -> snd (HandleMessage I now s1 m) = None.
  Proof.
    induction ins as [|b ins IH]; intros s s' E; cbn [pr_handle] in E.
    - inversion E; subst. exists []. split; [constructor|]. split; [reflexivity|]. intros [|? ?] ? ? ? ? H; discriminate.
    - destruct (msg_UnmarshalBinary zero_message b) as [m| |] eqn:EU; try discriminate. destruct (HandleMessage I now s m) as [s2 [e|]] eqn:EH; [discriminate|].
      destruct (IH s2 s' E) as (ms & H1 & H2 & H3). exists (m :: ms). split; [constructor; auto|]. split.
      + cbn [map run step]. rewrite EH. cbn [obind fst snd]. rewrite H2. reflexivity.
      + intros [|x pre] m' post s1 o1 Hms Hr; cbn [app] in Hms; inversion Hms; subst.
        * cbn [map run] in Hr. inversion Hr; subst. now rewrite EH.
        * cbn [map run step] in Hr. rewrite EH in Hr. cbn [obind fst snd] in Hr. destruct (run I s2 (map (EHandle now) pre)) as [[s3 o3]| |] eqn:E3; try discriminate. cbn [obind fst snd app] in Hr.
          inversion Hr; subst. exact (H3 pre m' post s1 o1 eq_refl E3).
  Qed.
  Theorem C31_routine : forall now sched sched' ins s s' out, PartyRoutine I now sched sched' ins s = (s', Ret out) ->
    exists ms outs, Forall2 (fun b m => msg_UnmarshalBinary zero_message b = Ret m) ins ms /\
      run I s (map (EHandle now) ms ++ [EProcess sched sched']) = Ret (s', outs) /\ Forall2 (fun m b => msg_MarshalBinary m = Ret b) outs out /\
      (st_done s' = true -> st_err s' = None) /\
      forall pre m post s1 o1, ms = pre ++ m :: post -> run I s (map (EHandle now) pre) = Ret (s1, o1) -> snd (HandleMessage I now s1 m) = None.
  Proof.
    intros now sched sched' ins s s' out. unfold PartyRoutine. destruct (pr_handle I now ins s) as [s1 [[]|e|w]] eqn:EP; try discriminate.
    destruct (ProcessAll I sched sched' s1) as [[s2 outs]| |] eqn:EA; try discriminate. cbn [fst snd].
    destruct (marshal_all outs) as [bs| |] eqn:EM; try discriminate. intros E.
    destruct (pr_handle_ok now ins s s1 EP) as (ms & H1 & H2 & H3). exists ms, outs. split; [exact H1|].
    assert (s' = s2 /\ out = bs /\ (st_done s' = true -> st_err s' = None)) as (-> & -> & HD).
    { unfold IsFinished, Err in E. destruct (st_done s2) eqn:D; [destruct (st_err s2) eqn:Er; [discriminate|]|]; inversion E; subst; auto. split; auto. split; auto. congruence. }
    split; [|split; [|split; [exact HD|exact H3]]].
    - rewrite run_app, H2. cbn [obind fst snd run step]. rewrite EA. cbn [obind fst snd]. now rewrite app_nil_r.
    - clear - EM. revert bs EM. induction outs as [|m outs IH]; intros bs EM; cbn [marshal_all] in EM; [inversion EM; constructor|].
      apply obind_ret in EM as (b & E1 & EM). apply obind_ret in EM as (l & E2 & EM). apply Ret_inj in EM. subst bs. constructor; auto.
  Qed.
  (** The other results: an input that does not decode, or that HandleMessage refuses, leaves the State as that call left it (the earlier inputs
      stay handled, ProcessAll is not called); otherwise ProcessAll has run, and a message could not be encoded or the protocol has aborted.
      It panics only where ProcessAll or the encoding of an answer does. *)
  Theorem C31_routine_fails : forall now sched sched' ins s s' res, PartyRoutine I now sched sched' ins s = (s', res) -> (forall out, res <> Ret out) ->
    (exists pre b post ms s1, ins = pre ++ b :: post /\ Forall2 (fun b m => msg_UnmarshalBinary zero_message b = Ret m) pre ms /\ run I s (map (EHandle now) ms) = Ret (s1, []) /\
       ((s' = s1 /\ res = Fail "failed to unmarshal message" /\ exists e, msg_UnmarshalBinary zero_message b = Fail e) \/
        (res = Fail "failed to handle message" /\ exists m e, msg_UnmarshalBinary zero_message b = Ret m /\ HandleMessage I now s1 m = (s', Some e)))) \/
    (exists ms s1, Forall2 (fun b m => msg_UnmarshalBinary zero_message b = Ret m) ins ms /\ run I s (map (EHandle now) ms) = Ret (s1, []) /\
       ((s' = s1 /\ exists w, res = Panics w /\ ProcessAll I sched sched' s1 = Panics w) \/
        (s' = s1 /\ exists w, res = Fail w /\ ProcessAll I sched sched' s1 = Fail w) \/
        exists outs, ProcessAll I sched sched' s1 = Ret (s', outs) /\
          ((exists m w, In m outs /\ ((res = Fail w /\ msg_MarshalBinary m = Fail w) \/ (res = Panics w /\ msg_MarshalBinary m = Panics w))) \/
           (res = Fail "protocol error" /\ st_done s' = true /\ exists e, st_err s' = Some e)))).
  Proof.
    intros now sched sched' ins s s' res E HN.
    assert (forall ins s s1 (x : outcome unit), pr_handle I now ins s = (s1, x) -> x <> Ret tt ->
      exists pre b post ms s0, ins = pre ++ b :: post /\ Forall2 (fun b m => msg_UnmarshalBinary zero_message b = Ret m) pre ms /\ run I s (map (EHandle now) ms) = Ret (s0, []) /\
       ((s1 = s0 /\ x = Fail "failed to unmarshal message" /\ exists e, msg_UnmarshalBinary zero_message b = Fail e) \/
        (x = Fail "failed to handle message" /\ exists m e, msg_UnmarshalBinary zero_message b = Ret m /\ HandleMessage I now s0 m = (s1, Some e)))) as HP.
    { clear. induction ins as [|b ins IH]; intros s s1 x E HN; cbn [pr_handle] in E; [inversion E; congruence|].
      pose proof (C19_decode_never_panics zero_message b) as NP. destruct (msg_UnmarshalBinary zero_message b) as [m|e|w] eqn:EU; [|inversion E; subst|discriminate].
      - destruct (HandleMessage I now s m) as [s2 [e|]] eqn:EH.
        + inversion E; subst. exists [], b, ins, [], s. split; auto. split; [constructor|]. split; [reflexivity|]. right. eauto.
        + destruct (IH s2 s1 x E HN) as (pre & b' & post & ms & s0 & -> & H1 & H2 & H3). exists (b :: pre), b', post, (m :: ms), s0. split; auto. split; [constructor; auto|]. split; [|exact H3].
          cbn [map run step]. rewrite EH. cbn [obind fst snd]. now rewrite H2.
      - exists [], b, ins, [], s1. split; auto. split; [constructor|]. split; [reflexivity|]. left. eauto. }
    unfold PartyRoutine in E. destruct (pr_handle I now ins s) as [s1 [[]|e|w]] eqn:EP.
    - right. destruct (pr_handle_ok now ins s s1 EP) as (ms & H1 & H2 & _). exists ms, s1. split; [exact H1|]. split; [exact H2|].
      destruct (ProcessAll I sched sched' s1) as [[s2 outs]|e|w] eqn:EA; [|inversion E; subst; eauto 6|inversion E; subst; eauto 6]. right. right. cbn [fst snd] in E.
      assert (forall o, match marshal_all o with Ret _ => True | Fail w => exists m, In m o /\ msg_MarshalBinary m = Fail w | Panics w => exists m, In m o /\ msg_MarshalBinary m = Panics w end) as HM.
      { clear. induction o as [|m o IH]; cbn [marshal_all]; auto. destruct (msg_MarshalBinary m) as [b|e|w] eqn:EM; cbn [obind]; [|exists m; split; [now left|auto]|exists m; split; [now left|auto] ].
        destruct (marshal_all o) as [bs|e|w]; cbn [obind]; auto; destruct IH as (m' & A & B); exists m'; split; auto; now right. }
      specialize (HM outs). destruct (marshal_all outs) as [bs|e|w].
      + exists outs. unfold IsFinished, Err in E. destruct (st_done s2) eqn:D; [destruct (st_err s2) as [e|] eqn:Er|]; inversion E; subst; try (exfalso; eapply HN; reflexivity).
        split; [reflexivity|]. right. eauto.
      + inversion E; subst. destruct HM as (m & A & B). exists outs. split; [reflexivity|]. left. exists m, e. split; auto.
      + inversion E; subst. destruct HM as (m & A & B). exists outs. split; [reflexivity|]. left. exists m, w. split; auto.
    - left. inversion E; subst. destruct (HP _ _ _ _ EP) as (pre & b & post & ms & s0 & H1 & H2 & H3 & [ (A & B & C)|(A & B)]); [discriminate| |]; exists pre, b, post, ms, s0; (split; [exact H1|]; split; [exact H2|]; split; [exact H3|]).
      + left. inversion B. auto.
      + right. inversion A. auto.
    - destruct (HP _ _ _ _ EP) as (pre & b & post & ms & s0 & H1 & H2 & H3 & [ (A & B & C)|(A & B)]); discriminate.
  Qed.
End RoutineOk.
(** A case: the first call of a party sends its commitment; another party accepts it once but not twice. *)
Example C31_routine_example :
  match tk_new [1; 2] 1 1 0, tk_new [1; 2] 1 2 0 with
  | Ret s1, Ret s2 =>
    match @PartyRoutine toy_group tkround tkg 0 [] [] [] s1, @PartyRoutine toy_group tkround tkg 0 [] [] [] s2 with
    | (s1, Ret _), (_, Ret [b]) =>
      match @PartyRoutine toy_group tkround tkg 0 [] [] [b] s1, @PartyRoutine toy_group tkround tkg 0 [] [] [b; b] s1 with
      | (_, Ret out), (_, Fail e) => Some (List.length out, e) | _, _ => None end
    | _, _ => None end
  | _, _ => None end = Some (1%nat, "failed to handle message"%string).
Proof. vm_compute. reflexivity. Qed.

Print Assumptions C31_routine.
Print Assumptions C31_routine_fails.
Print Assumptions C31_zero_nonce_refuted.
Print Assumptions C31_flow_partial.
Print Assumptions C31_keygen.
Print Assumptions C31_signer_partial.
Print Assumptions C31_other_ids_refuted.
