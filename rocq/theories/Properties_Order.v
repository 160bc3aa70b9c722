(** C55: the order in which Go iterates over maps does not influence the outcome. *)
From Coq Require Import ZArith Lia List Bool String Permutation Sorted Ring Setoid Morphisms.
From Coq.Strings Require Import Byte.
From stdpp Require Import base gmap list fin_maps.
From Verif Require Import ZField Primes Bytes Scalar Go Group ToyGroup Party Poly PolyFacts Zk Eddsa Messages State StateFacts Spec_State
  Keygen Sign RoundFacts Lift Spec_Poly PolyAlg Spec_Group Spec_Wire Spec_Sign Spec_SignRun Spec_Keygen SignFacts SignRun KeygenFacts KeygenRun
  Properties_Algebra Properties_Codec Properties_Sign Properties_Keygen ToyRuns.
Import ListNotations.
Local Open Scope Z_scope.

(** The same call, but the run time may iterate over maps in another order. *)
Definition same_call `{Gr : group_ops} (e e' : event) : Prop :=
  match e, e' with
  | EProcess _ _, EProcess _ _ => True
  | _, _ => e = e'
  end.
(** Errors that agree in round and text; the culprit is one of possibly several. *)
Definition same_error (e e' : option PError) : Prop :=
  match e, e' with
  | None, None => True
  | Some x, Some y => pe_RoundNumber x = pe_RoundNumber y /\ pe_text x = pe_text y
  | _, _ => False
  end.

Section Order.
  Context `{Gr : group_ops} {R : Type} (I : RoundI R) (rsim osim : R -> R -> Prop).
  Context (Hself : forall r r', rsim r r' -> r_self I r = r_self I r' /\ r_ids I r = r_ids I r').
  Context (Hro : forall r r', rsim r r' -> osim r r').
  Context (Hloop : forall r r' rcv ks ks', rsim r r' -> from_ok rcv -> Permutation ks ks' -> List.NoDup ks ->
    match process_loop I r rcv ks, process_loop I r' rcv ks' with
    | ROk r1 _, ROk r1' _ => rsim r1 r1'
    | RErr r1 _ t, RErr r1' _ t' => t = t' /\ osim r1 r1'
    | RPanic _, RPanic _ | RPanic _, RErr _ _ _ | RErr _ _ _, RPanic _ => True
    | _, _ => False
    end).
  Context (Hgen : forall r r' o o', rsim r r' ->
    match r_generate I o r, r_generate I o' r' with
    | ROk r1 m, ROk r1' m' => rsim r1 r1' /\ m = m'
    | RErr r1 c t, RErr r1' c' t' => t = t' /\ osim r1 r1'
    | RPanic _, RPanic _ => True
    | _, _ => False
    end).
  Context (Hnext : forall r r', rsim r r' -> match r_next I r, r_next I r' with Some a, Some a' => rsim a a' | None, None => True | _, _ => False end).
  Context (Hreset : forall r r', osim r r' -> match r_reset I r, r_reset I r' with Ret a, Ret a' => osim a a' | Panics _, Panics _ => True | _, _ => False end).

  Record sim (s s' : State R) : Prop := {
    sim_acc : st_accepted s = st_accepted s'; sim_rcv : st_received s = st_received s'; sim_q : st_queue s = st_queue s';
    sim_tm : st_timer s = st_timer s'; sim_no : st_roundNumber s = st_roundNumber s'; sim_cl : st_closed s = st_closed s';
    sim_done : st_done s = st_done s'; sim_err : same_error (st_err s) (st_err s');
    sim_round : if st_done s then osim (st_round s) (st_round s') else rsim (st_round s) (st_round s');
    sim_from : from_ok (st_received s);
  }.

  Lemma from_ok_empty : from_ok ∅.
  Proof. intros k m. rewrite lookup_empty. discriminate. Qed.
  Lemma from_ok_insert rcv m : from_ok rcv -> from_ok (<[m_From m := Some m]> rcv).
  Proof. intros H k x. destruct (Z.eq_dec k (m_From m)) as [->|Hne]; [rewrite lookup_insert; congruence|rewrite lookup_insert_ne by congruence; apply H]. Qed.
  Lemma from_ok_take ct q : forall rcv, from_ok rcv -> from_ok (fst (take_queue ct q rcv)).
  Proof.
    unfold take_queue. cbn [fst]. induction q as [|m q IH]; intros rcv H; cbn [fold_left]; auto. apply IH. destruct (_ =? _); auto. now apply from_ok_insert.
  Qed.

  Lemma sim_handle now s s' m : sim s s' -> sim (fst (HandleMessage I now s m)) (fst (HandleMessage I now s' m)).
  Proof.
    intros H. pose proof H as [A1 A2 A3 A4 A5 A6 A7 A8 A9 A10]. unfold HandleMessage. cbv zeta. rewrite <- A7.
    destruct (st_done s) eqn:D; [exact H|]. pose proof (Hself _ _ A9) as [S1 S2]. rewrite <- S1, <- S2, <- A1, <- A2.
    assert (isAcceptedType s (m_Type m) = isAcceptedType s' (m_Type m)) as <- by (unfold isAcceptedType; now rewrite A1).
    destruct (st_accepted s) as [|ct tl] eqn:EA; [exact H|]. destruct (_ =? _); [exact H|]. destruct (_ && _); [exact H|]. destruct (negb _); [exact H|].
    destruct (st_received s !! m_From m); [exact H|].
    destruct (negb _); [exact H|]. rewrite <- A3, <- A4. destruct (_ =? _); cbn [fst]; split; cbn [st_accepted st_received st_queue st_timer st_roundNumber st_closed st_done st_err st_round]; auto; try (rewrite D; auto).
    now apply from_ok_insert.
  Qed.

  Definition frel (x y : outcome (State R)) : Prop := match x, y with Ret t, Ret t' => sim t t' | Panics _, Panics _ => True | _, _ => False end.
  (** Two executions of the same calls: both return related results, or both panic, or one panics where the other reports an error. *)
  Definition orel (x y : outcome (State R * list Message)) : Prop :=
    match x, y with
    | Ret (t, m), Ret (t', m') => sim t t' /\ m = m'
    | Ret (t, _), Panics _ | Panics _, Ret (t, _) => st_err t <> None
    | Panics _, Panics _ => True
    | _, _ => False
    end.
  Ltac proj := cbn [st_accepted st_received st_queue st_timer st_roundNumber st_closed st_done st_err st_round set_round].

  (** The rounds need only have the same output when the protocol ends. *)
  Lemma sim_finish s s' : st_accepted s = st_accepted s' -> st_received s = st_received s' -> st_queue s = st_queue s' -> st_timer s = st_timer s' ->
    st_roundNumber s = st_roundNumber s' -> st_closed s = st_closed s' -> st_done s = false -> st_done s' = false -> same_error (st_err s) (st_err s') ->
    osim (st_round s) (st_round s') -> from_ok (st_received s) -> frel (finish I s) (finish I s').
  Proof.
    intros A1 A2 A3 A4 A5 A6 A7 A7' A8 A9 A10. unfold finish. rewrite A7, A7', <- A6. pose proof (Hreset _ _ A9) as HR.
    destruct (r_reset I (st_round s)) as [a|x|x], (r_reset I (st_round s')) as [a'|y|y]; try contradiction; cbn [obind]; [|exact Logic.I].
    destruct (st_closed s); [|exact Logic.I]. cbn [frel]. split; proj; auto. now rewrite A4.
  Qed.
  Lemma sim_report s s' c c' tx : st_accepted s = st_accepted s' -> st_received s = st_received s' -> st_queue s = st_queue s' -> st_timer s = st_timer s' ->
    st_roundNumber s = st_roundNumber s' -> st_closed s = st_closed s' -> st_done s = false -> st_done s' = false -> same_error (st_err s) (st_err s') ->
    osim (st_round s) (st_round s') -> from_ok (st_received s) -> frel (reportError I s c tx) (reportError I s' c' tx).
  Proof.
    intros A1 A2 A3 A4 A5 A6 A7 A7' A8 A9 A10. unfold reportError. rewrite A7, A7'. apply sim_finish; proj; auto.
    destruct (st_err s), (st_err s'); cbn in *; auto; contradiction.
  Qed.
  Lemma finish_err s t : finish I s = Ret t -> st_err t = st_err s.
  Proof.
    unfold finish. destruct (st_done s); [now intros [= <-]|]. intros E. apply obind_ret in E as (r & _ & E). destruct (st_closed s); [|discriminate]. apply Ret_inj in E. now subst.
  Qed.
  Lemma report_err s c tx t : st_done s = false -> reportError I s c tx = Ret t -> st_err t <> None.
  Proof. unfold reportError. intros -> E. rewrite (finish_err _ _ E). proj. destruct (st_err s); discriminate. Qed.
  Lemma report_keeps s c tx t : st_err s <> None -> reportError I s c tx = Ret t -> st_err t <> None.
  Proof.
    unfold reportError. intros H. destruct (st_done s); [intros E; apply Ret_inj in E; now subst|]. intros E. rewrite (finish_err _ _ E). proj. destruct (st_err s); [discriminate|]. now contradict H.
  Qed.
  Lemma report_noFail s c tx x : (forall r w, r_reset I r <> Fail w) -> reportError I s c tx <> Fail x.
  Proof.
    intros HF. unfold reportError, finish. proj. destruct (st_done s) eqn:D; [discriminate|]. proj.
    destruct (r_reset I (st_round s)) eqn:E; cbn [obind]; [destruct (st_closed s); discriminate| |discriminate]. now apply HF in E.
  Qed.
  Lemma err_keeps s e t m : st_err s <> None -> step I s e = Ret (t, m) -> st_err t <> None.
  Proof.
    intros H E. destruct e as [now x|o1 o2|now|]; cbn [step] in E.
    - apply Ret_inj in E. inversion E; subst. unfold HandleMessage. cbv zeta. destruct (st_done s); [exact H|]. destruct (st_accepted s); [exact H|].
      repeat match goal with |- context [if ?b then _ else _] => destruct b; try exact H | |- context [match ?b with Some _ => _ | None => _ end] => destruct b; try exact H end.
    - unfold ProcessAll in E. destruct (st_done s); [apply Ret_inj in E; inversion E; now subst|]. destruct (negb _); [apply Ret_inj in E; inversion E; now subst|].
      destruct (process_loop I _ _ _) as [r1 u|r1 c tx|w]; [| |discriminate].
      2:{ apply obind_ret in E as (x & E1 & E). apply Ret_inj in E. inversion E; subst. apply report_keeps in E1; auto. }
      destruct (r_generate I o2 r1) as [r2 ms|r2 c tx|w]; [| |discriminate].
      2:{ apply obind_ret in E as (x & E1 & E). apply Ret_inj in E. inversion E; subst. apply report_keeps in E1; auto. }
      destruct (st_accepted s); [discriminate|]. destruct (match _ with [] => _ | _ => _ end). destruct (r_next I r2).
      + apply Ret_inj in E. inversion E; subst. exact H.
      + apply obind_ret in E as (x & E1 & E). apply Ret_inj in E. inversion E; subst. apply finish_err in E1. now rewrite E1.
    - apply Ret_inj in E. inversion E; subst. unfold timerExpire. destruct (tm_deadline _); [destruct (_ <=? _)|]; exact H.
    - apply obind_ret in E as (x & E1 & E). apply Ret_inj in E. inversion E; subst. unfold timerCallback in E1. destruct (tm_pending _); [apply Ret_inj in E1; now subst|].
      apply report_keeps in E1; auto.
  Qed.
  Context (Hnofail : forall r w, r_reset I r <> Fail w).
  Lemma err_keeps_run es : forall s t m, st_err s <> None -> run I s es = Ret (t, m) -> st_err t <> None.
  Proof.
    induction es as [|e es IH]; intros s t m H E; cbn [run] in E; [apply Ret_inj in E; inversion E; now subst|].
    apply obind_ret in E as ([x mx] & E1 & E). apply obind_ret in E as ([x2 mx2] & E2 & E). apply Ret_inj in E. cbn [fst snd] in *. inversion E; subst.
    eapply IH; [|exact E2]. eapply err_keeps; eauto.
  Qed.

  Lemma run_noFail : forall s es w, run I s es <> Fail w.
  Proof.
    assert (forall s e w, step I s e <> Fail w) as HS.
    { intros s e w E. destruct e as [now x|o1 o2|now|]; cbn [step] in E; try discriminate.
      - unfold ProcessAll in E. destruct (st_done s); [discriminate|]. destruct (negb _); [discriminate|].
        destruct (process_loop I _ _ _) as [r1 u|r1 c tx|?]; [| |discriminate].
        2:{ destruct (reportError I _ c tx) eqn:E1; cbn [obind] in E; try discriminate. now apply report_noFail in E1. }
        destruct (r_generate I o2 r1) as [r2 ms|r2 c tx|?]; [| |discriminate].
        2:{ destruct (reportError I _ c tx) eqn:E1; cbn [obind] in E; try discriminate. now apply report_noFail in E1. }
        destruct (st_accepted s); [discriminate|]. destruct (match _ with [] => _ | _ => _ end). destruct (r_next I r2); [discriminate|].
        destruct (finish I _) eqn:E1; cbn [obind] in E; try discriminate. revert E1. unfold finish. proj.
        destruct (r_reset I r2) eqn:E2; cbn [obind]; [destruct (st_closed s); discriminate| |discriminate]. now apply Hnofail in E2.
      - destruct (timerCallback I s) eqn:E1; cbn [obind] in E; try discriminate. unfold timerCallback in E1. destruct (tm_pending _); [discriminate|]. now apply report_noFail in E1. }
    intros s es. revert s. induction es as [|e es IH]; intros s w; cbn [run]; [discriminate|].
    destruct (step I s e) as [[t m]|x|x] eqn:E; cbn [obind fst snd]; [|now apply HS in E|discriminate].
    destruct (run I t es) as [[t2 m2]|y|y] eqn:E2; cbn [obind fst snd]; try discriminate. now apply IH in E2.
  Qed.

  Lemma sim_process s s' o1 o2 o1' o2' : sim s s' -> orel (ProcessAll I o1 o2 s) (ProcessAll I o1' o2' s').
  Proof.
    intros H. pose proof H as [A1 A2 A3 A4 A5 A6 A7 A8 A9 A10]. unfold ProcessAll. rewrite <- A7. destruct (st_done s) eqn:D; [cbn; auto|].
    pose proof (Hself _ _ A9) as [S1 S2]. rewrite <- S2, <- A2. destruct (negb _); [cbn; auto|].
    pose proof (Hloop _ _ (st_received s) (map_keys o1 (st_received s)) (map_keys o1' (st_received s)) A9 A10) as HL.
    specialize (HL (Permutation_trans (map_keys_perm o1 (st_received s)) (Permutation_sym (map_keys_perm o1' (st_received s)))) (map_keys_NoDup _ _)).
    destruct (process_loop I (st_round s) _ _) as [r1 u|r1 c tx|w]; destruct (process_loop I (st_round s') _ _) as [r1' u'|r1' c' tx'|w']; try contradiction; try exact Logic.I.
    2:{ destruct HL as [<- HO]. assert (frel (reportError I (set_round s r1) c tx) (reportError I (set_round s' r1') c' tx)) as HF by (apply sim_report; proj; auto; congruence).
        destruct (reportError I (set_round s r1) c tx), (reportError I (set_round s' r1') c' tx); cbn [frel] in HF; try contradiction; cbn [obind orel]; auto. }
    2:{ destruct (reportError I (set_round s r1) c tx) eqn:E; cbn [obind orel]; auto; [eapply report_err; [|exact E]; proj; auto|]. now apply report_noFail in E. }
    2:{ destruct (reportError I (set_round s' r1') c' tx') eqn:E; cbn [obind orel]; auto; [eapply report_err; [|exact E]; proj; congruence|]. now apply report_noFail in E. }
    pose proof (Hgen r1 r1' o2 o2' HL) as HG. destruct (r_generate I o2 r1) as [r2 ms|r2 c tx|w]; destruct (r_generate I o2' r1') as [r2' ms'|r2' c' tx'|w']; try contradiction; try exact Logic.I.
    2:{ destruct HG as [<- HO]. match goal with |- orel (obind ?a _) (obind ?b _) => assert (frel a b) as HF end.
        { apply sim_report; proj; auto; try congruence. apply from_ok_empty. }
        destruct (reportError I _ c tx), (reportError I _ c' tx); cbn [frel] in HF; try contradiction; cbn [obind orel]; auto. }
    destruct HG as [HG <-]. rewrite <- A1. destruct (st_accepted s) as [|a acc]; [exact Logic.I|]. rewrite <- A3.
    assert (from_ok (fst (match acc with [] => (∅, st_queue s) | ct :: _ => take_queue ct (st_queue s) ∅ end))) as HF.
    { destruct acc; [apply from_ok_empty|]. apply from_ok_take, from_ok_empty. }
    destruct (match acc with [] => _ | _ => _ end) as [rc qu]. cbn [fst] in HF. pose proof (Hnext _ _ HG) as HN.
    destruct (r_next I r2) as [nr|]; destruct (r_next I r2') as [nr'|]; try contradiction.
    - cbn [orel]. split; auto. split; proj; auto; now rewrite A5.
    - match goal with |- orel (obind ?a _) (obind ?b _) => assert (frel a b) as HX end.
      { apply sim_finish; proj; auto; congruence. }
      destruct (finish I _), (finish I _); cbn [frel] in HX; try contradiction; cbn [obind orel]; auto.
  Qed.

  Lemma sim_step s s' e e' : sim s s' -> same_call e e' -> orel (step I s e) (step I s' e').
  Proof.
    intros H HC. destruct e as [now x|o1 o2|now|], e' as [now' x'|o1' o2'|now'|]; cbn [same_call] in HC; try discriminate HC; cbn [step].
    - inversion HC; subst. cbn [orel]. split; auto. now apply sim_handle.
    - apply sim_process. exact H.
    - inversion HC; subst. cbn [orel]. split; auto.
      pose proof H as [A1 A2 A3 A4 A5 A6 A7 A8 A9 A10]. unfold timerExpire. rewrite <- A4. destruct (tm_deadline (st_timer s)); [|exact H]. destruct (_ <=? _); [|exact H].
      split; proj; auto.
    - match goal with |- orel (obind ?a _) (obind ?b _) => assert (frel a b) as HX end.
      { pose proof H as [A1 A2 A3 A4 A5 A6 A7 A8 A9 A10]. unfold timerCallback. rewrite <- A4. destruct (tm_pending (st_timer s)) as [|k]; [exact H|].
        destruct (st_done s) eqn:D.
        + unfold reportError. proj. rewrite <- A7. cbn [frel]. split; proj; auto; try congruence.
        + apply sim_report; proj; auto. }
      destruct (timerCallback I s), (timerCallback I s'); cbn [frel] in HX; try contradiction; cbn [obind orel]; auto.
  Qed.

  Lemma sim_run es : forall es' s s', sim s s' -> Forall2 same_call es es' -> orel (run I s es) (run I s' es').
  Proof.
    induction es as [|e es IH]; intros es' s s' H HC; inversion HC; subst; cbn [run]; [cbn; auto|].
    match goal with H2 : same_call _ _ |- _ => pose proof (sim_step _ _ _ _ H H2) as X end.
    assert (forall s0 l0 w, run I s0 l0 <> Fail w) as NF by (apply run_noFail).
    destruct (step I s e) as [[t m]|w|w] eqn:E1; destruct (step I s' y) as [[t' m']|w'|w'] eqn:E2; cbn [orel] in X; try contradiction; cbn [obind fst snd]; auto.
    - destruct X as [X <-]. match goal with H2 : Forall2 same_call _ _ |- _ => specialize (IH _ _ _ X H2) end.
      destruct (run I t es) as [[t2 m2]|w|w]; destruct (run I t' l') as [[t2' m2']|w'|w']; cbn [orel] in IH; try contradiction; cbn [obind fst snd orel]; auto. destruct IH as [? <-]. auto.
    - destruct (run I t es) as [[t2 m2]|w|w] eqn:E3; cbn [obind fst snd orel]; auto; [eapply err_keeps_run; eauto|]. now apply NF in E3.
    - destruct (run I t' l') as [[t2 m2]|?|?] eqn:E3; cbn [obind fst snd orel]; auto; [eapply err_keeps_run; eauto|]. now apply NF in E3.
  Qed.
  Lemma sim_init now t r : rsim r r -> sim (NewBaseState I now t r) (NewBaseState I now t r).
  Proof.
    intros H. split; cbn [NewBaseState st_accepted st_received st_queue st_timer st_roundNumber st_closed st_done st_err st_round same_error]; auto.
    intros k m. rewrite init_received_lookup. destruct (existsb _ _); [discriminate|]. rewrite lookup_empty. discriminate.
  Qed.
End Order.

(** ** Signing *)
Definition same_signature `{Gr : group_ops} (x y : option Signature) : Prop :=
  match x, y with None, None => True | Some a, Some b => geq (sig_R a) (sig_R b) /\ sig_S a = sig_S b | _, _ => False end.

Section SignOrder.
  Context `{Gr : group_ops} `{L : !group_laws Gr} `{Hf : hash_fn}.
  Definition set_Ro (r : sround) (X : G) (o : option Signature) : sround :=
    mkSround (sr_no r) (sr_self r) (sr_ids r) (sr_Message r) (sr_Parties r) (sr_GroupKey r) (sr_SecretKeyShare r)
      (sr_e r) (sr_d r) (sr_C r) X (sr_outp r) o (sr_rng r).
  Definition ssim (r r' : sround) : Prop := exists X o, r' = set_Ro r X o /\ geq (sr_R r) X /\ same_signature (sr_out r) o /\ (sr_no r <= 2)%nat.
  Definition sosim (r r' : sround) : Prop := same_signature (sr_out r) (sr_out r').

  Lemma same_signature_refl o : same_signature o o.
  Proof. destruct o; cbn; auto. split; reflexivity. Qed.
  Lemma challenge_R R R' Y m : geq R R' -> ComputeChallenge R Y m = ComputeChallenge R' Y m.
  Proof. intros H. unfold ComputeChallenge, challenge_input. now rewrite H. Qed.
  Lemma Verify_R Y m R R' z : geq R R' -> Verify Y m (mkSig R z) = Verify Y m (mkSig R' z).
  Proof. intros H. unfold Verify. cbn [sig_R sig_S]. rewrite (challenge_R _ _ _ _ H). now rewrite H. Qed.
  Lemma sum_R_order ps o o' : geq (sum_R ps (map_keys o ps)) (sum_R ps (map_keys o' ps)).
  Proof.
    rewrite !sum_R_Gsum by (intros i Hi; now apply map_keys_In in Hi). apply Gsum_perm, Permutation_map.
    etransitivity; [apply map_keys_perm|symmetry; apply map_keys_perm].
  Qed.
  Lemma sum_Z_order ps o o' : sum_Z ps (map_keys o ps) = sum_Z ps (map_keys o' ps).
  Proof.
    rewrite !sum_Z_Fsum by (intros i Hi; now apply map_keys_In in Hi). apply Fsum_perm, Permutation_map.
    etransitivity; [apply map_keys_perm|symmetry; apply map_keys_perm].
  Qed.
  Lemma parties_ext (A B P : gmap Z signer) ks ks' : Permutation ks ks' ->
    (forall k, ~ In k ks -> A !! k = P !! k) -> (forall k, ~ In k ks' -> B !! k = P !! k) -> (forall k, In k ks -> A !! k = B !! k) -> A = B.
  Proof.
    intros HP H1 H2 H3. apply map_eq. intros k. destruct (in_dec Z.eq_dec k ks) as [H|H]; [now apply H3|].
    rewrite H1, H2; auto. intros X. apply H. eapply Permutation_in; [symmetry; exact HP|exact X].
  Qed.

  Lemma sign_loop r r' rcv ks ks' : ssim r r' -> from_ok rcv -> Permutation ks ks' -> List.NoDup ks ->
    match process_loop sign_round r rcv ks, process_loop sign_round r' rcv ks' with
    | ROk r1 _, ROk r1' _ => ssim r1 r1'
    | RErr r1 _ t, RErr r1' _ t' => t = t' /\ sosim r1 r1'
    | RPanic _, RPanic _ | RPanic _, RErr _ _ _ | RErr _ _ _, RPanic _ => True
    | _, _ => False
    end.
  Proof.
    intros (X & o & -> & HX & Ho & Hle) HF HP ND. assert (List.NoDup ks') as ND' by (eapply Permutation_NoDup; eauto).
    assert (forall k, In k ks' -> In k ks) as Hin' by (intros k; apply Permutation_in; now symmetry).
    assert (forall k, In k ks -> In k ks') as Hin by (intros k; apply Permutation_in; auto).
    destruct (sr_no r) as [|[|n]] eqn:Hno.
    - rewrite !sg0_loop by auto. exists X, o. rewrite Hno. auto.
    - pose proof (sg1_loop rcv HF ks r ND Hno) as A. pose proof (sg1_loop rcv HF ks' (set_Ro r X o) ND' Hno) as B. cbn [set_Ro sr_Parties] in B.
      destruct (process_loop sign_round r rcv ks) as [r1 u|r1 c t|w]; destruct (process_loop sign_round (set_Ro r X o) rcv ks') as [r1' u'|r1' c' t'|w']; auto.
      + destruct A as (A1 & A2 & A3), B as (B1 & B2 & B3). assert (sr_Parties r1 = sr_Parties r1') as EP.
        { eapply parties_ext; eauto. intros k Hk. destruct (A3 k Hk) as (m & b & p & E1 & E2 & _ & _ & E3 & ->). destruct (B3 k (Hin k Hk)) as (m' & b' & p' & F1 & F2 & _ & _ & F3 & ->). congruence. }
        rewrite A1, B1, EP. exists X, o. split; [reflexivity|]. cbn [sg_set_parties sr_no sr_R sr_out]. rewrite Hno. auto.
      + destruct A as (A1 & A2 & A3), B as (B1 & B2 & B3 & m & b & E1 & E2 & E3). destruct (A3 c' (Hin' _ B3)) as (m' & b' & p & F1 & F2 & F3 & F4 & _).
        assert (b = b') as -> by congruence. rewrite F3, F4 in E3. discriminate.
      + destruct A as (A1 & A2 & A3), B as (k & Hk & B). destruct (A3 k (Hin' _ Hk)) as (m' & b' & p & F1 & F2 & F3 & F4 & F5 & _). rewrite F1 in B. cbn in B. destruct B; congruence.
      + destruct A as (A1 & A2 & A3 & m & b & E1 & E2 & E3), B as (B1 & B2 & B3). destruct (B3 c (Hin _ A3)) as (m' & b' & p & F1 & F2 & F3 & F4 & _).
        assert (b = b') as -> by congruence. rewrite F3, F4 in E3. discriminate.
      + destruct A as (A1 & A2 & _), B as (B1 & B2 & _). split; [congruence|]. unfold sosim. rewrite A1, B1. exact Ho.
      + destruct B as (A1 & A2 & A3), A as (k & Hk & B). destruct (A3 k (Hin _ Hk)) as (m' & b' & p & F1 & F2 & F3 & F4 & F5 & _). rewrite F1 in B. cbn in B. destruct B; congruence.
    - assert (sr_no r = 2%nat) as Hn by lia.
      pose proof (sg2_loop rcv HF ks r ND Hn) as A. pose proof (sg2_loop rcv HF ks' (set_Ro r X o) ND' Hn) as B. cbn [set_Ro sr_Parties sr_C] in B.
      destruct (process_loop sign_round r rcv ks) as [r1 u|r1 c t|w]; destruct (process_loop sign_round (set_Ro r X o) rcv ks') as [r1' u'|r1' c' t'|w']; auto.
      + destruct A as (A1 & A2 & A3), B as (B1 & B2 & B3). assert (sr_Parties r1 = sr_Parties r1') as EP.
        { eapply parties_ext; eauto. intros k Hk. destruct (A3 k Hk) as (m & b & p & E1 & E2 & E3 & _ & ->). destruct (B3 k (Hin k Hk)) as (m' & b' & p' & F1 & F2 & F3 & _ & ->). congruence. }
        rewrite A1, B1, EP. exists X, o. split; [reflexivity|]. cbn [sg_set_parties sr_no sr_R sr_out]. rewrite Hno. auto.
      + destruct A as (A1 & A2 & A3), B as (B1 & B2 & B3 & m & b & p & E1 & E2 & E3 & E4). destruct (A3 c' (Hin' _ B3)) as (m' & b' & p' & F1 & F2 & F3 & F4 & _).
        assert (b = b') as -> by congruence. congruence.
      + destruct A as (A1 & A2 & A3), B as (k & Hk & B). destruct (A3 k (Hin' _ Hk)) as (m' & b' & p & F1 & F2 & F3 & F4 & F5). rewrite F1 in B. cbn in B. destruct B; congruence.
      + destruct A as (A1 & A2 & A3 & m & b & p & E1 & E2 & E3 & E4), B as (B1 & B2 & B3). destruct (B3 c (Hin _ A3)) as (m' & b' & p' & F1 & F2 & F3 & F4 & _).
        assert (b = b') as -> by congruence. congruence.
      + destruct A as (A1 & A2 & _), B as (B1 & B2 & _). split; [congruence|]. unfold sosim. rewrite A1, B1. exact Ho.
      + destruct B as (A1 & A2 & A3), A as (k & Hk & B). destruct (A3 k (Hin _ Hk)) as (m' & b' & p & F1 & F2 & F3 & F4 & F5). rewrite F1 in B. cbn in B. destruct B; congruence.
  Qed.
  Lemma sign_gen r r' o o' : ssim r r' ->
    match r_generate sign_round o r, r_generate sign_round o' r' with
    | ROk r1 m, ROk r1' m' => ssim r1 r1' /\ m = m'
    | RErr r1 c t, RErr r1' c' t' => t = t' /\ sosim r1 r1'
    | RPanic _, RPanic _ => True
    | _, _ => False
    end.
  Proof.
    intros (X & u & -> & HX & Ho & Hle). cbn [sign_round r_generate]. cbn [set_Ro sr_no]. destruct (sr_no r) as [|[|n]] eqn:Hno.
    - unfold sg0_generate. cbn [set_Ro sr_Parties sr_self sr_rng]. destruct (sr_Parties r !! sr_self r) as [p|]; [|exact Logic.I]. split; [|reflexivity].
      exists X, u. split; [reflexivity|]. cbn [sr_R sr_out sr_no]. rewrite Hno. auto.
    - unfold sg1_generate. change (computeRhos (set_Ro r X u)) with (computeRhos r). destruct (computeRhos r) as [ps|?|?]; try exact Logic.I.
      cbn [set_Ro sr_Parties sr_self sr_rng sr_GroupKey sr_Message sr_SecretKeyShare sr_e sr_d sr_no sr_ids sr_C sr_R sr_out sr_outp].
      destruct ((set_Ri <$> ps) !! sr_self r) as [p|]; [|exact Logic.I]. pose proof (sum_R_order (set_Ri <$> ps) o o') as HS.
      rewrite (challenge_R _ _ (sr_GroupKey r) (sr_Message r) HS). split; [|reflexivity].
      eexists _, u. split; [reflexivity|]. cbn [sr_R sr_out sr_no]. rewrite Hno. auto.
    - unfold sg2_generate. cbn [set_Ro sr_Parties sr_self sr_rng sr_GroupKey sr_Message sr_SecretKeyShare sr_e sr_d sr_no sr_ids sr_C sr_R sr_out sr_outp].
      rewrite (sum_Z_order (sr_Parties r) o o'), (Verify_R _ _ _ _ _ HX). destruct (negb _); [split; [reflexivity|exact Ho]|].
      destruct (sr_outp r); [|exact Logic.I]. split; [|reflexivity]. eexists _, _. split; [reflexivity|]. cbn [sr_R sr_out sr_no same_signature sig_R sig_S]. rewrite Hno. auto.
  Qed.

  (** The outcomes of two executions of the same calls. *)
  Definition sign_same (x y : outcome (State sround * list Message)) : Prop :=
    match x, y with
    | Ret (s, out), Ret (s', out') => out = out' /\ IsFinished s = IsFinished s' /\ same_error (Err s) (Err s') /\ same_signature (sg_output s) (sg_output s') /\
        st_roundNumber s = st_roundNumber s' /\ st_received s = st_received s' /\ st_queue s = st_queue s' /\ st_timer s = st_timer s' /\ st_accepted s = st_accepted s'
    | Ret (s, _), Panics _ | Panics _, Ret (s, _) => Err s <> None
    | Panics _, Panics _ => True
    | _, _ => False
    end.

  Theorem C55_sign : forall rg now t ids secret shares message s0 es es',
    NewSignState rg now t ids secret shares message = Ret s0 -> Forall2 same_call es es' ->
    sign_same (run sign_round s0 es) (run sign_round s0 es').
  Proof.
    intros rg now t ids secret shares message s0 es es' NEW HC. destruct (NewSignState_round _ _ _ _ _ _ _ _ NEW) as (r0 & E1 & ->).
    assert (sr_no r0 = 0%nat) as Hno. { unfold sg_NewRound in E1. repeat match type of E1 with (if ?b then _ else _) = _ => destruct b; [discriminate|] end.
      apply obind_ret in E1 as (ps & _ & E1). apply obind_ret in E1 as (l & _ & E1). apply Ret_inj in E1. now subst. }
    pose proof (sim_run sign_round ssim sosim) as H. specialize (H ltac:(intros r r' (X & o & -> & _); auto)).
    specialize (H ltac:(intros r r' (X & o & -> & _ & Ho & _); exact Ho) sign_loop sign_gen).
    assert (forall r r', ssim r r' -> match r_next sign_round r, r_next sign_round r' with Some a, Some a' => ssim a a' | None, None => True | _, _ => False end) as HN.
    { intros r r' (X & o & -> & HX & Ho & Hle). cbn [sign_round r_next set_Ro sr_no]. destruct (sr_no r) as [|[|n]]; auto; (exists X, o; split; [reflexivity|]; cbn [sg_set_no sr_R sr_out sr_no]; auto). }
    specialize (H HN). assert (forall r r', sosim r r' -> match r_reset sign_round r, r_reset sign_round r' with Ret a, Ret a' => sosim a a' | Panics _, Panics _ => True | _, _ => False end) as HR by (intros r r' X; exact X).
    assert (ssim r0 r0) as H0. { exists (sr_R r0), (sr_out r0). split; [destruct r0; reflexivity|]. split; [reflexivity|]. split; [apply same_signature_refl|lia]. }
    specialize (H HR ltac:(discriminate) es es' _ _ (sim_init sign_round ssim sosim now t r0 H0) HC).
    revert H. generalize (run sign_round (NewBaseState sign_round now t r0) es) (run sign_round (NewBaseState sign_round now t r0) es'). intros x y H.
    destruct x as [[s m]|?|?], y as [[s' m']|?|?]; try exact H.
    destruct H as [[] <-]. unfold IsFinished, Err. repeat (split; [now auto|]). split.
    { destruct (st_done s); auto. unfold sg_output. match goal with H : ssim _ _ |- _ => destruct H as (X & o & -> & _ & Ho & _) end. exact Ho. }
    repeat (split; [now auto|]). auto.
  Qed.

End SignOrder.

(** ** Key generation *)
Definition same_map `{Gr : group_ops} (a b : gmap Z G) : Prop :=
  forall i, match a !! i, b !! i with Some P, Some Q => geq P Q | None, None => True | _, _ => False end.
Definition same_public `{Gr : group_ops} (x y : option Public) : Prop :=
  match x, y with
  | None, None => True
  | Some a, Some b => pub_PartyIDs a = pub_PartyIDs b /\ pub_Threshold a = pub_Threshold b /\ same_map (pub_Shares a) (pub_Shares b) /\ geq (pub_GroupKey a) (pub_GroupKey b)
  | _, _ => False
  end.
Definition same_output `{Gr : group_ops} (x y : KOutput) : Prop := same_public (ko_Public x) (ko_Public y) /\ ko_SecretKey x = ko_SecretKey y.

Section KeygenOrder.
  Context `{Gr : group_ops} `{L : !group_laws Gr} `{Hf : hash_fn}.
  Definition set_co (r : kround) (c : option Exponent) (o : KOutput) : kround :=
    mkKround (kr_no r) (kr_self r) (kr_ids r) (kr_Threshold r) (kr_Secret r) (kr_Polynomial r) c (kr_Commitments r) (kr_outp r) o (kr_rng r).
  Definition same_exp (a b : option Exponent) : Prop := match a, b with Some c, Some d => Forall2 geq c d | None, None => True | _, _ => False end.
  Definition ksim (r r' : kround) : Prop := exists c o, r' = set_co r c o /\ same_exp (kr_CommitmentsSum r) c /\ same_output (kr_out r) o /\ (kr_no r <= 2)%nat /\
    is_u16 (kr_self r) /\ kr_self r <> 0.
  Definition kosim (r r' : kround) : Prop := same_output (kr_out r) (kr_out r') /\
    (kr_Polynomial r = None <-> kr_Polynomial r' = None) /\ (kr_CommitmentsSum r = None <-> kr_CommitmentsSum r' = None).

  Lemma same_output_refl o : same_output o o.
  Proof.
    split; auto. destruct (ko_Public o); cbn; auto. repeat split; auto; try reflexivity. intros i. destruct (pub_Shares p !! i); auto. reflexivity.
  Qed.
  Lemma addc_same c d e : Forall2 geq c d -> Forall2 geq (addc c e) (addc d e).
  Proof.
    intros H. unfold addc, exp_add. rewrite <- (Forall2_length _ _ _ H). destruct (negb _); auto. revert e. induction H as [|x y c d Hx H IH]; intros [|a e]; cbn; constructor; auto. now rewrite Hx.
  Qed.
  Lemma addc_swap c d a b : Forall2 geq c d -> Forall2 geq (addc (addc c a) b) (addc (addc d b) a).
  Proof.
    intros H. pose proof (Forall2_length _ _ _ H) as HL. unfold addc at 1 3. unfold exp_add. rewrite !addc_len, <- HL.
    destruct (Nat.eqb_spec (List.length c) (List.length a)) as [Ha|Ha]; destruct (Nat.eqb_spec (List.length c) (List.length b)) as [Hb|Hb]; cbn [negb]; unfold addc, exp_add; rewrite <- ?HL.
    - rewrite <- Ha, <- Hb, Nat.eqb_refl. cbn [negb]. clear HL. revert a b Ha Hb. induction H as [|x y c d Hx H IH]; intros [|u a] [|v b] Ha Hb; try discriminate; cbn; constructor.
      + rewrite Hx, <- !gadd_assoc, (gadd_comm u v). reflexivity.
      + apply IH; cbn in *; lia.
    - rewrite <- Ha, Nat.eqb_refl. cbn [negb]. destruct (Nat.eqb_spec (List.length c) (List.length b)); [contradiction|]. cbn [negb].
      revert a Ha. clear - H L. induction H as [|x y c d Hx H IH]; intros [|u a] Ha; try discriminate; cbn; constructor; [now rewrite Hx|]. apply IH. cbn in Ha. lia.
    - rewrite <- Hb, Nat.eqb_refl. cbn [negb]. destruct (Nat.eqb_spec (List.length c) (List.length a)); [contradiction|]. cbn [negb].
      revert b Hb. clear - H L. induction H as [|x y c d Hx H IH]; intros [|u b] Hb; try discriminate; cbn; constructor; [now rewrite Hx|]. apply IH. cbn in Hb. lia.
    - destruct (Nat.eqb_spec (List.length c) (List.length a)); [contradiction|]. destruct (Nat.eqb_spec (List.length c) (List.length b)); [contradiction|]. exact H.
  Qed.
  Lemma geqs_refl c : Forall2 geq c c.
  Proof. induction c; constructor; auto. reflexivity. Qed.
  Lemma geqs_trans a b c : Forall2 geq a b -> Forall2 geq b c -> Forall2 geq a c.
  Proof. intros H. revert c. induction H; intros d H2; inversion H2; subst; constructor; auto. etransitivity; eauto. Qed.
  Lemma addk_same cs k c d : Forall2 geq c d -> Forall2 geq (addk cs c k) (addk cs d k).
  Proof. intros H. unfold addk. destruct (cs !! k); auto. now apply addc_same. Qed.
  Lemma fold_addk_same cs ks : forall c d, Forall2 geq c d -> Forall2 geq (fold_left (addk cs) ks c) (fold_left (addk cs) ks d).
  Proof. induction ks as [|k ks IH]; intros c d H; cbn; auto. apply IH. now apply addk_same. Qed.
  Lemma fold_addk_perm cs ks ks' : Permutation ks ks' -> forall c d, Forall2 geq c d -> Forall2 geq (fold_left (addk cs) ks c) (fold_left (addk cs) ks' d).
  Proof.
    induction 1 as [|x l l' HP IH|x y l|l l' l'' H1 IH1 H2 IH2]; intros c d H; cbn [fold_left]; auto.
    - apply IH. now apply addk_same.
    - apply fold_addk_same. unfold addk. destruct (cs !! x), (cs !! y); auto using addc_same. now apply addc_swap.
    - eapply geqs_trans; [apply IH1; exact H|apply IH2, geqs_refl].
  Qed.
  Lemma exp_eval_same c d x : Forall2 geq c d -> match exp_eval c x, exp_eval d x with Ret P, Ret Q => geq P Q | Panics _, Panics _ => True | _, _ => False end.
  Proof.
    intros H. destruct (feqb x f0) eqn:E.
    - unfold exp_eval, exp_eval_var. now rewrite E.
    - apply feqb_neq in E. destruct (exp_eval_ok c x E) as (P & -> & HP). destruct (exp_eval_ok d x E) as (Q & -> & HQ). rewrite HP, HQ. now apply gpeval_proper.
  Qed.
  Lemma shares_same c d ids : Forall2 geq c d -> forall a b, same_map a b ->
    let f e := ofold (fun (acc : gmap Z G) id => let* x := id_scalar id in let* y := exp_eval e x in Ret (<[id := y]> acc)) in
    match f c a ids, f d b ids with Ret s, Ret s' => same_map s s' | Ret _, _ | _, Ret _ => False | _, _ => True end.
  Proof.
    intros H. cbv zeta. induction ids as [|i ids IH]; intros a b HM; cbn [ofold]; auto. destruct (id_scalar i) as [x|?|?]; cbn [obind]; auto.
    pose proof (exp_eval_same c d x H) as HE. destruct (exp_eval c x) as [P|?|?], (exp_eval d x) as [Q|?|?]; try contradiction; cbn [obind]; auto.
    apply IH. intros j. destruct (Z.eq_dec i j) as [->|Hn]; [rewrite !lookup_insert; exact HE|rewrite !lookup_insert_ne by auto; apply HM].
  Qed.

  Lemma kg1_loop_none rcv ks : forall r, kr_no r = 1%nat -> kr_CommitmentsSum r = None -> ks <> [] ->
    match process_loop keygen_round r rcv ks with ROk _ _ => False | RErr r1 _ t => r1 = r /\ t = "ZK Schnorr failed"%string | RPanic _ => True end.
  Proof.
    intros r Hno Hc Hks. destruct ks as [|k ks]; [contradiction|]. cbn [process_loop keygen_round r_process]. rewrite Hno. unfold kg1_process.
    destruct (default None (rcv !! k)) as [m|]; [|exact Logic.I]. destruct (m_KeyGen1 m) as [b|]; [|exact Logic.I]. destruct (exp_constant _) as [A|?|?]; cbn [lift_r]; try exact Logic.I.
    destruct (zk_Verify _ _ _ _) as [ok|?|?]; cbn [lift_r]; try exact Logic.I. destruct ok; cbn [negb]; [|auto]. rewrite Hc. exact Logic.I.
  Qed.

  Lemma keygen_loop r r' rcv ks ks' : ksim r r' -> from_ok rcv -> Permutation ks ks' -> List.NoDup ks ->
    match process_loop keygen_round r rcv ks, process_loop keygen_round r' rcv ks' with
    | ROk r1 _, ROk r1' _ => ksim r1 r1'
    | RErr r1 _ t, RErr r1' _ t' => t = t' /\ kosim r1 r1'
    | RPanic _, RPanic _ | RPanic _, RErr _ _ _ | RErr _ _ _, RPanic _ => True
    | _, _ => False
    end.
  Proof.
    intros (c & o & -> & HX & Ho & Hle & Hu & Hnz) HF HP ND. assert (List.NoDup ks') as ND' by (eapply Permutation_NoDup; eauto).
    assert (forall k, In k ks' -> In k ks) as Hin' by (intros k; apply Permutation_in; now symmetry).
    assert (forall k, In k ks -> In k ks') as Hin by (intros k; apply Permutation_in; auto).
    destruct (kr_no r) as [|[|n]] eqn:Hno.
    - rewrite !kg0_loop by auto. exists c, o. rewrite Hno. auto 10.
    - destruct (kr_CommitmentsSum r) as [c0|] eqn:EC; destruct c as [d0|]; try contradiction.
      2:{ destruct ks as [|k ks]; [apply Permutation_nil in HP; subst ks'; cbn [process_loop]; exists None, o; rewrite EC, Hno; auto 10|].
          pose proof (kg1_loop_none rcv (k :: ks) r Hno EC ltac:(discriminate)) as A. pose proof (kg1_loop_none rcv ks' (set_co r None o) Hno eq_refl) as B.
          assert (ks' <> []) as Hne by (intros ->; apply Permutation_sym, Permutation_nil in HP; discriminate). specialize (B Hne).
          destruct (process_loop keygen_round r rcv (k :: ks)); destruct (process_loop keygen_round (set_co r None o) rcv ks'); try contradiction; auto.
          destruct A as [-> ->], B as [-> ->]. split; auto. unfold kosim. rewrite EC. cbn [set_co kr_out kr_Polynomial kr_CommitmentsSum]. split; [exact Ho|]. tauto. }
      pose proof (kg1_loop rcv HF ks r c0 ND Hno EC) as A. pose proof (kg1_loop rcv HF ks' (set_co r (Some d0) o) d0 ND' Hno eq_refl) as B. cbn [set_co kr_Commitments] in B.
      destruct (process_loop keygen_round r rcv ks) as [r1 u|r1 e t|w]; destruct (process_loop keygen_round (set_co r (Some d0) o) rcv ks') as [r1' u'|r1' e' t'|w']; auto.
      + destruct A as (A1 & A2 & A3), B as (B1 & B2 & B3). assert (kr_Commitments r1 = kr_Commitments r1') as EP.
        { apply map_eq. intros k. destruct (in_dec Z.eq_dec k ks) as [Hk|Hk].
          - destruct (A3 k Hk) as (m & b & P & tl & E1 & E2 & _ & _ & ->). destruct (B3 k (Hin k Hk)) as (m' & b' & P' & tl' & F1 & F2 & _ & _ & ->). congruence.
          - rewrite A2, B2; auto. }
        rewrite A1, B1, EP. eexists _, o. split; [reflexivity|]. cbn [kg_set_cc kr_CommitmentsSum kr_out kr_no kr_self same_exp]. rewrite Hno. split; [|auto].
        apply fold_addk_perm; auto.
      + destruct A as (A1 & A2 & A3), B as (B1 & B2 & B3 & m & b & P & tl & E1 & E2 & E3 & E4). destruct (A3 e' (Hin' _ B3)) as (m' & b' & P' & tl' & F1 & F2 & F3 & F4 & _).
        assert (b = b') as -> by congruence. congruence.
      + destruct A as (A1 & A2 & A3), B as (k & Hk & B). destruct (A3 k (Hin' _ Hk)) as (m' & b' & P & tl & F1 & F2 & F3 & F4 & _). rewrite F1 in B. cbn in B. rewrite F2 in B. congruence.
      + destruct A as (A1 & A2 & A3 & m & b & P & tl & E1 & E2 & E3 & E4), B as (B1 & B2 & B3). destruct (B3 e (Hin _ A3)) as (m' & b' & P' & tl' & F1 & F2 & F3 & F4 & _).
        assert (b = b') as -> by congruence. congruence.
      + destruct A as ((cs & cc & ->) & A2 & _), B as ((cs' & cc' & ->) & B2 & _). split; [congruence|]. unfold kosim. cbn [kg_set_cc set_co kr_out kr_Polynomial kr_CommitmentsSum].
        split; [exact Ho|]. split; [tauto|split; discriminate].
      + destruct B as (A1 & A2 & A3), A as (k & Hk & B). destruct (A3 k (Hin _ Hk)) as (m' & b' & P & tl & F1 & F2 & F3 & F4 & _). rewrite F1 in B. cbn in B. rewrite F2 in B. congruence.
    - assert (kr_no r = 2%nat) as Hn by lia.
      pose proof (kg2_loop rcv (kr_self r) HF Hu Hnz ks r ND Hn eq_refl) as A. pose proof (kg2_loop rcv (kr_self r) HF Hu Hnz ks' (set_co r c o) ND' Hn eq_refl) as B. cbn [set_co kr_Commitments kr_Secret] in B.
      assert (kr_CommitmentsSum r = None <-> c = None) as HNone by (destruct (kr_CommitmentsSum r), c; cbn in HX; try contradiction; split; congruence).
      destruct (process_loop keygen_round r rcv ks) as [r1 u|r1 e t|w]; destruct (process_loop keygen_round (set_co r c o) rcv ks') as [r1' u'|r1' e' t'|w']; auto.
      + destruct A as (sh & A1 & A3), B as (sh' & B1 & B3).
        assert (Fsum (map sh ks) = Fsum (map sh' ks')) as ES.
        { rewrite <- (Fsum_perm _ _ (Permutation_map sh' HP)). f_equal. apply map_ext_in. intros k Hk.
          destruct (A3 k Hk) as (m & C & E1 & E2 & _). destruct (B3 k (Hin k Hk)) as (m' & C' & F1 & F2 & _). congruence. }
        rewrite A1, B1, ES. exists c, o. split; [reflexivity|]. cbn [kg_set_secret kr_CommitmentsSum kr_out kr_no kr_self]. rewrite Hno. auto 10.
      + destruct A as (sh & A1 & A3), B as (B1 & B2 & B3 & m & s & C & E1 & E2 & E3 & E4). destruct (A3 e' (Hin' _ B3)) as (m' & C' & F1 & F2 & F3 & F4).
        apply E4. assert (s = sh e') as -> by congruence. congruence.
      + destruct A as (sh & A1 & A3), B as (k & Hk & B). destruct (A3 k (Hin' _ Hk)) as (m' & C & F1 & F2 & F3 & F4). rewrite F1 in B. cbn in B. destruct B; congruence.
      + destruct B as (sh & A1 & A3), A as (B1 & B2 & B3 & m & s & C & E1 & E2 & E3 & E4). destruct (A3 e (Hin _ B3)) as (m' & C' & F1 & F2 & F3 & F4).
        apply E4. assert (s = sh e) as -> by congruence. congruence.
      + destruct A as ((s & ->) & A2 & _), B as ((s' & ->) & B2 & _). split; [congruence|]. unfold kosim. cbn [kg_set_secret set_co kr_out kr_Polynomial kr_CommitmentsSum]. tauto.
      + destruct B as (sh & A1 & A3), A as (k & Hk & B). destruct (A3 k (Hin _ Hk)) as (m' & C & F1 & F2 & F3 & F4). rewrite F1 in B. cbn in B. destruct B; congruence.
  Qed.

  Lemma keygen_gen r r' (o o' : list Z) : ksim r r' ->
    match r_generate keygen_round o r, r_generate keygen_round o' r' with
    | ROk r1 m, ROk r1' m' => ksim r1 r1' /\ m = m'
    | RErr r1 c t, RErr r1' c' t' => t = t' /\ kosim r1 r1'
    | RPanic _, RPanic _ => True
    | _, _ => False
    end.
  Proof.
    intros (c & u & -> & HX & Ho & Hle & Hu & Hnz). cbn [keygen_round r_generate]. cbn [set_co kr_no]. destruct (kr_no r) as [|[|n]] eqn:Hno.
    - unfold kg0_generate. cbn [set_co kr_rng kr_Threshold kr_self].
      destruct (NewPolynomial _ _ _ _) as [poly|?|?]; cbn [lift_r]; try exact Logic.I. destruct (exp_constant _) as [A|?|?]; cbn [lift_r]; try exact Logic.I.
      destruct (NewSchnorrProof _ _ _ _ _) as [pr|?|?]; cbn [lift_r]; try exact Logic.I. destruct (id_scalar _) as [x|?|?]; cbn [lift_r]; try exact Logic.I.
      destruct (poly_eval _ _) as [y|?|?]; cbn [lift_r]; try exact Logic.I. split; [|reflexivity]. eexists _, u. split; [reflexivity|].
      cbn [kr_CommitmentsSum kr_out kr_no kr_self same_exp]. rewrite Hno. split; [apply geqs_refl|auto].
    - unfold kg1_generate. cbn [set_co kr_Polynomial kr_self kr_ids]. destruct (kr_Polynomial r) as [poly|]; [|exact Logic.I].
      destruct (ofold _ _ _) as [ms|?|?]; cbn [lift_r]; try exact Logic.I. split; [|reflexivity]. exists c, u. split; [reflexivity|].
      cbn [kr_CommitmentsSum kr_out kr_no kr_self]. rewrite Hno. auto 10.
    - unfold kg2_generate. cbn [set_co kr_Polynomial kr_self kr_ids kr_CommitmentsSum kr_outp]. destruct (kr_CommitmentsSum r) as [c0|]; destruct c as [d0|]; try contradiction; [|exact Logic.I].
      cbn [same_exp] in HX. pose proof (shares_same c0 d0 (kr_ids r) HX ∅ ∅ ltac:(intros i; now rewrite lookup_empty)) as HS. cbv beta zeta in HS.
      destruct (ofold _ ∅ (kr_ids r)) as [sh|?|?]; destruct (ofold _ ∅ (kr_ids r)) as [sh'|?|?]; cbn [lift_r]; try contradiction; try exact Logic.I.
      destruct HX as [|A B c0 d0 HA HX]; cbn [exp_constant lift_r]; [exact Logic.I|]. destruct (kr_outp r); [|exact Logic.I]. split; [|reflexivity].
      eexists _, _. split; [reflexivity|]. cbn [kr_CommitmentsSum kr_out kr_no kr_self same_exp]. rewrite Hno. split; [constructor; auto|]. split; [|auto].
      split; [|reflexivity]. cbn [ko_Public same_public pub_PartyIDs pub_Threshold pub_Shares pub_GroupKey]. auto.
  Qed.

  Definition keygen_same (x y : outcome (State kround * list Message)) : Prop :=
    match x, y with
    | Ret (s, out), Ret (s', out') => out = out' /\ IsFinished s = IsFinished s' /\ same_error (Err s) (Err s') /\ same_output (kg_output s) (kg_output s') /\
        st_roundNumber s = st_roundNumber s' /\ st_received s = st_received s' /\ st_queue s = st_queue s' /\ st_timer s = st_timer s' /\ st_accepted s = st_accepted s'
    | Ret (s, _), Panics _ | Panics _, Ret (s, _) => Err s <> None
    | Panics _, Panics _ => True
    | _, _ => False
    end.

  Theorem C55_keygen : forall rg now t self ids thr s0 es es', valid_ids ids ->
    NewKeygenState rg now t self ids thr = Ret s0 -> Forall2 same_call es es' ->
    keygen_same (run keygen_round s0 es) (run keygen_round s0 es').
  Proof.
    intros rg now t self ids thr s0 es es' V NEW HC. destruct (NewKeygenState_round _ _ _ _ _ _ _ NEW) as (r0 & E1 & ->).
    assert (kr_no r0 = 0%nat /\ kr_self r0 = self /\ In self ids /\ kr_CommitmentsSum r0 = None) as (Hno & Hse & Hin & HC0).
    { unfold kg_NewRound in E1. repeat match type of E1 with (if ?b then _ else _) = _ => destruct b; [discriminate|] end.
      apply obind_ret in E1 as ([a b] & EB & E1). unfold NewBaseRound in EB. destruct (Contains ids self) eqn:EC; [|discriminate]. cbn [negb] in EB. apply Ret_inj in EB. inversion EB; subst.
      cbn [fst snd] in E1. apply Ret_inj in E1. subst r0. cbn. repeat split; auto. now apply Contains_true_In. }
    assert (is_u16 self /\ self <> 0) as [Hu Hnz]. { destruct V as (_ & V). rewrite List.Forall_forall in V. specialize (V _ Hin). unfold is_u16. lia. }
    pose proof (sim_run keygen_round ksim kosim) as H. specialize (H ltac:(intros r r' (X & o & -> & _); auto)).
    assert (forall r r', ksim r r' -> kosim r r') as HKO.
    { intros r r' (c & o & -> & HX & Ho & _). unfold kosim. cbn [set_co kr_out kr_Polynomial kr_CommitmentsSum]. destruct (kr_CommitmentsSum r), c; cbn in HX; try contradiction; repeat split; try tauto; try apply Ho; discriminate. }
    specialize (H HKO keygen_loop keygen_gen).
    assert (forall r r', ksim r r' -> match r_next keygen_round r, r_next keygen_round r' with Some a, Some a' => ksim a a' | None, None => True | _, _ => False end) as HN.
    { intros r r' (X & o & -> & HX & Ho & Hle & H2). cbn [keygen_round r_next set_co kr_no]. destruct (kr_no r) as [|[|n]]; auto; (exists X, o; split; [reflexivity|]; cbn [kg_set_no kr_CommitmentsSum kr_out kr_no kr_self]; auto). }
    specialize (H HN). assert (forall r r', kosim r r' -> match r_reset keygen_round r, r_reset keygen_round r' with Ret a, Ret a' => kosim a a' | Panics _, Panics _ => True | _, _ => False end) as HR.
    { intros r r' (Ho & Hp & Hc). cbn [keygen_round r_reset]. unfold kg_Reset.
      destruct (kr_Polynomial r), (kr_Polynomial r'); try (destruct Hp; intuition discriminate); auto; destruct (kr_CommitmentsSum r), (kr_CommitmentsSum r'); try (destruct Hc; intuition discriminate); auto.
      unfold kosim. cbn [kr_out kr_Polynomial kr_CommitmentsSum]. split; auto. repeat split; discriminate. }
    assert (forall (r : kround) w, r_reset keygen_round r <> Fail w) as HNF by (intros r w; cbn [keygen_round r_reset]; unfold kg_Reset; destruct (kr_Polynomial r); [destruct (kr_CommitmentsSum r)|]; discriminate).
    assert (ksim r0 r0) as H0. { exists (kr_CommitmentsSum r0), (kr_out r0). split; [destruct r0; reflexivity|]. rewrite HC0, Hse, Hno. split; [exact Logic.I|]. split; [apply same_output_refl|]. auto. }
    specialize (H HR HNF es es' _ _ (sim_init keygen_round ksim kosim now t r0 H0) HC).
    revert H. generalize (run keygen_round (NewBaseState keygen_round now t r0) es) (run keygen_round (NewBaseState keygen_round now t r0) es'). intros x y H.
    destruct x as [[s m]|?|?], y as [[s' m']|?|?]; try exact H.
    destruct H as [[] <-]. unfold IsFinished, Err. repeat (split; [now auto|]). split.
    { destruct (st_done s); unfold kg_output; [match goal with H : kosim _ _ |- _ => apply H end|]. match goal with H : ksim _ _ |- _ => destruct H as (X & o & -> & _ & Ho & _) end. exact Ho. }
    repeat (split; [now auto|]). auto.
  Qed.
End KeygenOrder.

(** ** Well-formed messages: no order panics *)
Section Total.
  Context `{Gr : group_ops} `{L : !group_laws Gr} `{Hf : hash_fn} (HH : forall m, List.length (sha512 m) = 64%nat).

  Lemma same_given es es' m : Forall2 same_call es es' -> given es' m -> given es m.
  Proof.
    intros H [nw Hin]. exists nw. induction H as [|e e' es es' He H IH]; cbn in *; auto. destruct Hin as [->|Hin]; auto. left. destruct e; cbn in He; congruence.
  Qed.
  Lemma same_sym (es es' : list event) : Forall2 same_call es es' -> Forall2 same_call es' es.
  Proof. induction 1 as [|e e' es es' He H IH]; constructor; auto. destruct e, e'; cbn in *; congruence || auto. Qed.

  (** Signing: every order of every map iteration returns, with the same messages, the same kind of error and the same signature. *)
  Theorem C55_sign_total : forall rg now t ids secret shares message s0 es es',
    List.NoDup ids -> Forall is_u16 ids -> NewSignState rg now t ids secret shares message = Ret s0 ->
    (forall m, given es m -> has_body m) -> Forall2 same_call es es' ->
    exists s out s', run sign_round s0 es = Ret (s, out) /\ run sign_round s0 es' = Ret (s', out) /\
      IsFinished s = IsFinished s' /\ same_error (Err s) (Err s') /\ same_signature (sg_output s) (sg_output s').
  Proof.
    intros rg now t ids secret shares message s0 es es' ND HU NEW HB HC.
    destruct (C19_sign_partial HH _ _ _ _ _ _ _ _ es ND HU NEW HB) as (s & out & E).
    destruct (C19_sign_partial HH _ _ _ _ _ _ _ _ es' ND HU NEW) as (s' & out' & E'). { intros m Hm. apply HB. eapply same_given; eauto. }
    pose proof (C55_sign _ _ _ _ _ _ _ _ _ _ NEW HC) as H. rewrite E, E' in H. destruct H as (<- & H1 & H2 & H3 & _). exists s, out, s'. auto.
  Qed.

  Theorem C55_keygen_total : forall rg now t self ids thr s0 es es', valid_ids ids -> is_u16 thr ->
    NewKeygenState rg now t self ids thr = Ret s0 -> (forall m, given es m -> kg_message_ok m) ->
    (Forall (fun e => e <> ECallback) es \/ (exists sched sched' tl, es = EProcess sched sched' :: tl)) -> Forall2 same_call es es' ->
    exists s out s', run keygen_round s0 es = Ret (s, out) /\ run keygen_round s0 es' = Ret (s', out) /\
      IsFinished s = IsFinished s' /\ same_error (Err s) (Err s') /\ same_output (kg_output s) (kg_output s').
  Proof.
    intros rg now t self ids thr s0 es es' V HT NEW HB HE HC.
    destruct (C19_keygen_partial _ _ _ _ _ _ _ es V HT NEW HB HE) as (s & out & E).
    destruct (C19_keygen_partial _ _ _ _ _ _ _ es' V HT NEW) as (s' & out' & E').
    { intros m Hm. apply HB. eapply same_given; eauto. }
    { destruct HE as [HE|(a & b & tl & ->)].
      - left. clear - HE HC. induction HC as [|e e' es es' He H IH]; constructor; inversion HE; subst; auto. intros ->. destruct e; cbn in He; congruence.
      - right. inversion HC as [|? y ? l' He]; subst. destruct y; cbn in He; try discriminate. eauto. }
    pose proof (C55_keygen _ _ _ _ _ _ _ _ _ V NEW HC) as H. rewrite E, E' in H. destruct H as (<- & H1 & H2 & H3 & _). exists s, out, s'. auto.
  Qed.
End Total.

(** ** What the order does decide *)
(** With two faulty senders the order decides who is blamed; with a message without body next to a faulty one it decides
    between an error and a crash. *)
Definition o_id1 (i : Z) : tmsg := @NewSign1 toy_group i (qof 0) (qof 1).
Definition o_nobody (i : Z) : tmsg := @mkMessage toy_group (mkHeader MTSign1 i 0) None None None None.
Definition o_view (r : outcome (tsstate * list tmsg)) : option (Z * string) :=
  match r with Ret (s, _) => option_map (fun e => (pe_PartyID e, pe_text e)) (st_err s) | _ => None end.
Definition o_panics (r : outcome (tsstate * list tmsg)) : bool := match r with Panics _ => true | _ => false end.
Definition o_prc (l : list Z) : @event toy_group := @EProcess toy_group l l.
Lemma same_call_refl `{Gr : group_ops} (e : event) : same_call e e.
Proof. destruct e; exact eq_refl || exact Logic.I. Qed.
Lemma same_calls_refl `{Gr : group_ops} (es : list event) : Forall2 same_call es es.
Proof. induction es; constructor; auto using same_call_refl. Qed.
Lemma same_prc (a : list (@event toy_group)) l l' b b' : Forall2 same_call b b' -> Forall2 same_call (prc :: a ++ o_prc l :: b) (prc :: a ++ o_prc l' :: b').
Proof. intros H. constructor; [exact Logic.I|]. apply Forall2_app; [apply same_calls_refl|]. constructor; [exact Logic.I|exact H]. Qed.
Theorem C55_culprit_refuted : exists (es es' : list (@event toy_group)), Forall2 same_call es es' /\
  o_view (ts_run (ts_new k3 1 0) es) = Some (2, "commitment Ei or Di was the identity"%string) /\
  o_view (ts_run (ts_new k3 1 0) es') = Some (3, "commitment Ei or Di was the identity"%string).
Proof.
  exists (prc :: hnd [o_id1 2; o_id1 3] ++ [o_prc [2; 3]]), (prc :: hnd [o_id1 2; o_id1 3] ++ [o_prc [3; 2]]).
  split; [apply same_prc; constructor|]. split; vm_compute; reflexivity.
Qed.
Theorem C55_panic_refuted : exists (es es' : list (@event toy_group)), Forall2 same_call es es' /\
  o_panics (ts_run (ts_new k3 1 0) es) = true /\
  o_view (ts_run (ts_new k3 1 0) es') = Some (3, "commitment Ei or Di was the identity"%string).
Proof.
  exists (prc :: hnd [o_nobody 2; o_id1 3] ++ [o_prc [2; 3]]), (prc :: hnd [o_nobody 2; o_id1 3] ++ [o_prc [3; 2]]).
  split; [apply same_prc; constructor|]. split; vm_compute; reflexivity.
Qed.

(** Three signers; two orders; the same signature. *)
Definition o_sg1 (i : Z) : list tmsg := ts_out (ts_run (ts_new k3 i 0) [prc]).
Definition o_sg2 (i : Z) : list tmsg := skipn 1 (ts_out (ts_run (ts_new k3 i 0) (prc :: hnd (concat (map o_sg1 k3)) ++ [prc]))).
Definition o_history (l : list Z) : list (@event toy_group) :=
  prc :: hnd (concat (map o_sg1 k3)) ++ o_prc l :: hnd (concat (map o_sg2 k3)) ++ [o_prc l].
Example C55_example : Forall2 same_call (o_history [1; 2; 3]) (o_history [3; 1; 2]) /\
  ts_view (ts_run (ts_new k3 1 0) (o_history [1; 2; 3])) = (true, 2, None, true) /\
  ts_view (ts_run (ts_new k3 1 0) (o_history [3; 1; 2])) = (true, 2, None, true).
Proof.
  split; [apply same_prc, Forall2_app; [apply same_calls_refl|constructor; [exact Logic.I|constructor]]|]. split; vm_compute; reflexivity.
Qed.

Print Assumptions C55_sign.
Print Assumptions C55_keygen.
Print Assumptions C55_sign_total.
Print Assumptions C55_keygen_total.
Print Assumptions C55_culprit_refuted.
Print Assumptions C55_panic_refuted.
