(** Invariants of the State machine, for any Round implementation. *)
From Coq Require Import ZArith Lia List Bool String Permutation.
From stdpp Require Import base gmap list fin_maps.
From Verif Require Import ZField Primes Bytes Scalar Go Group Party Poly PolyFacts Zk Eddsa Messages State.
Import ListNotations.
Local Open Scope Z_scope.

Lemma map_keys_perm {A} sched (m : gmap Z A) : Permutation (map_keys sched m) (map fst (map_to_list m)).
Proof. unfold map_keys. case_bool_decide; auto. Qed.
Lemma map_keys_In {A} sched (m : gmap Z A) k : In k (map_keys sched m) <-> exists v, m !! k = Some v.
Proof.
  split.
  - intros H. apply (Permutation_in k (map_keys_perm sched m)) in H. apply in_map_iff in H as ([k' v] & <- & H).
    apply elem_of_list_In, elem_of_map_to_list in H. eauto.
  - intros [v H]. apply (Permutation_in k (Permutation_sym (map_keys_perm sched m))). apply in_map_iff. exists (k, v). split; auto.
    apply elem_of_list_In. now apply elem_of_map_to_list.
Qed.
Lemma map_keys_NoDup {A} sched (m : gmap Z A) : List.NoDup (map_keys sched m).
Proof.
  eapply Permutation_NoDup; [apply Permutation_sym, map_keys_perm|]. apply NoDup_ListNoDup. apply NoDup_fst_map_to_list.
Qed.
Lemma map_keys_length {A} sched (m : gmap Z A) : List.length (map_keys sched m) = size m.
Proof. rewrite (Permutation_length (map_keys_perm sched m)), map_length. reflexivity. Qed.

Definition others_of (self : Z) (ids : list Z) : list Z := List.filter (fun i => negb (i =? self)) ids.
Lemma others_of_In self ids i : In i (others_of self ids) <-> In i ids /\ i <> self.
Proof. unfold others_of. rewrite filter_In, negb_true_iff, Z.eqb_neq. reflexivity. Qed.
Lemma others_of_NoDup self ids : List.NoDup ids -> List.NoDup (others_of self ids).
Proof. apply List.NoDup_filter. Qed.
Lemma others_of_length self ids : List.NoDup ids -> In self ids -> S (List.length (others_of self ids)) = List.length ids.
Proof.
  induction ids as [|x ids IH]; simpl; intros ND Hin; [tauto|]. inversion ND; subst.
  destruct (Z.eqb_spec x self) as [->|Hne]; cbn [negb].
  - f_equal. clear IH Hin ND H2. induction ids as [|y ids IH]; simpl; auto.
    destruct (Z.eqb_spec y self); cbn [negb]; [subst; simpl in H1; tauto|]. cbn [List.length]. rewrite IH; auto. simpl in H1; tauto.
  - cbn [List.length]. rewrite IH; tauto.
Qed.

(** If a map's keys are among [l] and it has as many keys, they are exactly [l]. *)
Lemma map_full {A} (m : gmap Z A) l : List.NoDup l -> (forall k v, m !! k = Some v -> In k l) -> size m = List.length l ->
  forall sched, Permutation (map_keys sched m) l.
Proof.
  intros ND Hk Hs sched. apply NoDup_Permutation_bis.
  - apply map_keys_NoDup.
  - rewrite map_keys_length. lia.
  - intros k Hin. apply map_keys_In in Hin as [v Hv]. eauto.
Qed.

Section Facts.
  Context `{Gr : group_ops} {R : Type} (I : RoundI R).

  (** The methods of a Round keep its ID and party list. *)
  Record round_ok : Prop := {
    rok_process : forall r m r', (exists u, r_process I r m = ROk r' u) \/ (exists c t, r_process I r m = RErr r' c t) ->
      r_self I r' = r_self I r /\ r_ids I r' = r_ids I r;
    rok_generate : forall sched r r', (exists l, r_generate I sched r = ROk r' l) \/ (exists c t, r_generate I sched r = RErr r' c t) ->
      r_self I r' = r_self I r /\ r_ids I r' = r_ids I r;
    rok_next : forall r r', r_next I r = Some r' -> r_self I r' = r_self I r /\ r_ids I r' = r_ids I r;
    rok_reset : forall r r', r_reset I r = Ret r' -> r_self I r' = r_self I r /\ r_ids I r' = r_ids I r
  }.
  Context (ROK : round_ok).

  Notation self s := (r_self I (st_round s)).
  Notation ids s := (r_ids I (st_round s)).

  Lemma process_loop_ids rcv l : forall r r',
    (exists u, process_loop I r rcv l = ROk r' u) \/ (exists c t, process_loop I r rcv l = RErr r' c t) ->
    r_self I r' = r_self I r /\ r_ids I r' = r_ids I r.
  Proof.
    induction l as [|i l IH]; intros r r'; simpl.
    - intros [[u E]|(c & t & E)]; [|discriminate]. now inversion E.
    - destruct (r_process I r (default None (rcv !! i))) as [r1 u1|r1 c1 t1|w] eqn:E1.
      + intros H. destruct (rok_process ROK r (default None (rcv !! i)) r1) as [A B]; [eauto|].
        destruct (IH r1 r' H) as [C D]. split; congruence.
      + intros [[u E]|(c & t & E)]; [discriminate|]. inversion E; subst.
        apply (rok_process ROK r (default None (rcv !! i)) r'). eauto.
      + intros [[u E]|(c & t & E)]; discriminate.
  Qed.

  (** *** finish and reportError *)
  Lemma finish_ret s s' : st_done s = false -> finish I s = Ret s' ->
    exists r, r_reset I (st_round s) = Ret r /\ st_closed s = O /\
      s' = mkState (st_accepted s) (st_received s) (st_queue s) (stopTimer (st_timer s)) (st_roundNumber s) r 1 true (st_err s).
  Proof.
    intros D. unfold finish. rewrite D. intros E. apply obind_ret in E as (r & E1 & E2). exists r. split; auto.
    destruct (st_closed s); [|discriminate]. apply Ret_inj in E2. auto.
  Qed.

  (** *** The invariant *)
  Definition addressed (s : State R) (m : Message) : Prop := m_To m = 0 \/ m_To m = self s.

  Record inv (s : State R) : Prop := {
    inv_closed : st_closed s = if st_done s then 1%nat else O;
    inv_round : 0 <= st_roundNumber s;
    inv_err : st_done s = false -> st_err s = None;
    inv_received : forall k v, st_received s !! k = Some v -> In k (ids s) /\ k <> self s /\
      match v with
      | None => st_roundNumber s = 0
      | Some m => m_From m = k /\ addressed s m /\ (st_done s = false -> exists tl, st_accepted s = m_Type m :: tl)
      end;
    inv_queue : forall m, In m (st_queue s) -> In (m_From m) (ids s) /\ m_From m <> self s /\ addressed s m /\
      exists ct tl, st_accepted s = ct :: tl /\ (st_done s = false -> In (m_Type m) tl)
  }.

  Lemma init_received_lookup self0 l : forall (m0 : gmap Z (option Message)) k,
    fold_left (fun m id => if id =? self0 then m else <[id := None]> m) l m0 !! k =
    if existsb (fun i => (i =? k) && negb (i =? self0)) l then Some None else m0 !! k.
  Proof.
    induction l as [|i l IH]; intros m0 k; simpl; auto. rewrite IH.
    destruct (existsb _ l) eqn:E; [now rewrite orb_true_r|]. rewrite orb_false_r.
    destruct (Z.eqb_spec i self0); cbn [negb]; rewrite ?andb_false_r, ?andb_true_r; auto.
    destruct (Z.eqb_spec i k); [subst; apply lookup_insert|now apply lookup_insert_ne].
  Qed.
  Lemma init_received now t r k v :
    st_received (NewBaseState I now t r) !! k = Some v <-> v = None /\ In k (others_of (r_self I r) (r_ids I r)).
  Proof.
    unfold NewBaseState. cbn [st_received]. rewrite init_received_lookup, lookup_empty. unfold others_of. rewrite filter_In.
    destruct (existsb _ _) eqn:E.
    - apply existsb_exists in E as (i & Hi & E). apply andb_true_iff in E as [E1 E2]. apply Z.eqb_eq in E1. subst i.
      split; [intros [= <-]; auto|intros [-> _]; auto].
    - split; [discriminate|]. intros (_ & H1 & H2).
      assert (existsb (fun i => (i =? k) && negb (i =? r_self I r)) (r_ids I r) = true) as X.
      { apply existsb_exists. exists k. split; auto. now rewrite Z.eqb_refl, H2. }
      congruence.
  Qed.

  Lemma inv_init now t r : inv (NewBaseState I now t r).
  Proof.
    split; cbn [NewBaseState st_closed st_done st_roundNumber st_err st_queue st_round]; auto; try lia.
    - intros k v Hk. apply init_received in Hk as [-> H].
      apply others_of_In in H as [H1 H2]. repeat split; auto.
    - intros m [].
  Qed.

  Lemma isAcceptedType_In (s : State R) t : isAcceptedType s t = true <-> In t (st_accepted s).
  Proof. unfold isAcceptedType. apply existsb_eqb_In. Qed.

  (** HandleMessage, by cases: unchanged, stored or queued. *)
  Lemma handle_cases now s m : 
    (fst (HandleMessage I now s m) = s) \/
    (snd (HandleMessage I now s m) = None /\ st_done s = false /\ m_From m <> self s /\ addressed s m /\
     Contains (ids s) (m_From m) = true /\ st_received s !! m_From m = None /\
     exists ct tl, st_accepted s = ct :: tl /\
      ((m_Type m = ct /\ fst (HandleMessage I now s m) =
         mkState (st_accepted s) (<[m_From m := Some m]> (st_received s)) (st_queue s) (ackMessage now (st_timer s))
                (st_roundNumber s) (st_round s) (st_closed s) (st_done s) (st_err s)) \/
       (m_Type m <> ct /\ In (m_Type m) tl /\ fst (HandleMessage I now s m) =
         mkState (st_accepted s) (st_received s) (st_queue s ++ [m]) (ackMessage now (st_timer s))
                (st_roundNumber s) (st_round s) (st_closed s) (st_done s) (st_err s)))).
  Proof.
    unfold HandleMessage. destruct (st_done s); [left; reflexivity|].
    destruct (st_accepted s) as [|ct tl] eqn:EA; [left; reflexivity|].
    destruct (Z.eqb_spec (m_From m) (self s)); [left; reflexivity|].
    destruct (negb (IsBroadcast (m_Header m)) && negb (m_To m =? self s)) eqn:EB; [left; reflexivity|].
    destruct (Contains (ids s) (m_From m)) eqn:EC; cbn [negb]; [|left; reflexivity].
    destruct (st_received s !! m_From m) eqn:ER; [left; reflexivity|].
    destruct (isAcceptedType s (m_Type m)) eqn:ET; cbn [negb]; [|left; reflexivity].
    right. apply isAcceptedType_In in ET.
    assert (addressed s m) as HA.
    { unfold addressed. unfold IsBroadcast in EB. fold (m_To m) in EB. destruct (Z.eqb_spec (m_To m) 0); auto.
      destruct (Z.eqb_spec (m_To m) (self s)); auto. discriminate. }
    destruct (Z.eqb_spec (m_Type m) ct) as [E|E]; cbn [fst snd]; repeat split; auto; exists ct, tl; split; auto.
    right. repeat split; auto. rewrite EA in ET. destruct ET; [congruence|auto].
  Qed.

  Lemma inv_handle now s m : inv s -> inv (fst (HandleMessage I now s m)).
  Proof.
    intros HI. destruct (handle_cases now s m) as [->|(_ & D & Hs & Ha & HC & Hr & ct & tl & EA & [[Et ->]|(Et & Hin & ->)])]; auto.
    - destruct HI as [I1 I2 I3 I4 I5]. split; cbn; auto.
      intros k v. destruct (Z.eq_dec k (m_From m)) as [->|Hk].
      + rewrite lookup_insert. intros [= <-]. split; [now apply Contains_true_In|]. split; [auto|]. split; [auto|]. split; [auto|]. intros _. exists tl. congruence.
      + rewrite lookup_insert_ne by auto. apply I4.
    - destruct HI as [I1 I2 I3 I4 I5]. split; cbn; auto.
      intros x Hx. apply in_app_iff in Hx as [Hx|[<-|[]]]; [now apply I5|]. split; [now apply Contains_true_In|].
      repeat split; auto. exists ct, tl. auto.
  Qed.

  Lemma inv_finish s s' : inv s -> st_done s = false -> finish I s = Ret s' -> inv s'.
  Proof.
    intros HI D E. apply finish_ret in E as (r & E1 & E2 & ->); auto. destruct HI as [I1 I2 I3 I4 I5].
    apply (rok_reset ROK) in E1 as [Es Ei]. split; cbn; auto; try discriminate; rewrite ?Es, ?Ei.
    - intros k v H. destruct (I4 k v H) as (H1 & H2 & H3). repeat split; auto. destruct v; auto.
      destruct H3 as (H3 & H4 & H5). split; [exact H3|]. split; [|discriminate]. unfold addressed in *. cbn. now rewrite Es.
    - intros m H. destruct (I5 m H) as (H1 & H2 & H3 & ct & tl & H4 & H5). repeat split; auto.
      + unfold addressed in *. cbn. now rewrite Es.
      + exists ct, tl. split; [auto|discriminate].
  Qed.

  (** Setting the error just before finishing. *)
  Lemma reportError_ret s c t s' : st_done s = false -> st_err s = None -> reportError I s c t = Ret s' ->
    exists r, r_reset I (st_round s) = Ret r /\ st_closed s = O /\
      s' = mkState (st_accepted s) (st_received s) (st_queue s) (stopTimer (st_timer s)) (st_roundNumber s) r 1 true
             (Some (mkPError c (st_roundNumber s) t)).
  Proof.
    intros D He. unfold reportError. rewrite D, He. intros E. apply finish_ret in E as (r & E1 & E2 & ->); auto. exists r. auto.
  Qed.

  Lemma inv_reportError s c t s' : inv s -> reportError I s c t = Ret s' -> inv s'.
  Proof.
    intros HI E. destruct (st_done s) eqn:D.
    - unfold reportError in E. rewrite D in E. apply Ret_inj in E. congruence.
    - pose proof (inv_err s HI D) as He. apply reportError_ret in E as (r & E1 & E2 & ->); auto.
      destruct HI as [I1 I2 I3 I4 I5].
      apply (rok_reset ROK) in E1 as [Es Ei]. split; cbn; auto; try discriminate; rewrite ?Es, ?Ei.
      + intros k v H. destruct (I4 k v H) as (H1 & H2 & H3). repeat split; auto. destruct v; auto.
        destruct H3 as (H3 & H4 & H5). split; [exact H3|]. split; [|discriminate]. unfold addressed in *. cbn. now rewrite Es.
      + intros m H. destruct (I5 m H) as (H1 & H2 & H3 & ct & tl & H4 & H5). repeat split; auto.
        * unfold addressed in *. cbn. now rewrite Es.
        * exists ct, tl. split; [auto|discriminate].
  Qed.

  Lemma take_queue_lookup ct q : forall m0 k, 
    fst (take_queue ct q m0) !! k =
      match find (fun m => (m_Type m =? ct) && (m_From m =? k)) (rev q) with
      | Some m => Some (Some m)
      | None => m0 !! k
      end.
  Proof.
    induction q as [|x q IH] using rev_ind; intros m0 k; [reflexivity|].
    unfold take_queue in *. cbn [fst] in *. rewrite fold_left_app, rev_app_distr. cbn [fold_left rev app find].
    destruct (Z.eqb_spec (m_Type x) ct); cbn [andb]; [|apply IH].
    destruct (Z.eqb_spec (m_From x) k) as [<-|Hk]; [apply lookup_insert|]. rewrite lookup_insert_ne by auto. apply IH.
  Qed.
  Lemma take_queue_some ct q k v : fst (take_queue ct q (∅ : gmap Z (option Message))) !! k = Some v ->
    exists m, v = Some m /\ In m q /\ m_Type m = ct /\ m_From m = k.
  Proof.
    rewrite take_queue_lookup, lookup_empty. destruct (find _ (rev q)) as [m|] eqn:E; [|discriminate]. intros [= <-].
    apply find_some in E as [H1 H2]. apply in_rev in H1. apply andb_true_iff in H2 as [H2 H3].
    apply Z.eqb_eq in H2, H3. eauto.
  Qed.
  Lemma take_queue_rest ct q m0 m : In m (snd (take_queue ct q m0)) <-> In m q /\ m_Type m <> ct.
  Proof. unfold take_queue. cbn [snd]. rewrite filter_In, negb_true_iff, Z.eqb_neq. reflexivity. Qed.

  (** ProcessAll by cases. *)
  Inductive pa_case (s : State R) (sched sched' : list Z) (s' : State R) (out : list Message) : Prop :=
  | pa_idle : s' = s -> out = [] ->
      (st_done s = true \/ Z.of_nat (size (st_received s)) <> u16 (N_ids (ids s) - 1)) -> pa_case s sched sched' s' out
  | pa_proc_err r c t : st_done s = false -> Z.of_nat (size (st_received s)) = u16 (N_ids (ids s) - 1) ->
      process_loop I (st_round s) (st_received s) (map_keys sched (st_received s)) = RErr r c t ->
      reportError I (set_round s r) c t = Ret s' -> out = [] -> pa_case s sched sched' s' out
  | pa_gen_err r r' c t : st_done s = false -> Z.of_nat (size (st_received s)) = u16 (N_ids (ids s) - 1) ->
      process_loop I (st_round s) (st_received s) (map_keys sched (st_received s)) = ROk r tt ->
      r_generate I sched' r = RErr r' c t ->
      reportError I (mkState (st_accepted s) ∅ (st_queue s) (st_timer s) (st_roundNumber s) r' (st_closed s) (st_done s) (st_err s)) c t = Ret s' ->
      out = [] -> pa_case s sched sched' s' out
  | pa_adv r r' ct tl rcv q : st_done s = false -> Z.of_nat (size (st_received s)) = u16 (N_ids (ids s) - 1) ->
      process_loop I (st_round s) (st_received s) (map_keys sched (st_received s)) = ROk r tt ->
      r_generate I sched' r = ROk r' out ->
      st_accepted s = ct :: tl ->
      (rcv, q) = match tl with [] => (∅, st_queue s) | ct' :: _ => take_queue ct' (st_queue s) ∅ end ->
      match r_next I r' with
      | None => finish I (mkState tl rcv q (st_timer s) (st_roundNumber s) r' (st_closed s) (st_done s) (st_err s)) = Ret s'
      | Some nr => s' = mkState tl rcv q (st_timer s) (st_roundNumber s + 1) nr (st_closed s) (st_done s) (st_err s)
      end -> pa_case s sched sched' s' out.

  Lemma process_cases sched sched' s s' out : ProcessAll I sched sched' s = Ret (s', out) -> pa_case s sched sched' s' out.
  Proof.
    unfold ProcessAll. destruct (st_done s) eqn:D.
    { intros E. apply Ret_inj in E. inversion E; subst. apply pa_idle; auto. }
    destruct (Z.eqb_spec (Z.of_nat (size (st_received s))) (u16 (N_ids (ids s) - 1))) as [HS|HS]; cbn [negb].
    2:{ intros E. apply Ret_inj in E. inversion E; subst. apply pa_idle; auto. }
    destruct (process_loop _ _ _ _) as [r []|r c t|w] eqn:EP; [| |discriminate].
    2:{ intros E. apply obind_ret in E as (s1 & E1 & E2). apply Ret_inj in E2. inversion E2; subst. eapply pa_proc_err; eauto. }
    destruct (r_generate I sched' r) as [r' l|r' c t|w] eqn:EG; [| |discriminate].
    2:{ intros E. apply obind_ret in E as (s1 & E1 & E2). apply Ret_inj in E2. inversion E2; subst. eapply pa_gen_err; eauto.
        unfold set_round in E1. cbn in E1. now rewrite D. }
    destruct (st_accepted s) as [|ct tl] eqn:EA; [discriminate|].
    destruct (match tl with [] => (∅, st_queue s) | ct' :: _ => take_queue ct' (st_queue s) ∅ end) as [rcv q] eqn:EQ.
    destruct (r_next I r') as [nr|] eqn:EN.
    - intros E. apply Ret_inj in E. inversion E; subst. eapply pa_adv; eauto. now rewrite EN, D.
    - intros E. apply obind_ret in E as (s1 & E1 & E2). apply Ret_inj in E2. inversion E2; subst. eapply pa_adv; eauto. now rewrite EN, D.
  Qed.

  (** Sub-states with the same round data keep the invariant. *)
  Lemma inv_round_change s r : r_self I r = self s -> r_ids I r = ids s -> inv s -> inv (set_round s r).
  Proof.
    intros Es Ei [I1 I2 I3 I4 I5]. split; cbn; auto; rewrite ?Es, ?Ei; unfold addressed; cbn; rewrite ?Es; auto.
  Qed.

  Lemma inv_process sched sched' s s' out : inv s -> ProcessAll I sched sched' s = Ret (s', out) -> inv s'.
  Proof.
    intros HI E. apply process_cases in E. destruct E as [-> _ _|r c t D HS EP ER _|r r' c t D HS EP EG ER _|r r' ct tl rcv q D HS EP EG EA EQ EN]; auto.
    - eapply inv_reportError; [|exact ER]. destruct (process_loop_ids _ _ _ r (or_intror (ex_intro _ c (ex_intro _ t EP)))) as [A B].
      apply inv_round_change; auto.
    - destruct (process_loop_ids _ _ _ r (or_introl (ex_intro _ tt EP))) as [A B].
      destruct (rok_generate ROK sched' r r') as [A' B']; [eauto|].
      eapply inv_reportError; [|exact ER]. destruct HI as [I1 I2 I3 I4 I5]. split; cbn; auto.
      + intros k v. rewrite lookup_empty. discriminate.
      + intros m Hm. unfold addressed; cbn. rewrite B', A', A, B. apply I5; auto.
    - destruct (process_loop_ids _ _ _ r (or_introl (ex_intro _ tt EP))) as [A B].
      destruct (rok_generate ROK sched' r r') as [A' B']; [eauto|].
      assert (forall rn nr, 0 <= rn -> r_self I nr = self s -> r_ids I nr = ids s ->
              inv (mkState tl rcv q (st_timer s) rn nr (st_closed s) (st_done s) (st_err s))) as X.
      { intros rn nr Hrn Es Ei. destruct HI as [I1 I2 I3 I4 I5]. split; cbn; auto.
        - intros k v Hk. destruct tl as [|ct' tl']; inversion EQ; subst rcv q.
          + rewrite lookup_empty in Hk. discriminate.
          + pose proof (take_queue_some ct' (st_queue s) k v Hk) as (m & -> & Hm & Ht & Hf). destruct (I5 m Hm) as (H1 & H2 & H3 & _).
            subst k. rewrite Es, Ei. repeat split; auto. * unfold addressed in *. cbn. now rewrite Es. * intros _. exists tl'. congruence.
        - intros m Hm. destruct tl as [|ct' tl']; inversion EQ; subst rcv q.
          + destruct (I5 m Hm) as (_ & _ & _ & c1 & t1 & H4 & H5). rewrite EA in H4. inversion H4; subst. destruct (H5 D).
          + change (In m (snd (take_queue ct' (st_queue s) (∅ : gmap Z (option Message))))) in Hm. apply take_queue_rest in Hm as [Hm Ht]. destruct (I5 m Hm) as (H1 & H2 & H3 & c1 & t1 & H4 & H5).
            rewrite EA in H4. inversion H4; subst. rewrite Es, Ei. repeat split; auto.
            * unfold addressed in *. cbn. now rewrite Es.
            * exists ct', tl'. split; auto. intros _. destruct (H5 D); [congruence|auto]. }
      pose proof (inv_round s HI).
      destruct (r_next I r') as [nr|] eqn:ENx.
      + subst s'. destruct (rok_next ROK _ _ ENx) as [A2 B2]. apply X; [lia|congruence|congruence].
      + eapply inv_finish; [| |exact EN]; [|exact D]. apply X; [lia|congruence|congruence].
  Qed.

  Lemma inv_step s e s' out : inv s -> step I s e = Ret (s', out) -> inv s'.
  Proof.
    intros HI. destruct e as [now m|o o'|now|]; cbn [step].
    - intros E. apply Ret_inj in E. inversion E; subst. now apply inv_handle.
    - intros E. now apply inv_process in E.
    - intros E. apply Ret_inj in E. inversion E; subst. unfold timerExpire. destruct (tm_deadline (st_timer s)); auto.
      destruct (_ <=? _); auto. destruct HI as [I1 I2 I3 I4 I5]. split; auto.
    - intros E. apply obind_ret in E as (s1 & E1 & E2). apply Ret_inj in E2. inversion E2; subst. unfold timerCallback in E1.
      destruct (tm_pending (st_timer s)); [apply Ret_inj in E1; congruence|]. eapply inv_reportError; [|exact E1].
      destruct HI as [I1 I2 I3 I4 I5]. split; auto.
  Qed.

  (** Reachability by a history. *)
  Lemma run_app s es1 es2 : run I s (es1 ++ es2) =
    obind (run I s es1) (fun r1 => obind (run I (fst r1) es2) (fun r2 => Ret (fst r2, snd r1 ++ snd r2))).
  Proof.
    revert s. induction es1 as [|e es1 IH]; intros s; cbn [run app obind fst snd].
    - destruct (run I s es2) as [[a b]| |]; reflexivity.
    - destruct (step I s e) as [[s1 o1]| |]; cbn [obind fst snd]; auto. rewrite IH.
      destruct (run I s1 es1) as [[s2 o2]| |]; cbn [obind fst snd]; auto.
      destruct (run I s2 es2) as [[s3 o3]| |]; cbn [obind fst snd]; auto. now rewrite app_assoc.
  Qed.
  Lemma run_snoc s es e s' out : run I s (es ++ [e]) = Ret (s', out) ->
    exists s1 o1 o2, run I s es = Ret (s1, o1) /\ step I s1 e = Ret (s', o2) /\ out = o1 ++ o2.
  Proof.
    rewrite run_app. intros E. apply obind_ret in E as ([s1 o1] & E1 & E). apply obind_ret in E as ([s2 o2] & E2 & E).
    cbn [run] in E2. apply obind_ret in E2 as ([s3 o3] & E3 & E2). cbn [obind fst snd] in *. apply Ret_inj in E, E2. inversion E2; subst.
    inversion E; subst. exists s1, o1, o3. rewrite app_nil_r. auto.
  Qed.

  Lemma run_ind (P : State R -> list Message -> Prop) s0 : P s0 [] ->
    (forall s out e s' o, P s out -> step I s e = Ret (s', o) -> P s' (out ++ o)) ->
    forall es s out, run I s0 es = Ret (s, out) -> P s out.
  Proof.
    intros H0 HS es. induction es as [|e es IH] using rev_ind; intros s out E.
    - cbn in E. apply Ret_inj in E. inversion E; subst. auto.
    - apply run_snoc in E as (s1 & o1 & o2 & E1 & E2 & ->). eapply HS; eauto.
  Qed.

  Lemma inv_run s0 es s out : inv s0 -> run I s0 es = Ret (s, out) -> inv s.
  Proof. intros H0. apply (run_ind (fun s _ => inv s)); auto. intros. eapply inv_step; eauto. Qed.

  (** Own ID and party list never change. *)
  Lemma step_ids s e s' out : step I s e = Ret (s', out) -> self s' = self s /\ ids s' = ids s.
  Proof.
    destruct e as [now m|o o'|now|]; cbn [step].
    - intros E. apply Ret_inj in E. inversion E; subst.
      destruct (handle_cases now s m) as [->|(_ & _ & _ & _ & _ & _ & ct & tl & _ & [[_ ->]|(_ & _ & ->)])]; auto.
    - intros E. apply process_cases in E. destruct E as [-> _ _|r c t D HS EP ER _|r r' c t D HS EP EG ER _|r r' ct tl rcv q D HS EP EG EA EQ EN]; auto.
      + destruct (process_loop_ids _ _ _ r (or_intror (ex_intro _ c (ex_intro _ t EP)))) as [A B].
        unfold reportError in ER. cbn [set_round st_done] in ER. rewrite D in ER. apply finish_ret in ER as (r1 & E1 & _ & ->); [|reflexivity].
        apply (rok_reset ROK) in E1 as [C E]. cbn in *. split; congruence.
      + destruct (process_loop_ids _ _ _ r (or_introl (ex_intro _ tt EP))) as [A B].
        destruct (rok_generate ROK o' r r') as [A' B']; [eauto|].
        unfold reportError in ER. cbn [st_done] in ER. rewrite D in ER. apply finish_ret in ER as (r1 & E1 & _ & ->); [|reflexivity].
        apply (rok_reset ROK) in E1 as [C E]. cbn in *. split; congruence.
      + destruct (process_loop_ids _ _ _ r (or_introl (ex_intro _ tt EP))) as [A B].
        destruct (rok_generate ROK o' r r') as [A' B']; [eauto|].
        destruct (r_next I r') as [nr|] eqn:ENx.
        * subst s'. destruct (rok_next ROK _ _ ENx) as [A2 B2]. cbn. split; congruence.
        * apply finish_ret in EN as (r1 & E1 & _ & ->); [|exact D]. apply (rok_reset ROK) in E1 as [C E]. cbn in *. split; congruence.
    - intros E. apply Ret_inj in E. inversion E; subst. unfold timerExpire. destruct (tm_deadline (st_timer s)); auto. destruct (_ <=? _); auto.
    - intros E. apply obind_ret in E as (s1 & E1 & E2). apply Ret_inj in E2. inversion E2; subst. unfold timerCallback in E1.
      destruct (tm_pending (st_timer s)); [apply Ret_inj in E1; subst; auto|]. unfold reportError in E1. cbn [st_done] in E1.
      destruct (st_done s) eqn:D; [apply Ret_inj in E1; subst; auto|].
      apply finish_ret in E1 as (r1 & E1 & _ & ->); [|reflexivity]. apply (rok_reset ROK) in E1 as [C E]. cbn in *. split; congruence.
  Qed.
  Lemma run_ids s0 es s out : run I s0 es = Ret (s, out) -> self s = self s0 /\ ids s = ids s0.
  Proof.
    apply (run_ind (fun s _ => self s = self s0 /\ ids s = ids s0)); auto.
    intros s1 o1 e s' o [A B] E. apply step_ids in E as [C D]. split; congruence.
  Qed.
End Facts.
