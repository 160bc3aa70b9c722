(** Facts about the message loops of Loops.v. *)
From Coq Require Import ZArith Lia List Bool String Permutation.
From stdpp Require Import base gmap list fin_maps.
From Verif Require Import ZField Primes Bytes Scalar Go Group Party Poly PolyFacts Zk Eddsa Messages State StateFacts Spec_State Lift Net Progress NetProgress NetLive
  Properties_State Keygen Sign Helpers Cmd Lockstep Loops.
Import ListNotations.
Local Open Scope Z_scope.

(** * The loop of the example *)
Section Routine.
  Context `{Gr : group_ops} {R : Type} (I : RoundI R).

  (** Everything that a State can be given by others. *)
  Definition from_others (self : Z) (e : levent) : Prop :=
    match e with LMsg _ _ _ m => m_From m <> self /\ (m_To m = 0 \/ m_To m = self) | _ => True end.

  (** A State that was never processed refuses them all. *)
  Lemma fresh_refuses now s m : sorted (r_ids I (st_round s)) -> m_From m <> r_self I (st_round s) -> (m_To m = 0 \/ m_To m = r_self I (st_round s)) ->
    (st_done s = false -> forall k, In k (r_ids I (st_round s)) -> k <> r_self I (st_round s) -> st_received s !! k <> None) ->
    exists e, HandleMessage I now s m = (s, Some e).
  Proof.
    intros HS Hf Ht Hr. unfold HandleMessage. destruct (st_done s); [eauto|]. specialize (Hr eq_refl).
    destruct (st_accepted s); [eauto|]. rewrite (proj2 (Z.eqb_neq _ _) Hf).
    assert (negb (IsBroadcast (m_Header m)) && negb (m_To m =? r_self I (st_round s)) = false) as ->.
    { unfold IsBroadcast. fold (m_To m). destruct Ht as [->| ->]; [reflexivity|]. rewrite Z.eqb_refl. now rewrite andb_false_r. }
    destruct (Contains _ _) eqn:EC; cbn [negb]; [|eauto]. apply Contains_In in EC; auto. specialize (Hr _ EC Hf).
    destruct (st_received s !! m_From m); [eauto|congruence].
  Qed.

  Lemma routine_snoc s es e s' out : routine I s (es ++ [e]) = Ret (s', out) ->
    exists s1 o1 o2, routine I s es = Ret (s1, o1) /\ routine_step I s1 e = Ret (s', o2) /\ out = o1 ++ o2.
  Proof.
    revert s out. induction es as [|x es IH]; intros s out E; cbn [app routine] in E.
    - apply obind_ret in E as ([s1 o1] & E1 & E). cbn [fst snd obind] in E. apply Ret_inj in E. inversion E; subst. exists s, [], o1. cbn. rewrite app_nil_r. auto.
    - apply obind_ret in E as ([s1 o1] & E1 & E). cbn [fst snd] in E. apply obind_ret in E as ([s2 o2] & E2 & E). cbn [fst snd] in E. apply Ret_inj in E. inversion E; subst.
      destruct (IH _ _ E2) as (s3 & o3 & o4 & A & B & ->). exists s3, (o1 ++ o3), o4. cbn [routine]. rewrite E1. cbn [obind fst snd]. rewrite A. cbn [obind fst snd]. rewrite app_assoc. auto.
  Qed.

  Lemma routine_silent now t r : sorted (r_ids I r) -> forall es s out, Forall (from_others (r_self I r)) es -> routine I (NewBaseState I now t r) es = Ret (s, out) ->
    out = [] /\ st_roundNumber s = 0 /\
    ((st_done s = false /\ st_round s = r /\ st_received s = st_received (NewBaseState I now t r) /\ st_closed s = O /\ st_err s = None) \/
     (st_done s = true /\ st_err s = Some (mkPError 0 0 "message timeout") /\ r_reset I r = Ret (st_round s) /\ In LCallback es)).
  Proof.
    intros HS. induction es as [|e es IH] using rev_ind; intros s out HF E.
    - cbn in E. apply Ret_inj in E. inversion E; subst. split; auto. split; auto. left. repeat split.
    - apply routine_snoc in E as (s1 & o1 & o2 & E1 & E2 & ->). apply Forall_app in HF as [HF He]. apply List.Forall_inv in He.
      destruct (IH s1 o1 HF E1) as (-> & N1 & H). clear IH.
      assert (forall s2, st_done s2 = st_done s1 -> st_round s2 = st_round s1 -> st_received s2 = st_received s1 -> st_closed s2 = st_closed s1 -> st_err s2 = st_err s1 -> st_roundNumber s2 = st_roundNumber s1 ->
        ([] : list Message) ++ [] = [] /\ st_roundNumber s2 = 0 /\ ((st_done s2 = false /\ st_round s2 = r /\ st_received s2 = st_received (NewBaseState I now t r) /\ st_closed s2 = O /\ st_err s2 = None) \/
         (st_done s2 = true /\ st_err s2 = Some (mkPError 0 0 "message timeout") /\ r_reset I r = Ret (st_round s2) /\ In LCallback (es ++ [e])))) as Hsame.
      { intros s2 -> -> -> -> -> ->. split; auto. split; auto. destruct H as [H|(A & B & C & D)]; [now left|]. right. repeat split; auto. apply in_app_iff. auto. }
      destruct e as [nw a b m|nw|]; cbn [routine_step] in E2.
      + destruct He as [Hf Ht].
        destruct H as [(D & Er & Hr & HC & HE)|(D & HE & HR & Hin)].
        * destruct (fresh_refuses nw s1 m) as [err X]; rewrite ?Er; auto.
          { intros _ k Hk Hne. rewrite Hr. destruct (st_received (NewBaseState I now t r) !! k) eqn:Ek; [discriminate|].
            assert (st_received (NewBaseState I now t r) !! k = Some None) by (apply init_received; split; auto; now apply others_of_In). congruence. }
          rewrite X in E2. apply Ret_inj in E2. inversion E2; subst. apply Hsame; auto.
        * unfold HandleMessage in E2. rewrite D in E2. apply Ret_inj in E2. inversion E2; subst. apply Hsame; auto.
      + cbn [step] in E2. apply Ret_inj in E2. inversion E2; subst. unfold timerExpire.
        destruct (tm_deadline _); [destruct (_ <=? _)|]; apply Hsame; auto.
      + cbn [step] in E2. apply obind_ret in E2 as (s2 & E2 & E3). apply Ret_inj in E3. inversion E3; subst. unfold timerCallback in E2.
        destruct (tm_pending _); [apply Ret_inj in E2; subst; apply Hsame; auto|].
        destruct H as [(D & Er & Hr & HC & HE)|(D & HE & HR & Hin)].
        * apply reportError_ret in E2 as (r2 & A & _ & ->); cbn; auto. split; auto. split; auto. right. split; auto. split; [now rewrite N1|]. split; [now rewrite Er in A|].
          apply in_app_iff. right. now left.
        * unfold reportError in E2. cbn [st_done] in E2. rewrite D in E2. apply Ret_inj in E2. subst. apply Hsame; auto.
  Qed.
End Routine.

(** * What becomes of an accepted message *)
Section Kept.
  Context `{Gr : group_ops} {R : Type} (I : RoundI R).

  Definition stored (s : State R) (m : Message) : Prop := st_received s !! m_From m = Some (Some m) \/ In m (st_queue s).

  Lemma stored_handle now s m x : stored (fst (HandleMessage I now s m)) x -> stored s x \/ x = m.
  Proof.
    destruct (handle_cases I now s m) as [->|(_ & _ & _ & _ & _ & _ & ct & tl & _ & [[_ ->]|(_ & _ & ->)])]; auto; unfold stored; cbn.
    - intros [H|H]; auto. destruct (Z.eq_dec (m_From m) (m_From x)) as [E|E].
      + rewrite E, lookup_insert in H. right. congruence.
      + rewrite lookup_insert_ne in H by auto. auto.
    - intros [H|H]; auto. apply in_app_iff in H as [H|[H|[]]]; auto.
  Qed.
  Lemma stored_process a b s s' o x : inv I s -> ProcessAll I a b s = Ret (s', o) -> stored s' x -> stored s x.
  Proof.
    intros HI E Hx. pose proof (inv_err I s HI) as He. apply process_cases in E. destruct E as [-> _ X|r c t D HS1 EP ER _|r r' c t D HS1 EP EG ER _|r r' ct' tl' rcv q D HS1 EP EG EA1 EQ EN]; auto.
    - apply reportError_ret in ER as (r2 & _ & _ & ->); auto.
    - apply reportError_ret in ER as (r2 & _ & _ & ->); auto. destruct Hx as [Hx|Hx]; [cbn in Hx; rewrite lookup_empty in Hx; discriminate|right; exact Hx].
    - assert (forall y, rcv !! m_From y = Some (Some y) \/ In y q -> In y (st_queue s)) as Hy.
      { intros y. destruct tl' as [|ct tl']; inversion EQ; subst.
        - rewrite lookup_empty. intros [X|X]; [discriminate|auto].
        - intros [X|X].
          + apply take_queue_some in X as (z & Ez & Hz & _). inversion Ez; now subst.
          + now apply (take_queue_rest ct _ ∅) in X. }
      right. apply Hy. destruct (r_next I r'); [subst s'; exact Hx|]. apply finish_ret in EN as (r2 & _ & _ & ->); auto.
  Qed.

  (** A message of sender [f] and type [t] that was accepted: it is no longer of interest, or it is stored, or in the queue. *)
  Definition kept (s : State R) (f t : Z) : Prop :=
    st_done s = true \/ ~ In t (st_accepted s) \/ (hd_error (st_accepted s) = Some t /\ st_received s !! f <> None) \/
    exists q, In q (st_queue s) /\ m_From q = f /\ m_Type q = t.

  Lemma kept_handle now s m f t : kept s f t -> kept (fst (HandleMessage I now s m)) f t.
  Proof.
    unfold kept. destruct (handle_cases I now s m) as [->|(_ & D & _ & _ & _ & _ & ct & tl & _ & [[_ ->]|(_ & _ & ->)])]; auto; cbn.
    - intros [H|[H|[[H1 H2]|H]]]; auto. right. right. left. split; auto. destruct (Z.eq_dec (m_From m) f) as [->|E]; [now rewrite lookup_insert|now rewrite lookup_insert_ne].
    - intros [H|[H|[H|(q & A & B)]]]; auto. right. right. right. exists q. split; auto. apply in_app_iff. auto.
  Qed.
  Lemma kept_new now s m : sorted (r_ids I (st_round s)) -> st_done s = false -> m_From m <> r_self I (st_round s) -> (m_To m = 0 \/ m_To m = r_self I (st_round s)) ->
    snd (HandleMessage I now s m) = None -> kept (fst (HandleMessage I now s m)) (m_From m) (m_Type m).
  Proof.
    intros HS D Hf Ht. unfold HandleMessage. rewrite D. destruct (st_accepted s) as [|ct tl] eqn:EA; [discriminate|]. rewrite (proj2 (Z.eqb_neq _ _) Hf).
    assert (negb (IsBroadcast (m_Header m)) && negb (m_To m =? r_self I (st_round s)) = false) as ->.
    { unfold IsBroadcast. fold (m_To m). destruct Ht as [->| ->]; [reflexivity|]. rewrite Z.eqb_refl. now rewrite andb_false_r. }
    destruct (Contains _ _); cbn [negb]; [|discriminate]. destruct (st_received s !! m_From m); [discriminate|].
    destruct (isAcceptedType s (m_Type m)); cbn [negb]; [|discriminate]. destruct (Z.eqb_spec (m_Type m) ct) as [Ec|Ec]; intros _; unfold kept; cbn.
    - right. right. left. rewrite lookup_insert, Ec. auto.
    - right. right. right. exists m. split; auto. apply in_app_iff. right. now left.
  Qed.
  Lemma kept_process a b s s' o f t : inv I s -> List.NoDup (st_accepted s) -> ProcessAll I a b s = Ret (s', o) -> kept s f t -> kept s' f t.
  Proof.
    intros HI ND E. pose proof (inv_err I s HI) as He. apply process_cases in E. destruct E as [-> _ X|r c tx D HS1 EP ER _|r r' c tx D HS1 EP EG ER _|r r' ct' tl' rcv q D HS1 EP EG EA1 EQ EN]; auto.
    - apply reportError_ret in ER as (r2 & _ & _ & ->); auto. intros _. now left.
    - apply reportError_ret in ER as (r2 & _ & _ & ->); auto. intros _. now left.
    - destruct (r_next I r'); [subst s'|apply finish_ret in EN as (r2 & _ & _ & ->); [intros _; now left|auto]].
      unfold kept. rewrite D, EA1 in *. cbn. inversion ND as [|? ? Hni ND']; subst. intros [H|[H|[[H1 H2]|(m & A & B & C)]]]; [discriminate| | |].
      + right. left. tauto.
      + right. left. inversion H1; subst. exact Hni.
      + right. destruct tl' as [|ct tl']; [now left|]. right. destruct (Z.eq_dec t ct) as [->|Hne].
        * left. split; auto. assert (rcv = fst (take_queue ct (st_queue s) ∅)) as -> by (now rewrite <- EQ). rewrite take_queue_lookup. destruct (find _ (rev (st_queue s))) eqn:Ef; [discriminate|].
          apply (find_none _ _) with (x := m) in Ef; [|now apply in_rev in A]. rewrite B, C, !Z.eqb_refl in Ef. discriminate.
        * right. exists m. split; auto. assert (q = snd (take_queue ct (st_queue s) ∅)) as -> by (now rewrite <- EQ). apply take_queue_rest. split; auto. now rewrite C.
  Qed.
  Lemma kept_received s f t tl : inv I s -> List.NoDup (st_accepted s) -> st_done s = false -> st_accepted s = t :: tl -> kept s f t -> st_received s !! f <> None.
  Proof.
    intros HI ND D EA [H|[H|[[H1 H2]|(m & A & B & C)]]]; auto; [congruence|rewrite EA in H; exfalso; apply H; now left|].
    destruct (inv_queue I s HI m A) as (_ & _ & _ & ct & tl' & EA' & Hin). specialize (Hin D). rewrite EA' in EA. inversion EA; subst. rewrite EA' in ND. inversion ND; subst. contradiction.
  Qed.

  Lemma full_all s : inv I s -> valid_ids (r_ids I (st_round s)) -> In (r_self I (st_round s)) (r_ids I (st_round s)) ->
    Z.of_nat (size (st_received s)) = u16 (N_ids (r_ids I (st_round s)) - 1) -> forall j, In j (r_ids I (st_round s)) -> j <> r_self I (st_round s) -> st_received s !! j <> None.
  Proof.
    intros HI HV Hself HS j Hj Hne.
    assert (Z.of_nat (List.length (r_ids I (st_round s))) < 65536) as Hlt.
    { destruct HV as [ND' F]. assert (List.length (r_ids I (st_round s)) <= List.length (map Z.of_nat (seq 1 (Z.to_nat 65535))))%nat as Hl.
      { apply List.NoDup_incl_length; [exact ND'|]. intros i Hi. apply in_map_iff. exists (Z.to_nat i).
        rewrite List.Forall_forall in F. specialize (F i Hi). cbv beta in F. split; [lia|]. apply in_seq. lia. }
      rewrite map_length, seq_length in Hl. lia. }
    pose proof (others_of_length _ _ (proj1 HV) Hself) as Ho.
    assert (size (st_received s) = List.length (others_s I s)) as HS'.
    { unfold others_s. revert HS. unfold N_ids, u16. rewrite (Z.mod_small (Z.of_nat _)) by lia. rewrite Z.mod_small by lia. lia. }
    pose proof (map_full (st_received s) (others_s I s) (others_of_NoDup _ _ (proj1 HV))) as HP.
    assert (In j (map_keys [] (st_received s))) as Hin.
    { eapply Permutation_in; [symmetry; apply HP|]; auto.
      - intros k v Hk. destruct (inv_received I s HI k v Hk) as (A & B & _). now apply others_of_In.
      - now apply others_of_In. }
    apply map_keys_In in Hin as [v Hv]. congruence.
  Qed.
  Lemma miss_dec (s : State R) l : (exists j, In j l /\ j <> r_self I (st_round s) /\ st_received s !! j = None) \/ (forall j, In j l -> j <> r_self I (st_round s) -> st_received s !! j <> None).
  Proof.
    induction l as [|x l [IH|IH]]; [right; intros ? []|left|].
    - destruct IH as (j & A & B). exists j. split; auto. now right.
    - destruct (Z.eq_dec x (r_self I (st_round s))) as [E|E].
      + right. intros j [->|Hj]; auto.
      + destruct (st_received s !! x) eqn:Ex.
        * right. intros j [->|Hj] Hne; auto. congruence.
        * left. exists x. split; [now left|auto].
  Qed.
End Kept.

(** * The Handlers over channels *)
Section Handlers.
  Context `{Gr : group_ops} {R : Type} (I : RoundI R) (ROK : round_ok I).
  Context (ids : list Z) (HS : sorted ids) (HV : valid_ids ids) (H2 : (2 <= List.length ids)%nat).
  Context (U W : Message -> Prop) (now timeout : Z -> Z) (r0 : Z -> R) (P : Z -> nat -> R -> list Message -> Prop)
      (F : Z -> R -> option PError -> list Message -> Prop) (s0 : Z -> State R) (t0 t1 t2 : Z) (M1 : Z -> Message) (M2 : Z -> list Message).
  Context (T : three I ids U W now timeout r0 P F s0 t0 t1 t2 M1 M2) (TD : List.NoDup [t0; t1; t2]).

  Lemma process_done a b s s' o : st_done s = true -> ProcessAll I a b s = Ret (s', o) -> s' = s.
  Proof. intros D. unfold ProcessAll. rewrite D. intros E. apply Ret_inj in E. now inversion E. Qed.
  Lemma TD12 : List.NoDup [t1; t2] /\ List.NoDup [t2] /\ t1 <> t2.
  Proof.
    apply List.NoDup_cons_iff in TD as [_ X]. split; auto. apply List.NoDup_cons_iff in X as [Y X]. split; auto. intros E. apply Y. now left.
  Qed.
  Definition addr (k : Z) (m : Message) : bool := IsBroadcast (m_Header m) || (m_To m =? k).
  Lemma addr_rel k m : m_From m <> k -> addr k m = rel k m.
  Proof. intros H. unfold addr, rel, IsBroadcast. fold (m_To m). now rewrite (proj2 (Z.eqb_neq _ _) H). Qed.
  Lemma addr_to k m : addr k m = true -> m_To m = 0 \/ m_To m = k.
  Proof. unfold addr, IsBroadcast. fold (m_To m). intros H. apply orb_true_iff in H as [H|H]; apply Z.eqb_eq in H; auto. Qed.

  (** What one party has gone through. *)
  Record pinv (ll : Prop) (c : hconfig) (H : Z -> Z -> list Message) (es : list event) (out : list Message) (i : Z) : Prop := {
    pi_run : run I (s0 i) es = Ret (hc_state c i, out);
    pi_ev : Forall (event_ok W) es;
    pi_cb : Forall (fun e => e <> ECallback) es;
    pi_ns : hc_started c i = false -> es = [] /\ forall j, In j ids -> j <> i -> H j i = [];
    pi_st : hc_started c i = true -> exists a b es', es = EProcess a b :: es';
    pi_from : forall m', stored (hc_state c i) m' -> exists j m, In j ids /\ j <> i /\ In m (H j i) /\ same_msg m m';
    pi_kept : ll -> forall j m, In j ids -> j <> i -> In m (H j i) -> kept (hc_state c i) j (m_Type m);
    pi_miss : hc_started c i = true -> st_done (hc_state c i) = false -> exists j, In j ids /\ j <> i /\ st_received (hc_state c i) !! j = None;
    pi_two : hc_started c i = true -> st_done (hc_state c i) = false -> st_roundNumber (hc_state c i) = 2 -> forall j, In j ids -> j <> i -> H j i <> []
  }.
  (** How often a message of [j] was given to [i], and how often [i] was started. *)
  Definition is_recv (j i : Z) (l : hlabel) : bool := match l with HRecv a b _ => (a =? j) && (b =? i) | _ => false end.
  Definition is_start (i : Z) (l : hlabel) : bool := match l with HStart a => a =? i | _ => false end.
  Definition cnt (f : hlabel -> bool) (ls : list hlabel) : nat := List.length (List.filter f ls).
  Lemma cnt_snoc f ls l : cnt f (ls ++ [l]) = (cnt f ls + if f l then 1 else 0)%nat.
  Proof. unfold cnt. rewrite List.filter_app, app_length. cbn. now destruct (f l). Qed.
  Record hinv (ll : Prop) (ls : list hlabel) (c : hconfig) : Prop := {
    hv : exists H es out, (forall i, In i ids -> pinv ll c H (es i) (out i) i) /\
       (forall j i, In j ids -> In i ids -> j <> i -> List.filter (addr i) (out j) = H j i ++ hc_chan c j i) /\
       (forall i, In i ids -> hc_chan c i i = []) /\
       (forall j i, In j ids -> In i ids -> j <> i -> List.length (H j i) = cnt (is_recv j i) ls)
  }.

  Lemma first_step i a b s o : In i ids -> ProcessAll I a b (s0 i) = Ret (s, o) ->
    o = [M1 i] /\ st_done s = false /\ st_roundNumber s = 1 /\ st_received s = ∅ /\ st_queue s = [].
  Proof.
    intros Hi E. destruct T.
    destruct (ph0 I ids HV U W now timeout r0 P F s0 th_E0 th_R0 th_HL th_NP t0 t1 t2 th_TY th_NE M1 th_M1 th_EX1 th_NXT th_WIRE i 0 a b Hi) as (s1 & _ & [[Er _ _ _] A B C D]).
    cbn [run step] in Er. rewrite E in Er. cbn in Er. rewrite app_nil_r in Er. apply Ret_inj in Er. inversion Er; subst. auto.
  Qed.
  Lemma run_round s es s' o : run I s es = Ret (s', o) -> st_roundNumber s <= st_roundNumber s'.
  Proof.
    apply (run_ind I (fun x _ => st_roundNumber s <= st_roundNumber x)); [lia|]. intros x ox e x' o' Hx E. apply (step_monotone I) in E. lia.
  Qed.
  (** A party that has started is in round 1 or 2 or has finished without error, and what it has sent is determined. *)
  Lemma started_form i es a b s out : In i ids -> run I (s0 i) (EProcess a b :: es) = Ret (s, out) -> Forall (event_ok W) es -> Forall (fun e => e <> ECallback) es ->
    st_err s = None /\
    ((st_done s = false /\ st_roundNumber s = 1 /\ st_accepted s = [t1; t2] /\ out = [M1 i]) \/
     (st_done s = false /\ st_roundNumber s = 2 /\ st_accepted s = [t2] /\ out = M1 i :: M2 i) \/
     (st_done s = true /\ out = M1 i :: M2 i)).
  Proof.
    intros Hi E HE HC. assert (Forall (event_ok W) (EProcess a b :: es)) as HE' by (constructor; [exact Logic.I|auto]).
    pose proof (th_NE T i _ _ _ Hi HE' ltac:(constructor; [discriminate|auto]) E) as Er. split; auto.
    pose proof (th_HL T i _ _ _ Hi HE' E) as L.
    destruct (st_done s) eqn:D.
    - right. right. split; auto. pose proof (li_F _ _ _ _ _ _ _ L D) as HF. rewrite Er in HF. now apply (th_EXF T) in HF.
    - destruct (li_P _ _ _ _ _ _ _ L D) as (n & En & Ea & HP). rewrite (th_TY T i Hi) in Ea.
      pose proof (th_P3 T i _ _ _ HP) as Hn.
      assert (1 <= st_roundNumber s) as H1.
      { cbn [run step] in E. apply obind_ret in E as ([s1 o1] & E1 & E). cbn [fst snd] in E. apply obind_ret in E as ([s2 o2] & E2 & E). apply Ret_inj in E. inversion E; subst.
        apply first_step in E1 as (_ & _ & N1 & _); auto. apply run_round in E2. cbn [fst] in *. lia. }
      destruct n as [|[|[|n]]]; [lia| | |lia].
      + left. cbn in Ea. apply (th_EX1 T) in HP; auto.
      + right. left. cbn in Ea. apply (th_EX2 T) in HP; auto.
  Qed.
  Lemma out_addr i j : In i ids -> In j ids -> j <> i -> exists m2, m_From m2 = j /\ m_Type m2 = t2 /\ U m2 /\
    List.filter (addr i) [M1 j] = [M1 j] /\ List.filter (addr i) (M1 j :: M2 j) = [M1 j; m2].
  Proof.
    intros Hi Hj Hne. destruct (th_M2f T i j Hi Hj ltac:(congruence)) as (m2 & Em).
    assert (In m2 (M2 j)) as Hin. { assert (In m2 (List.filter (rel i) (M2 j))) as X by (rewrite Em; now left). apply filter_In in X. apply X. }
    destruct (th_M2 T j m2 Hj Hin) as (A & B & C). exists m2. split; auto. split; auto. split; auto.
    destruct (th_M1 T j Hj) as (_ & Hf & _ & Ht).
    assert (addr i (M1 j) = true) as E1 by (unfold addr, IsBroadcast; fold (m_To (M1 j)); now rewrite Ht).
    cbn [List.filter]. rewrite E1. split; auto. f_equal. rewrite <- Em. apply filter_ext_in. intros m Hm. apply addr_rel.
    destruct (th_M2 T j m Hj Hm) as (_ & -> & _). exact Hne.
  Qed.
  (** The messages that a party has sent to another one so far. *)
  Lemma sent_form ll c H es out i k : pinv ll c H es out i -> In i ids -> In k ids -> i <> k ->
    exists m2, m_From m2 = i /\ m_Type m2 = t2 /\ m_From (M1 i) = i /\ m_Type (M1 i) = t1 /\ U m2 /\ U (M1 i) /\
      (List.filter (addr k) out = [] /\ hc_started c i = false \/ List.filter (addr k) out = [M1 i] /\ hc_started c i = true /\ st_done (hc_state c i) = false /\ st_roundNumber (hc_state c i) = 1 \/
       List.filter (addr k) out = [M1 i; m2] /\ hc_started c i = true /\ (st_done (hc_state c i) = true \/ st_roundNumber (hc_state c i) = 2)).
  Proof.
    intros PI Hi Hk Hne. destruct (out_addr k i Hk Hi Hne) as (m2 & A & B & C & D & E).
    destruct (th_M1 T i Hi) as (X1 & X2 & X3 & _). exists m2. repeat (split; auto).
    destruct (hc_started c i) eqn:Es.
    - destruct (pi_st _ _ _ _ _ _ PI Es) as (a & b & es' & ->). pose proof (List.Forall_inv_tail (pi_ev _ _ _ _ _ _ PI)) as HE. pose proof (List.Forall_inv_tail (pi_cb _ _ _ _ _ _ PI)) as HC.
      destruct (started_form i es' a b _ _ Hi (pi_run _ _ _ _ _ _ PI)) as (_ & [(Y1 & Y2 & _ & ->)|[(Y1 & Y2 & _ & ->)|(Y1 & ->)]]); auto; right; [left|right|right]; auto.
    - left. split; auto. destruct (pi_ns _ _ _ _ _ _ PI Es) as [-> _]. pose proof (pi_run _ _ _ _ _ _ PI) as X. cbn in X. apply Ret_inj in X. inversion X; subst. reflexivity.
  Qed.

  Lemma hinv_init ll : hinv ll [] (h_init s0).
  Proof.
    split. exists (fun _ _ => []), (fun _ => []), (fun _ => []). split; [|split; [auto|split; auto]].
    intros i Hi. split; cbn; auto; try discriminate.
    - intros m' [Hs|Hs].
      + rewrite (th_E0 T i Hi) in Hs. apply init_received in Hs as [Hs _]. discriminate.
      + rewrite (th_E0 T i Hi) in Hs. contradiction.
    - intros _ j m _ _ [].
  Qed.

  Lemma existsb_ids k : In k ids -> existsb (Z.eqb k) ids = true.
  Proof. intros H. apply existsb_exists. exists k. split; auto. apply Z.eqb_refl. Qed.
  Lemma push_self i k o chan : In k ids -> k <> i -> hc_push ids i o chan i k = chan i k ++ List.filter (addr k) o.
  Proof. intros Hk Hne. unfold hc_push. rewrite Z.eqb_refl, (proj2 (Z.eqb_neq _ _) Hne), (existsb_ids k Hk). reflexivity. Qed.
  Lemma push_other i j k o chan : j <> i -> hc_push ids i o chan j k = chan j k.
  Proof. intros Hne. unfold hc_push. now rewrite (proj2 (Z.eqb_neq _ _) Hne). Qed.
  Lemma push_loop i k o chan : hc_push ids i o chan k k = chan k k.
  Proof. unfold hc_push. destruct (Z.eqb_spec k i); reflexivity. Qed.

  (** A party that takes no part in a step keeps its record. *)
  Lemma pinv_frame ll c H es out j c' H' : pinv ll c H es out j -> hc_state c' j = hc_state c j -> hc_started c' j = hc_started c j -> (forall k, H' k j = H k j) -> pinv ll c' H' es out j.
  Proof.
    intros [] E1 E2 E3. split; rewrite ?E1, ?E2; auto.
    - intros X. destruct (pi_ns0 X). split; auto. intros k Hk Hne. rewrite E3. auto.
    - intros m' Hm. destruct (pi_from0 m' Hm) as (k & m & A & B & C & D). exists k, m. rewrite E3. auto.
    - intros HL k m. rewrite E3. auto.
    - intros X1 X2 X3 k Hk Hne. rewrite E3. auto.
  Qed.

  Lemma hinv_step ll ls c l c' : hinv ll ls c -> h_step I true ids c l c' -> (ll -> forall j i, l <> HRecv j i true) -> hinv ll (ls ++ [l]) c'.
  Proof.
    intros [(H & es & out & HP & HC & HD & HN)] HStep HL. destruct HStep as [i a b s' o Hi Hst EP|j i l1 m l2 m' nw a b s' o Hi Hj Hst Ech Hfifo Hsame EP].
    - (* a party starts *)
      pose proof (HP i Hi) as PI. destruct (pi_ns _ _ _ _ _ _ PI Hst) as [Ees HNi]. pose proof (pi_run _ _ _ _ _ _ PI) as Er. rewrite Ees in Er. cbn in Er. apply Ret_inj in Er. inversion Er as [[Er1 Er2]].
      rewrite <- Er1 in EP. destruct (first_step i a b s' o Hi EP) as (-> & D & N1 & R1 & Q1).
      split. exists H, (fun k => if k =? i then [EProcess a b] else es k), (fun k => if k =? i then [M1 i] else out k). split; [|split; [|split]].
      + intros k Hk. destruct (Z.eqb_spec k i) as [->|Hne].
        * split; cbn [hc_state hc_started hc_put]; unfold hc_put; rewrite ?Z.eqb_refl; cbn [orb]; try discriminate.
          -- cbn [run step]. rewrite EP. reflexivity.
          -- constructor; [exact Logic.I|constructor].
          -- constructor; [discriminate|constructor].
          -- intros _. eauto.
          -- intros x [Hx|Hx]; [rewrite R1, lookup_empty in Hx; discriminate|rewrite Q1 in Hx; contradiction].
          -- intros _ k m Hk' Hne Hm. rewrite HNi in Hm by auto. contradiction.
          -- intros _ _. destruct ids as [|x [|y l]] eqn:Ei; [cbn in H2; lia|cbn in H2; lia|]. pose proof (proj1 HV) as ND. inversion ND as [|? ? Hni ND']; subst.
             destruct (Z.eq_dec x i) as [->|Hx].
             ++ exists y. rewrite R1, lookup_empty. split; [right; now left|]. split; auto. intros ->. apply Hni. now left.
             ++ exists x. rewrite R1, lookup_empty. split; [now left|]. auto.
          -- intros _ _ X. lia.
        * eapply pinv_frame; [apply HP; auto| | |auto]; cbn [hc_state hc_started]; unfold hc_put; now rewrite (proj2 (Z.eqb_neq _ _) Hne).
      + intros k k' Hk Hk' Hne. destruct (Z.eqb_spec k i) as [->|Hki].
        * cbn [hc_chan]. rewrite push_self by auto. rewrite app_assoc, <- HC, <- Er2 by auto. reflexivity.
        * cbn [hc_chan]. rewrite push_other by auto. auto.
      + intros k Hk. cbn [hc_chan]. rewrite push_loop. auto.
      + intros k k' Hk Hk' Hne. rewrite cnt_snoc, HN by auto. cbn. lia.
    - (* a message is handled *)
      rewrite (Hfifo eq_refl) in *. clear Hfifo l1. cbn [app] in *.
      assert (j <> i) as Hji by (intros ->; rewrite HD in Ech by auto; discriminate).
      pose proof (HP i Hi) as PI. pose proof (HP j Hj) as PJ. destruct PI as [Er HE HCB Hns Hs Hfrom Hkept Hmiss Htwo].
      destruct (Hs Hst) as (a0 & b0 & es0 & Ees).
      destruct (sent_form _ _ _ _ _ _ _ PJ Hj Hi Hji) as (m2 & F2 & T2 & F1 & T1 & U2 & U1 & Hform).
      assert (List.filter (addr i) (out j) = H j i ++ m :: l2) as Hsent by (rewrite (HC j i Hj Hi Hji), Ech; reflexivity).
      assert (m = M1 j /\ H j i = [] \/ m = m2 /\ H j i = [M1 j]) as Hm.
      { destruct Hform as [[X _]|[[X _]|[X _]]]; rewrite X in Hsent.
        - destruct (H j i); discriminate.
        - destruct (H j i) as [|x l]; [left; inversion Hsent; auto|]. inversion Hsent as [[Ex El]]. destruct l; discriminate.
        - destruct (H j i) as [|x [|y l]]; [left; inversion Hsent; auto|right; inversion Hsent; auto|]. inversion Hsent as [[Ex Ey El]]. destruct l; discriminate. }
      assert (m_From m = j /\ U m /\ addr i m = true) as (Fm & Um & Am).
      { split; [destruct Hm as [[-> _]|[-> _]]; auto|]. split; [destruct Hm as [[-> _]|[-> _]]; auto|].
        assert (In m (List.filter (addr i) (out j))) as X by (rewrite Hsent; apply in_app_iff; right; now left). apply filter_In in X. apply X. }
      pose proof (same_from _ _ Hsame) as Fm'. pose proof (same_to _ _ Hsame) as To'. pose proof (same_type _ _ Hsame) as Ty'.
      assert (W m') as Wm' by (eapply (th_UW T); eauto).
      set (s := hc_state c i) in *. set (s1 := fst (HandleMessage I nw s m')) in *. unfold handler_msg in EP. fold s1 in EP.
      assert (run I (s0 i) (es i ++ [EHandle nw m'; EProcess a b]) = Ret (s', out i ++ o)) as Er'.
      { rewrite run_app, Er. cbn [obind fst snd run step]. fold s1. rewrite EP. cbn. now rewrite app_nil_r. }
      assert (Forall (event_ok W) (es i ++ [EHandle nw m'; EProcess a b])) as HE'.
      { apply Forall_app. split; [exact HE|]. constructor; [exact Wm'|constructor; [exact Logic.I|constructor]]. }
      assert (Forall (fun e => e <> ECallback) (es i ++ [EHandle nw m'; EProcess a b])) as HCB'.
      { apply Forall_app. split; [exact HCB|]. constructor; [discriminate|constructor; [discriminate|constructor]]. }
      pose proof (th_HL T i _ _ _ Hi HE Er) as L. pose proof (th_HL T i _ _ _ Hi HE' Er') as L'.
      destruct (th_R0 T i Hi) as [Rs Ri].
      pose proof (li_inv _ _ _ _ _ _ _ L) as IV. pose proof (li_self _ _ _ _ _ _ _ L) as Es. pose proof (li_ids _ _ _ _ _ _ _ L) as Eid. rewrite Rs in Es. rewrite Ri in Eid. fold s in IV, Es, Eid.
      assert (inv I s1) as IV1 by (eapply (inv_step I ROK s (EHandle nw m')); [exact IV|reflexivity]).
      assert (r_self I (st_round s1) = i /\ r_ids I (st_round s1) = ids) as [Es1 Eid1].
      { destruct (step_ids I ROK s (EHandle nw m') s1 [] eq_refl) as [X Y]. rewrite X, Y. auto. }
      assert (Forall (event_ok W) es0 /\ Forall (fun e => e <> ECallback) es0) as [HE0 HCB0]. { rewrite Ees in HE, HCB. split; [exact (List.Forall_inv_tail HE)|exact (List.Forall_inv_tail HCB)]. }
      rewrite Ees in Er. destruct (started_form i es0 a0 b0 _ _ Hi Er HE0 HCB0) as (Err & Hst2). fold s in Err, Hst2.
      rewrite Ees in Er', HE', HCB'. cbn [app] in Er'. destruct (started_form i (es0 ++ [EHandle nw m'; EProcess a b]) a0 b0 _ _ Hi Er') as (Err' & Hst2').
      { exact (List.Forall_inv_tail HE'). } { exact (List.Forall_inv_tail HCB'). }
      assert (List.NoDup (st_accepted s) \/ st_done s = true) as NDs.
      { destruct TD12 as (N0 & N1 & _). destruct Hst2 as [(_ & _ & -> & _)|[(_ & _ & -> & _)|(X & _)]]; auto. }
      assert (st_accepted s1 = st_accepted s /\ st_done s1 = st_done s /\ st_roundNumber s1 = st_roundNumber s) as (EA1 & ED1 & EN1).
      { unfold s1. destruct (handle_cases I nw s m') as [->|(_ & _ & _ & _ & _ & _ & ct & tl & _ & [[_ ->]|(_ & _ & ->)])]; auto. }
      set (H' := fun x y => if (x =? j) && (y =? i) then H j i ++ [m] else H x y).
      assert (forall x, In x ids -> x <> i -> forall y, In y (H x i) -> In y (H' x i)) as HH'.
      { intros x Hx Hxi y Hy. unfold H'. rewrite Z.eqb_refl, andb_true_r. destruct (Z.eqb_spec x j) as [->|]; auto. apply in_app_iff. auto. }
      split. exists H', (fun k => if k =? i then es i ++ [EHandle nw m'; EProcess a b] else es k), (fun k => if k =? i then out i ++ o else out k). split; [|split; [|split]].
      + intros k Hk. destruct (Z.eqb_spec k i) as [->|Hne].
        2:{ eapply pinv_frame; [apply HP; auto| | |]; cbn [hc_state hc_started]; unfold hc_put; [now rewrite (proj2 (Z.eqb_neq _ _) Hne)|auto|].
            intros x. unfold H'. rewrite (proj2 (Z.eqb_neq _ _) Hne), andb_false_r. reflexivity. }
        split; cbn [hc_state hc_started]; unfold hc_put; rewrite ?Z.eqb_refl; rewrite ?Ees; auto.
        * congruence.
        * intros _. eexists a0, b0, _. reflexivity.
        * intros x Hx. apply (stored_process I a b s1 s' o x IV1 EP) in Hx. apply stored_handle in Hx as [Hx| ->].
          -- destruct (Hfrom x Hx) as (y & z & A & B & C & D). exists y, z. split; auto.
          -- exists j, m. split; auto. split; auto. split; auto. unfold H'. rewrite !Z.eqb_refl. cbn. apply in_app_iff. right. now left.
        * intros HLL x y Hx Hxi Hy. destruct (st_done s) eqn:D.
          { left. assert (s' = s1) as ->; [|congruence]. unfold ProcessAll in EP. rewrite ED1 in EP. apply Ret_inj in EP. now inversion EP. }
          destruct NDs as [NDs|X]; [|congruence].
          eapply (kept_process I a b s1 s' o); eauto; [now rewrite EA1|].
          assert (In y (H x i) \/ x = j /\ y = m) as [Hy'|[-> ->]].
          { unfold H' in Hy. rewrite Z.eqb_refl, andb_true_r in Hy. destruct (Z.eqb_spec x j) as [->|]; auto. apply in_app_iff in Hy as [Hy|[Hy|[]]]; auto. }
          -- apply kept_handle. now apply Hkept.
          -- rewrite <- Fm, <- Fm', <- Ty'. apply kept_new; rewrite ?Es, ?Eid; auto.
             ++ now rewrite Fm', Fm.
             ++ rewrite To'. now apply addr_to.
             ++ specialize (HL HLL j i). cbn [negb andb] in HL. destruct (snd (HandleMessage I nw s m')); [contradiction|reflexivity].
        * intros _ D'. assert (st_done s = false) as D. { destruct (st_done s) eqn:D; auto. exfalso. apply process_done in EP; auto. congruence. }
          destruct (miss_dec I s1 ids) as [Hm1|Hall].
          -- assert (s' = s1) as ->.
             { apply process_cases in EP. destruct Hm1 as (x & A & B & C).
               assert (Z.of_nat (size (st_received s1)) <> u16 (N_ids (r_ids I (st_round s1)) - 1)) as Hsz.
               { intros X. refine (full_all I s1 IV1 _ _ X x _ B C); rewrite ?Eid1, ?Es1; auto. }
               destruct EP as [-> _ _|r cx tx _ X|r r' cx tx _ X|r r' ct' tl' rcv q _ X]; auto; contradiction. }
             destruct Hm1 as (x & A & B & C). exists x. rewrite Es1 in B. auto.
          -- (* the round is complete: this was the last message of round 1 *)
             destruct (full_moves I s1 a b s' o IV1) as [X|X]; rewrite ?Eid1, ?Es1; auto; [congruence|unfold others_s; rewrite Es1, Eid1; intros x Hx; apply others_of_In in Hx as [Hx1 Hx2]; apply Hall; auto; now rewrite Es1|congruence|].
             assert (st_roundNumber s = 1 /\ st_accepted s = [t1; t2]) as [Ns As].
             { destruct Hst2' as [(_ & Y & _)|[(_ & Y & _)|(Y & _)]]; [| |congruence]; (destruct Hst2 as [(_ & Z1 & Z2 & _)|[(_ & Z1 & _)|(Z1 & _)]]; [split; auto; fail|lia|congruence]). }
             destruct (Hmiss Hst D) as (x & Hx1 & Hx2 & Hx3).
             assert (x = j /\ m_Type m = t1 /\ st_queue s1 = st_queue s) as (-> & Htm & Eq1).
             { specialize (Hall x Hx1 ltac:(now rewrite Es1)). revert Hall. unfold s1. destruct (handle_cases I nw s m') as [->|(_ & _ & _ & _ & _ & _ & ct & tl & EA & [[Ec ->]|(_ & _ & ->)])]; [congruence| |cbn; congruence].
               cbn. intros Hall. destruct (Z.eq_dec (m_From m') x) as [Ex|Ex]; [|rewrite lookup_insert_ne in Hall; congruence]. split; [congruence|]. split; [congruence|auto]. }
             assert (H j i = []) as EH. { destruct Hm as [[_ ?]|[Em _]]; auto. exfalso. destruct TD12 as (_ & _ & N1). apply N1. congruence. }
             exists j. split; auto. split; auto.
             apply process_cases in EP. destruct EP as [-> _ Y|r cx tx _ HS1 _ ER _|r r' cx tx _ HS1 _ _ ER _|r r' ct' tl' rcv q _ HS1 _ EG EA EQ EN].
             ++ lia.
             ++ exfalso. apply reportError_ret in ER as (r2 & _ & _ & ->); [discriminate|cbn; congruence|cbn; apply (inv_err I s1 IV1); congruence].
             ++ exfalso. apply reportError_ret in ER as (r2 & _ & _ & ->); [discriminate|cbn; congruence|cbn; apply (inv_err I s1 IV1); congruence].
             ++ destruct (r_next I r'); [|apply finish_ret in EN as (r2 & _ & _ & ->); [discriminate|cbn; congruence]]. subst s'. cbn [st_received].
                rewrite EA1, As in EA. inversion EA; subst ct' tl'. rewrite Eq1 in EQ. assert (rcv = fst (take_queue t2 (st_queue s) ∅)) as -> by (now rewrite <- EQ).
                destruct (fst (take_queue t2 (st_queue s) ∅) !! j) eqn:Ek; auto. exfalso. apply take_queue_some in Ek as (y & _ & Hy1 & _ & Hy2).
                destruct (Hfrom y (or_intror Hy1)) as (z & w & Z1 & Z2 & Z3 & Z4). pose proof (HP z Z1) as PZ. destruct (sent_form _ _ _ _ _ _ _ PZ Z1 Hi Z2) as (m2z & G1 & G2 & G3 & G4 & _ & _ & Hformz).
                assert (In w (List.filter (addr i) (out z))) as Hw by (rewrite HC by auto; apply in_app_iff; auto).
                assert (m_From w = z) as Fw.
                { destruct Hformz as [[X1 _]|[[X1 _]|[X1 _]]]; rewrite X1 in Hw; [contradiction|destruct Hw as [<-|[]]; auto|destruct Hw as [<-|[<-|[]]]; auto]. }
                rewrite (same_from _ _ Z4), Fw in Hy2. subst z. rewrite EH in Z3. contradiction.
        * intros _ D' N' x Hx Hxi. assert (st_done s = false) as D. { destruct (st_done s) eqn:D; auto. exfalso. apply process_done in EP; auto. congruence. }
          unfold H'. rewrite Z.eqb_refl, andb_true_r. destruct (Z.eqb_spec x j) as [->|Hxj]; [destruct (H j i); discriminate|].
          destruct Hst2 as [(_ & N1 & _)|[(_ & N2 & _)|(X & _)]]; [|apply Htwo; auto|congruence].
          assert (Z.of_nat (size (st_received s1)) = u16 (N_ids (r_ids I (st_round s1)) - 1)) as Hsz.
          { apply process_cases in EP. destruct EP as [-> _ _|r cx tx _ X|r r' cx tx _ X|r r' ct' tl' rcv q _ X]; auto. lia. }
          assert (st_received s1 !! x <> None) as Hrx by (refine (full_all I s1 IV1 _ _ Hsz x _ _); rewrite ?Es1, ?Eid1; auto).
          assert (st_received s !! x <> None) as Hrx'.
          { revert Hrx. unfold s1. destruct (handle_cases I nw s m') as [->|(_ & _ & _ & _ & _ & _ & ct & tl & EA & [[Ec ->]|(_ & _ & ->)])]; auto. cbn. rewrite lookup_insert_ne; auto. congruence. }
          destruct (st_received s !! x) as [v|] eqn:Ev; [|congruence]. destruct (inv_received I s IV x v Ev) as (_ & _ & Hv). destruct v as [y|]; [|lia]. destruct Hv as (Fy & _ & _).
          destruct (Hfrom y) as (z & w & Z1 & Z2 & Z3 & Z4); [left; rewrite Fy; exact Ev|].
          pose proof (HP z Z1) as PZ. destruct (sent_form _ _ _ _ _ _ _ PZ Z1 Hi Z2) as (m2z & G1 & G2 & G3 & G4 & _ & _ & Hformz).
          assert (In w (List.filter (addr i) (out z))) as Hw by (rewrite HC by auto; apply in_app_iff; auto).
          assert (m_From w = z) as Fw.
          { destruct Hformz as [[X1 _]|[[X1 _]|[X1 _]]]; rewrite X1 in Hw; [contradiction|destruct Hw as [<-|[]]; auto|destruct Hw as [<-|[<-|[]]]; auto]. }
          rewrite (same_from _ _ Z4), Fw in Fy. subst z. intros X. rewrite X in Z3. contradiction.
      + intros k k' Hk Hk' Hne. cbn [hc_chan]. destruct (Z.eqb_spec k i) as [->|Hki].
        * rewrite push_self by auto. unfold hc_pop, H'. rewrite (proj2 (Z.eqb_neq i j)) by auto. cbn [andb]. rewrite List.filter_app, HC, app_assoc by auto. reflexivity.
        * rewrite push_other by auto. unfold hc_pop, H'. destruct (Z.eqb_spec k j) as [->|Hkj]; cbn [andb]; [|auto]. destruct (Z.eqb_spec k' i) as [->|]; [|auto]. rewrite Hsent, <- app_assoc. reflexivity.
      + intros k Hk. cbn [hc_chan]. rewrite push_loop. unfold hc_pop. destruct (Z.eqb_spec k j) as [->|]; cbn [andb]; auto. rewrite (proj2 (Z.eqb_neq j i)) by auto. auto.
      + intros k k' Hk Hk' Hne. rewrite cnt_snoc. cbn [is_recv]. unfold H'. rewrite (Z.eqb_sym j k), (Z.eqb_sym i k').
        destruct (Z.eqb_spec k j) as [->|]; cbn [andb]; [|rewrite HN by auto; lia]. destruct (Z.eqb_spec k' i) as [->|]; [|rewrite HN by auto; lia].
        rewrite app_length, HN by auto. reflexivity.
  Qed.

  Lemma trace_hinv (ll : Prop) ls c : h_trace I true ids (h_init s0) ls c -> (ll -> none_lost ls) -> hinv ll ls c.
  Proof.
    induction 1 as [|ls c l c' HT IH HStep]; intros HL; [apply hinv_init|]. eapply hinv_step; eauto.
    - apply IH. intros X j i Hin. apply (HL X j i). apply in_app_iff. auto.
    - intros X j i ->. apply (HL X j i). apply in_app_iff. right. now left.
  Qed.

  (** If nothing was lost and nothing more happens, everybody has finished. *)
  Lemma rests_done ls c : hinv True ls c -> h_rests ids c -> forall i, In i ids -> st_done (hc_state c i) = true /\ st_err (hc_state c i) = None.
  Proof.
    intros [(H & es & out & HP & HC & _)] HR.
    assert (forall i, In i ids -> exists es0 a b, es i = EProcess a b :: es0 /\ Forall (event_ok W) es0 /\ Forall (fun e => e <> ECallback) es0) as Hes.
    { intros i Hi. destruct (HR i Hi) as [Hst _]. pose proof (HP i Hi) as PI. destruct (pi_st _ _ _ _ _ _ PI Hst) as (a & b & es0 & E). pose proof (pi_ev _ _ _ _ _ _ PI) as HE. pose proof (pi_cb _ _ _ _ _ _ PI) as HCB.
      rewrite E in HE, HCB. exists es0, a, b. split; auto. split; [exact (List.Forall_inv_tail HE)|exact (List.Forall_inv_tail HCB)]. }
    assert (forall i, In i ids -> st_err (hc_state c i) = None) as Hne.
    { intros i Hi. destruct (Hes i Hi) as (es0 & a & b & E & HE & HCB). pose proof (pi_run _ _ _ _ _ _ (HP i Hi)) as Er. rewrite E in Er. now destruct (started_form i es0 a b _ _ Hi Er HE HCB). }
    (* a running party has all messages of its round as soon as the others have sent them *)
    assert (forall i t tl, In i ids -> st_done (hc_state c i) = false -> st_accepted (hc_state c i) = t :: tl -> List.NoDup (t :: tl) ->
      (forall j, In j ids -> j <> i -> exists m, In m (List.filter (addr i) (out j)) /\ m_Type m = t) -> False) as Hno.
    { intros i t tl Hi D EA ND Hall. destruct (HR i Hi) as [Hst [X|Hch]]; [congruence|]. pose proof (HP i Hi) as PI.
      destruct (pi_miss _ _ _ _ _ _ PI Hst D) as (j & Hj & Hji & Hr). destruct (Hall j Hj Hji) as (m & Hm & Ht). rewrite HC, Hch, app_nil_r in Hm by auto.
      pose proof (th_HL T i _ _ _ Hi (pi_ev _ _ _ _ _ _ PI) (pi_run _ _ _ _ _ _ PI)) as L.
      refine (kept_received I (hc_state c i) j t tl (li_inv _ _ _ _ _ _ _ L) _ D EA _ Hr); [now rewrite EA|]. rewrite <- Ht. now apply (pi_kept _ _ _ _ _ _ PI Logic.I). }
    destruct TD12 as (N12 & N2 & _).
    assert (forall i, In i ids -> (st_done (hc_state c i) = false /\ st_roundNumber (hc_state c i) = 2 /\ st_accepted (hc_state c i) = [t2]) \/ st_done (hc_state c i) = true) as H1.
    { intros i Hi. destruct (Hes i Hi) as (es0 & a & b & E & HE & HCB). pose proof (pi_run _ _ _ _ _ _ (HP i Hi)) as Er. rewrite E in Er.
      destruct (started_form i es0 a b _ _ Hi Er HE HCB) as (_ & [(D & N & A & _)|[(D & N & A & _)|(D & _)]]); auto. exfalso.
      apply (Hno i t1 [t2] Hi D A N12). intros j Hj Hji. exists (M1 j). destruct (sent_form _ _ _ _ _ _ _ (HP j Hj) Hj Hi Hji) as (m2 & _ & _ & _ & Ht & _ & _ & Hform). split; auto.
      destruct (HR j Hj) as [Hst _]. destruct Hform as [[_ X]|[[X _]|[X _]]]; [congruence|rewrite X; now left|rewrite X; now left]. }
    intros i Hi. split; auto. destruct (H1 i Hi) as [(D & N & A)|D]; auto. exfalso. apply (Hno i t2 [] Hi D A N2).
    intros j Hj Hji. destruct (sent_form _ _ _ _ _ _ _ (HP j Hj) Hj Hi Hji) as (m2 & _ & Ht & _ & _ & _ & _ & Hform). exists m2. split; auto.
    destruct (HR j Hj) as [Hst _]. destruct Hform as [[_ X]|[[_ (_ & X & Y)]|[X _]]]; [congruence| |rewrite X; right; now left].
    exfalso. destruct (H1 j Hj) as [(_ & Z1 & _)|Z1]; [lia|congruence].
  Qed.

  (** Two parties lose nothing. *)
  Lemma pair_no_loss ls c l c' : List.length ids = 2%nat -> hinv True ls c -> h_step I true ids c l c' -> forall j i, l <> HRecv j i true.
  Proof.
    intros Hlen [(H & es & out & HP & HC & HD & _)] HStep x y. destruct HStep as [i a b s' o Hi Hst EP|j i l1 m l2 m' nw a b s' o Hi Hj Hst Ech Hfifo Hsame EP]; [discriminate|].
    intros X. injection X as Ej Ei EX. subst x y. apply andb_true_iff in EX as [D EX]. apply negb_true_iff in D. rewrite (Hfifo eq_refl) in *. cbn [app] in *.
    assert (j <> i) as Hji by (intros ->; rewrite HD in Ech by auto; discriminate).
    pose proof (HP i Hi) as PI. pose proof (HP j Hj) as PJ.
    destruct (sent_form _ _ _ _ _ _ _ PJ Hj Hi Hji) as (m2 & F2 & T2 & F1 & T1 & U2 & U1 & Hform).
    assert (List.filter (addr i) (out j) = H j i ++ m :: l2) as Hsent by (rewrite (HC j i Hj Hi Hji), Ech; reflexivity).
    assert (m = M1 j /\ H j i = [] \/ m = m2 /\ H j i = [M1 j]) as Hm.
    { destruct Hform as [[X _]|[[X _]|[X _]]]; rewrite X in Hsent.
      - destruct (H j i); discriminate.
      - destruct (H j i) as [|z l]; [left; inversion Hsent; auto|]. inversion Hsent as [[Ex El]]. destruct l; discriminate.
      - destruct (H j i) as [|z [|w l]]; [left; inversion Hsent; auto|right; inversion Hsent; auto|]. inversion Hsent as [[Ex Ey El]]. destruct l; discriminate. }
    assert (m_From m' = j) as Fm by (rewrite (same_from _ _ Hsame); destruct Hm as [[-> _]|[-> _]]; auto).
    assert (addr i m = true) as Am.
    { assert (In m (List.filter (addr i) (out j))) as X by (rewrite Hsent; apply in_app_iff; right; now left). apply filter_In in X. apply X. }
    destruct (pi_miss _ _ _ _ _ _ PI Hst D) as (k & Hk & Hki & Hr).
    assert (k = j) as ->.
    { destruct ids as [|z [|w [|? ?]]]; try discriminate. cbn [In] in *. destruct Hk as [<-|[<-|[]]], Hj as [<-|[<-|[]]], Hi as [<-|[<-|[]]]; auto; congruence. }
    destruct (pi_st _ _ _ _ _ _ PI Hst) as (a0 & b0 & es0 & Ees). pose proof (pi_ev _ _ _ _ _ _ PI) as HE. pose proof (pi_cb _ _ _ _ _ _ PI) as HCB. pose proof (pi_run _ _ _ _ _ _ PI) as Er.
    pose proof (th_HL T i _ _ _ Hi HE Er) as L. destruct (th_R0 T i Hi) as [Rs Ri].
    pose proof (li_self _ _ _ _ _ _ _ L) as Es. pose proof (li_ids _ _ _ _ _ _ _ L) as Eid. rewrite Rs in Es. rewrite Ri in Eid.
    rewrite Ees in HE, HCB, Er. destruct (started_form i es0 a0 b0 _ _ Hi Er (List.Forall_inv_tail HE) (List.Forall_inv_tail HCB)) as (_ & Hst2).
    assert (exists ct tl, st_accepted (hc_state c i) = ct :: tl /\ In (m_Type m') (ct :: tl)) as (ct & tl & EA & Hty).
    { rewrite (same_type _ _ Hsame). destruct Hst2 as [(_ & _ & EA & _)|[(_ & N & EA & _)|(X & _)]]; [| |congruence].
      - exists t1, [t2]. split; auto. destruct Hm as [[-> _]|[-> _]]; [left|right; left]; auto.
      - exists t2, []. split; auto. destruct Hm as [[_ X]|[-> _]]; [|left; auto]. exfalso. eapply (pi_two _ _ _ _ _ _ PI Hst D N j); auto. }
    revert EX. unfold HandleMessage. rewrite D, EA, Es, Eid, Fm, (proj2 (Z.eqb_neq _ _) Hji).
    assert (negb (IsBroadcast (m_Header m')) && negb (m_To m' =? i) = false) as ->.
    { apply addr_to in Am. rewrite <- (same_to _ _ Hsame) in Am. unfold IsBroadcast. fold (m_To m'). destruct Am as [->| ->]; [reflexivity|]. rewrite Z.eqb_refl. now rewrite andb_false_r. }
    rewrite (proj2 (Contains_In _ _ HS) Hj). cbn [negb]. rewrite Hr.
    assert (isAcceptedType (hc_state c i) (m_Type m') = true) as ->.
    { unfold isAcceptedType. rewrite EA. apply existsb_exists. exists (m_Type m'). split; auto. apply Z.eqb_refl. }
    cbn [negb]. destruct (m_Type m' =? ct); discriminate.
  Qed.
  Lemma pair_trace ls c : List.length ids = 2%nat -> h_trace I true ids (h_init s0) ls c -> none_lost ls /\ hinv True ls c.
  Proof.
    intros Hlen. induction 1 as [|ls c l c' HT [IH1 IH2] HStep]; [split; [intros j i []|apply hinv_init]|].
    pose proof (pair_no_loss ls c l c' Hlen IH2 HStep) as X. split; [|eapply hinv_step; eauto].
    intros j i Hin. apply in_app_iff in Hin as [Hin|[Hin|[]]]; [eapply IH1; eauto|eapply X; eauto].
  Qed.

  (** What is on its way fits into the buffers. *)
  Lemma chan_bound ls c : hinv False ls c -> forall j i, In j ids -> In i ids -> (cnt (is_recv j i) ls + List.length (hc_chan c j i) <= if (j =? i)%Z then cnt (is_recv j i) ls else 2)%nat.
  Proof.
    intros [(H & es & out & HP & HC & HD & HN)] j i Hj Hi. destruct (Z.eqb_spec j i) as [->|Hne]; [rewrite HD by auto; cbn; lia|].
    rewrite <- HN by auto. rewrite <- app_length, <- HC by auto. destruct (sent_form _ _ _ _ _ _ _ (HP j Hj) Hj Hi Hne) as (m2 & _ & _ & _ & _ & _ & _ & Hform).
    destruct Hform as [[-> _]|[[-> _]|[-> _]]]; cbn; lia.
  Qed.
  Lemma waiting_bound ls c i : h_trace I true ids (h_init s0) ls c -> In i ids -> (list_sum (map (fun j => List.length (hc_chan c j i)) ids) <= 2 * (List.length ids - 1))%nat.
  Proof.
    intros HT Hi. pose proof (chan_bound ls c (trace_hinv False ls c HT ltac:(contradiction))) as HB.
    assert (forall (g : Z -> nat) l, (forall x, In x l -> g x <= 2)%nat -> (list_sum (map g l) <= 2 * List.length l)%nat) as H1.
    { intros g. induction l as [|y l IH]; intros Hg; [cbn; lia|]. cbn [map list_sum fold_right List.length]. pose proof (Hg y (or_introl eq_refl)). specialize (IH (fun x Hx => Hg x (or_intror Hx))). unfold list_sum in *. lia. }
    assert (forall (g : Z -> nat) l, In i l -> g i = 0%nat -> (forall x, In x l -> g x <= 2)%nat -> (list_sum (map g l) <= 2 * (List.length l - 1))%nat) as H3.
    { intros g. induction l as [|y l IH]; intros Hin H0 Hg; [contradiction|]. cbn [map list_sum fold_right List.length]. pose proof (Hg y (or_introl eq_refl)).
      destruct (Z.eq_dec y i) as [->|Hne].
      - pose proof (H1 g l (fun x Hx => Hg x (or_intror Hx))). unfold list_sum in *. lia.
      - destruct Hin as [->|Hin]; [congruence|]. specialize (IH Hin H0 (fun x Hx => Hg x (or_intror Hx))). destruct l; [contradiction|]. unfold list_sum in *. cbn [List.length] in *. lia. }
    apply H3; auto.
    - specialize (HB i i Hi Hi). rewrite Z.eqb_refl in HB. lia.
    - intros j Hj. specialize (HB j i Hj Hi). destruct (j =? i); lia.
  Qed.
  Lemma recv_self ls c i : h_trace I true ids (h_init s0) ls c -> In i ids -> cnt (is_recv i i) ls = 0%nat.
  Proof.
    intros HT Hi. induction HT as [|ls c l c' HT IH HStep]; [reflexivity|]. rewrite cnt_snoc, IH. destruct (is_recv i i l) eqn:E; auto.
    pose proof (chan_bound ls c (trace_hinv False ls c HT ltac:(contradiction)) i i Hi Hi) as X. rewrite Z.eqb_refl in X.
    destruct HStep as [k a b s' o Hk Hst EP|j k l1 m l2 m' nw a b s' o Hk Hj Hst Ech Hfifo Hsame EP]; [discriminate|].
    cbn in E. apply andb_true_iff in E as [E1 E2]. apply Z.eqb_eq in E1, E2. subst. rewrite Ech, app_length in X. cbn in X. lia.
  Qed.
  Lemma start_once ls c i : h_trace I true ids (h_init s0) ls c -> cnt (is_start i) ls = if hc_started c i then 1%nat else 0%nat.
  Proof.
    induction 1 as [|ls c l c' HT IH HStep]; [reflexivity|]. rewrite cnt_snoc, IH.
    destruct HStep as [k a b s' o Hk Hst EP|j k l1 m l2 m' nw a b s' o Hk Hj Hst Ech Hfifo Hsame EP]; cbn [is_start hc_started]; [|lia].
    rewrite (Z.eqb_sym k i). destruct (Z.eqb_spec i k) as [->|]; cbn [orb]; [rewrite Hst|]; lia.
  Qed.
  Definition key (l : hlabel) : Z * Z := match l with HStart i => (i, i) | HRecv j i _ => (j, i) end.
  Definition Zpair_dec : forall x y : Z * Z, {x = y} + {x <> y}.
  Proof. decide equality; apply Z.eq_dec. Defined.
  Lemma count_len {A} (dec : forall x y : A, {x = y} + {x <> y}) k : forall dom l, (forall x, In x l -> In x dom) -> (forall x, (count_occ dec l x <= k)%nat) -> (List.length l <= k * List.length dom)%nat.
  Proof.
    induction dom as [|x dom IH]; intros l Hin Hc.
    - destruct l as [|y l]; [cbn; lia|]. destruct (Hin y (or_introl eq_refl)).
    - assert (List.length l = count_occ dec l x + List.length (List.remove dec x l))%nat as E.
      { clear. induction l as [|y l IH]; [reflexivity|]. cbn [List.length count_occ List.remove]. destruct (dec y x) as [->|Hne].
        - destruct (dec x x); [|congruence]. lia.
        - destruct (dec x y); [congruence|]. cbn. lia. }
      specialize (Hc x) as Hx. assert (List.length (List.remove dec x l) <= k * List.length dom)%nat as X.
      { apply IH.
        - intros y Hy. apply in_remove in Hy as [Hy Hne]. destruct (Hin y Hy) as [->|X]; [congruence|exact X].
        - intros y. etransitivity; [|apply (Hc y)]. clear. induction l as [|z l IH]; [reflexivity|]. cbn [List.remove count_occ]. destruct (dec x z); [destruct (dec z y); lia|]. cbn. destruct (dec z y); lia. }
      cbn [List.length]. lia.
  Qed.
  Lemma count_key ls x y : count_occ Zpair_dec (map key ls) (x, y) = ((if (x =? y)%Z then cnt (is_start x) ls else 0) + cnt (is_recv x y) ls)%nat.
  Proof.
    induction ls as [|l ls IH]; [now destruct (x =? y)|]. cbn [map count_occ]. rewrite IH. unfold cnt. cbn [List.filter].
    destruct l as [i|j i lost]; cbn [key is_start is_recv].
    - destruct (Zpair_dec (i, i) (x, y)) as [E|E].
      + inversion E; subst. rewrite !Z.eqb_refl. cbn. lia.
      + destruct (Z.eqb_spec x y) as [->|]; [|lia]. destruct (Z.eqb_spec i y) as [->|]; [congruence|lia].
    - destruct (Zpair_dec (j, i) (x, y)) as [E|E].
      + inversion E; subst. rewrite !Z.eqb_refl. cbn. destruct (x =? y); lia.
      + destruct (Z.eqb_spec j x) as [->|], (Z.eqb_spec i y) as [->|]; cbn [andb]; [congruence| | |]; destruct (x =? y); lia.
  Qed.
  (** Executions are finite. *)
  Lemma trace_bound ls c : h_trace I true ids (h_init s0) ls c -> (List.length ls <= 2 * (List.length ids * List.length ids))%nat.
  Proof.
    intros HT. rewrite <- (map_length key), <- prod_length. apply (count_len Zpair_dec).
    - intros [x y] Hin. apply in_map_iff in Hin as (l & E & Hl). apply in_prod_iff. clear - HT E Hl.
      induction HT as [|ls c l' c' HT IH HStep]; [contradiction|]. apply in_app_iff in Hl as [Hl|[->|[]]]; auto.
      destruct HStep; cbn in E; inversion E; subst; auto.
    - intros [x y]. rewrite count_key. pose proof (start_once ls c x HT) as Hs.
      destruct (in_dec Z.eq_dec x ids) as [Hx|Hx], (in_dec Z.eq_dec y ids) as [Hy|Hy].
      + pose proof (chan_bound ls c (trace_hinv False ls c HT ltac:(contradiction)) x y Hx Hy) as Hb. destruct (Z.eqb_spec x y) as [->|]; [|lia].
        rewrite (recv_self ls c y HT Hy), Hs. destruct (hc_started c y); lia.
      + assert (cnt (is_recv x y) ls = 0%nat) as ->; [|rewrite Hs; destruct (x =? y), (hc_started c x); lia].
        clear - HT Hy. induction HT as [|ls c l' c' HT IH HStep]; [reflexivity|]. rewrite cnt_snoc, IH. destruct HStep; cbn; auto. destruct (Z.eqb_spec i y) as [->|]; [contradiction|]. now rewrite andb_false_r.
      + assert (cnt (is_recv x y) ls = 0%nat) as ->; [|rewrite Hs; destruct (x =? y), (hc_started c x); lia].
        clear - HT Hx. induction HT as [|ls c l' c' HT IH HStep]; [reflexivity|]. rewrite cnt_snoc, IH. destruct HStep; cbn; auto. destruct (Z.eqb_spec j x) as [->|]; [contradiction|]. reflexivity.
      + assert (cnt (is_recv x y) ls = 0%nat) as ->; [|rewrite Hs; destruct (x =? y), (hc_started c x); lia].
        clear - HT Hx. induction HT as [|ls c l' c' HT IH HStep]; [reflexivity|]. rewrite cnt_snoc, IH. destruct HStep; cbn; auto. destruct (Z.eqb_spec j x) as [->|]; [contradiction|]. reflexivity.
  Qed.
  (** When no step is possible any more, the configuration is at rest. *)
  Lemma stuck_rests ls c : h_trace I true ids (h_init s0) ls c -> (forall l c', ~ h_step I true ids c l c') -> h_rests ids c.
  Proof.
    intros HT Hno i Hi. destruct (trace_hinv False ls c HT ltac:(contradiction)) as [(H & es & out & HP & HC & HD & HN)]. pose proof (HP i Hi) as PI.
    destruct (hc_started c i) eqn:Hst.
    - split; auto. right. intros j Hj. destruct (hc_chan c j i) as [|m l] eqn:Ech; auto. exfalso.
      assert (j <> i) as Hji by (intros ->; rewrite HD in Ech by auto; discriminate).
      assert (U m) as Um.
      { destruct (sent_form _ _ _ _ _ _ _ (HP j Hj) Hj Hi Hji) as (m2 & _ & _ & _ & _ & U2 & U1 & Hform).
        assert (In m (List.filter (addr i) (out j))) as X by (rewrite HC by auto; apply in_app_iff; right; rewrite Ech; now left).
        destruct Hform as [[E _]|[[E _]|[E _]]]; rewrite E in X; [contradiction|destruct X as [<-|[]]; auto|destruct X as [<-|[<-|[]]]; auto]. }
      destruct (pi_st _ _ _ _ _ _ PI Hst) as (a0 & b0 & es0 & Ees). pose proof (pi_ev _ _ _ _ _ _ PI) as HE. pose proof (pi_run _ _ _ _ _ _ PI) as Er. rewrite Ees in HE, Er.
      destruct (th_NP T i a0 b0 (es0 ++ [EHandle 0 m; EProcess [] []]) Hi) as (s & o & E).
      { apply Forall_app. split; [exact (List.Forall_inv_tail HE)|]. constructor; [|constructor; [exact Logic.I|constructor]]. eapply (th_UW T); [exact Um|now left]. }
      change (EProcess a0 b0 :: es0 ++ [EHandle 0 m; EProcess [] []]) with ((EProcess a0 b0 :: es0) ++ [EHandle 0 m; EProcess [] []]) in E.
      rewrite run_app, Er in E. cbn [obind fst snd run step] in E. destruct (ProcessAll I [] [] (fst (HandleMessage I 0 (hc_state c i) m))) as [[s' o']| |] eqn:EP; try discriminate.
      eapply Hno. eapply (h_recv I true ids c j i [] m l m 0 [] [] s' o'); eauto. now left.
    - exfalso. destruct (pi_ns _ _ _ _ _ _ PI Hst) as [Ees _]. pose proof (pi_run _ _ _ _ _ _ PI) as Er. rewrite Ees in Er. cbn in Er. apply Ret_inj in Er. inversion Er as [[Es Eo]].
      destruct (th_NP T i [] [] [] Hi) as (s & o & E); [constructor|]. cbn [run step] in E. rewrite Es in E. destruct (ProcessAll I [] [] (hc_state c i)) as [[s' o']| |] eqn:EP; try discriminate.
      eapply Hno. eapply (h_start I true ids c i [] [] s' o'); eauto.
  Qed.
End Handlers.

(** * The Handlers as a network *)
Section HandlerNet.
  Context `{Gr : group_ops} {R : Type} (I : RoundI R).

  (** Executions of Handlers, over either transport, are executions of the network of Net.v. *)
  Lemma trace_net fifo ids s0 ls c : h_trace I fifo ids (h_init s0) ls c ->
    exists cf, net_reach I ids (mkConfig s0 []) cf /\ (forall i, cf_state cf i = hc_state c i) /\ forall j i m, In m (hc_chan c j i) -> In m (cf_sent cf).
  Proof.
    induction 1 as [|ls c l c' HT (cf & HR & HSt & HCh) HStep]; [exists (mkConfig s0 []); split; [constructor|]; split; [auto|intros j i m []]|].
    assert (forall i o chan' sent, (forall j k m, In m (chan' j k) -> In m sent) -> forall j k m, In m (hc_push ids i o chan' j k) -> In m (sent ++ o)) as Hpush.
    { intros i o chan' sent Hx j k m. unfold hc_push. destruct (_ && _ && _); [|intros Hm; apply in_app_iff; left; eauto].
      rewrite in_app_iff, filter_In, in_app_iff. intros [Hm|[Hm _]]; eauto. }
    destruct HStep as [i a b s' o Hi Hst EP|j i l1 m l2 m' nw a b s' o Hi Hj Hst Ech Hfifo Hsame EP].
    - exists (cf_set cf i s' o). split; [|split].
      + econstructor; [exact HR|]. apply (net_one I ids cf i (EProcess a b)); auto; [discriminate|]. cbn [step]. rewrite HSt. exact EP.
      + intros k. cbn. unfold hc_put. destruct (k =? i); auto.
      + intros x y z Hz. cbn. eapply Hpush; eauto.
    - set (s1 := fst (HandleMessage I nw (hc_state c i) m')). exists (cf_set (cf_set cf i s1 []) i s' o). split; [|split].
      + econstructor; [econstructor; [exact HR|]|].
        * apply (net_one I ids cf i (EHandle nw m')); [exact Hi| |cbn [step]; rewrite HSt; reflexivity]. intros n0 x E. inversion E; subst. exists m. split; auto. apply (HCh j i). rewrite Ech. apply in_app_iff. right. now left.
        * apply (net_one I ids (cf_set cf i s1 []) i (EProcess a b)); auto; [discriminate|]. cbn [step cf_set cf_state]. rewrite Z.eqb_refl. exact EP.
      + intros k. cbn. unfold hc_put. destruct (k =? i); auto.
      + intros x y z Hz. cbn. rewrite app_nil_r. eapply (Hpush i o); [|exact Hz]. intros x' y' z'. unfold hc_pop. destruct ((x' =? j) && (y' =? i)); [|eauto].
        intros Hz'. apply (HCh j i). rewrite Ech. apply in_app_iff in Hz' as [Hz'|Hz']; apply in_app_iff; [now left|right; now right].
  Qed.

  (** What the program [h_exec] does is an execution, with these labels. *)
  Definition h_label (c : hconfig) (a : hact) : hlabel :=
    match a with
    | AStart i => HStart i
    | ARecv j i k => HRecv j i (negb (st_done (hc_state c i)) && match nth_error (hc_chan c j i) k with
        | Some m => match snd (HandleMessage I 0 (hc_state c i) m) with Some _ => true | None => false end | None => false end)
    end.
  Fixpoint h_labels (ids : list ID) (c : hconfig) (acts : list hact) : list hlabel :=
    match acts with [] => [] | a :: acts' => h_label c a :: match h_exec1 I ids c a with Some c' => h_labels ids c' acts' | None => [] end end.
  Lemma exec1_step ids c a c' : h_exec1 I ids c a = Some c' -> h_step I (match a with ARecv _ _ (S _) => false | _ => true end) ids c (h_label c a) c'.
  Proof.
    assert (forall i, existsb (Z.eqb i) ids = true -> In i ids) as Hin. { intros i H. apply existsb_exists in H as (x & Hx & E). apply Z.eqb_eq in E. now subst. }
    destruct a as [i|j i k]; cbn [h_exec1 h_label].
    - destruct (existsb (Z.eqb i) ids) eqn:Ei; [|discriminate]. destruct (hc_started c i) eqn:Est; [discriminate|]. cbn [andb negb].
      destruct (ProcessAll I [] [] (hc_state c i)) as [[s' o]| |] eqn:EP; try discriminate. intros [= <-]. eapply h_start; eauto.
    - destruct (existsb (Z.eqb i) ids) eqn:Ei; [|discriminate]. destruct (existsb (Z.eqb j) ids) eqn:Ej; [|discriminate]. destruct (hc_started c i) eqn:Est; [|discriminate]. cbn [andb].
      destruct (nth_error (hc_chan c j i) k) as [m|] eqn:En; [|discriminate]. destruct (handler_msg I 0 [] [] (hc_state c i) m) as [[s' o]| |] eqn:EP; try discriminate. intros [= <-].
      eapply (h_recv I _ ids c j i (firstn k (hc_chan c j i)) m (skipn (S k) (hc_chan c j i)) m 0); eauto; [| |now left].
      + apply nth_error_split in En as (l1 & l2 & -> & <-). rewrite firstn_app, Nat.sub_diag, firstn_all. cbn [firstn]. rewrite app_nil_r. f_equal.
        rewrite skipn_app, skipn_all2 by lia. replace (S (List.length l1) - List.length l1)%nat with 1%nat by lia. reflexivity.
      + destruct k; [reflexivity|discriminate].
  Qed.
  Lemma h_step_weaken ids c l c' : h_step I true ids c l c' -> h_step I false ids c l c'.
  Proof. destruct 1; [eapply h_start; eauto|eapply h_recv; eauto; discriminate]. Qed.
  Lemma exec_trace fifo ids c0 : forall acts ls c c', h_trace I fifo ids c0 ls c -> (fifo = true -> Forall (fun a => match a with ARecv _ _ (S _) => False | _ => True end) acts) ->
    h_exec I ids c acts = Some c' -> h_trace I fifo ids c0 (ls ++ h_labels ids c acts) c'.
  Proof.
    induction acts as [|a acts IH]; intros ls c c' HT HF E; cbn [h_exec h_labels] in *; [inversion E; subst; now rewrite app_nil_r|].
    destruct (h_exec1 I ids c a) as [c1|] eqn:E1; [|discriminate]. pose proof (exec1_step _ _ _ _ E1) as Hl.
    replace (ls ++ h_label c a :: h_labels ids c1 acts) with ((ls ++ [h_label c a]) ++ h_labels ids c1 acts) by (now rewrite <- app_assoc).
    eapply (IH (ls ++ [h_label c a]) c1); eauto.
    - econstructor; [exact HT|]. destruct fifo.
      + specialize (HF eq_refl). apply List.Forall_inv in HF. destruct a as [|? ? [|]]; auto. contradiction.
      + destruct a as [|? ? [|]]; auto; now apply h_step_weaken.
    - intros X. exact (List.Forall_inv_tail (HF X)).
  Qed.
End HandlerNet.
