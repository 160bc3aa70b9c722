(** From facts about the rounds of a protocol to facts about every history of its State. *)
From Coq Require Import ZArith Lia List Bool String Permutation.
From stdpp Require Import base gmap list fin_maps.
From Verif Require Import ZField Primes Bytes Scalar Go Group Party Poly PolyFacts Zk Eddsa Messages State StateFacts.
Import ListNotations.
Local Open Scope Z_scope.

Lemma skipn_next {A} n : forall (l : list A) x tl, skipn n l = x :: tl -> skipn (S n) l = tl.
Proof.
  induction n as [|n IH]; intros [|y l] x tl; try discriminate.
  - cbn. now intros [= -> ->].
  - intros E. change (skipn (S n) l = tl). apply (IH l x). exact E.
Qed.

Section Lift.
  Context `{Gr : group_ops} {R : Type} (I : RoundI R) (ROK : round_ok I).
  (** [W]: what is known of every message given to HandleMessage. *)
  Context (W : Message -> Prop).
  Definition event_ok (e : event) : Prop := match e with EHandle _ m => W m | _ => True end.

  Context (now timeout : Z) (r0 : R).
  Notation self := (r_self I r0).
  Notation ids := (r_ids I r0).
  Notation others := (others_of self ids).
  Notation types := (r_accepted I r0).

  (** The stored messages when round number [n] is processed: from others, addressed to us, of the round's type, satisfying W. *)
  Record rcv_ok (n : nat) (rcv : gmap Z (option Message)) : Prop := {
    ro_key : forall k v, rcv !! k = Some v -> In k others;
    ro_val : forall k m, rcv !! k = Some (Some m) -> m_From m = k /\ (m_To m = 0 \/ m_To m = self) /\ nth_error types n = Some (m_Type m) /\ W m;
    ro_some : forall k, rcv !! k = Some None -> n = O
  }.
  Definition full (rcv : gmap Z (option Message)) : Prop := Z.of_nat (size rcv) = u16 (N_ids ids - 1).

  Context (P : nat -> R -> list Message -> Prop) (F : R -> option PError -> list Message -> Prop).
  Definition step_post (n : nat) (out : list Message) (sched : list Z) (x : rres R unit) : Prop :=
    match x with
    | ROk r1 _ =>
      match r_generate I sched r1 with
      | ROk r2 l => match r_next I r2 with
                    | Some nr => P (S n) nr (out ++ l)
                    | None => forall r3, r_reset I r2 = Ret r3 -> F r3 None (out ++ l)
                    end
      | RErr r2 c t => forall r3, r_reset I r2 = Ret r3 -> F r3 (Some (mkPError c (Z.of_nat n) t)) out
      | RPanic _ => True
      end
    | RErr r1 c t => forall r3, r_reset I r1 = Ret r3 -> F r3 (Some (mkPError c (Z.of_nat n) t)) out
    | RPanic _ => True
    end.
  Context (P_init : P 0 r0 [])
    (P_step : forall n r out rcv ks sched, P n r out -> r_self I r = self -> r_ids I r = ids -> rcv_ok n rcv -> full rcv ->
        Permutation ks (map fst (map_to_list rcv)) -> step_post n out sched (process_loop I r rcv ks))
    (P_timeout : forall n r out r3, P n r out -> r_self I r = self -> r_ids I r = ids -> r_reset I r = Ret r3 ->
        F r3 (Some (mkPError 0 (Z.of_nat n) "message timeout")) out).

  Record linv (s : State R) (out : list Message) : Prop := {
    li_inv : inv I s;
    li_self : r_self I (st_round s) = self;
    li_ids : r_ids I (st_round s) = ids;
    li_rcv : forall k m, st_received s !! k = Some (Some m) -> W m;
    li_queue : forall m, In m (st_queue s) -> W m;
    li_P : st_done s = false -> exists n, st_roundNumber s = Z.of_nat n /\ st_accepted s = skipn n types /\ P n (st_round s) out;
    li_F : st_done s = true -> F (st_round s) (st_err s) out
  }.

  Lemma linv_init : linv (NewBaseState I now timeout r0) [].
  Proof.
    split; auto; try discriminate.
    - apply inv_init.
    - intros k m H. apply init_received in H as [H _]. discriminate.
    - intros m [].
    - intros _. exists O. auto.
  Qed.

  Lemma linv_rcv_ok s out n : linv s out -> st_done s = false -> st_roundNumber s = Z.of_nat n -> st_accepted s = skipn n types -> rcv_ok n (st_received s).
  Proof.
    intros HL D En Ea. destruct HL as [HI Hs Hi Hr Hq _ _]. split.
    - intros k v Hk. destruct (inv_received I s HI k v Hk) as (A & B & _). rewrite Hs in B. rewrite Hi in A. now apply others_of_In.
    - intros k m Hk. destruct (inv_received I s HI k _ Hk) as (A & B & C & E & H). unfold addressed in E. rewrite Hs in E.
      destruct (H D) as [tl Et]. split; auto. split; auto. split; [|eauto].
      rewrite Ea in Et. rewrite <- (firstn_skipn n types), Et. assert (n <= List.length types)%nat.
      { destruct (Nat.le_gt_cases n (List.length types)); auto. rewrite skipn_all2 in Et by lia. discriminate. }
      rewrite nth_error_app2; rewrite firstn_length_le; auto. now rewrite Nat.sub_diag.
    - intros k Hk. destruct (inv_received I s HI k _ Hk) as (_ & _ & H). lia.
  Qed.

  Lemma linv_step s out e s' o : linv s out -> event_ok e -> step I s e = Ret (s', o) -> linv s' (out ++ o).
  Proof.
    intros HL We E. pose proof (inv_step I ROK s e s' o (li_inv _ _ HL) E) as HI'. pose proof (step_ids I ROK s e s' o E) as [Es Ei].
    pose proof (li_self _ _ HL) as Hs. pose proof (li_ids _ _ HL) as Hi.
    assert (r_self I (st_round s') = self) as Es' by congruence. assert (r_ids I (st_round s') = ids) as Ei' by congruence. clear Es Ei.
    destruct e as [nw m|sched sched'|nw|]; cbn [step] in E.
    - apply Ret_inj in E. inversion E; subst o. rewrite app_nil_r.
      assert (s' = fst (HandleMessage I nw s m)) as -> by congruence. clear E.
      destruct (handle_cases I nw s m) as [->|(_ & D & _ & _ & _ & _ & ct & tl & EA & [[_ X]|(_ & _ & X)])]; auto; rewrite X in *;
        (split; cbn [st_received st_queue st_done st_round st_roundNumber st_accepted st_err]; auto; try apply HL).
      + intros k m0. destruct (Z.eq_dec k (m_From m)) as [->|Hk]; [rewrite lookup_insert; intros [= <-]; exact We|].
        rewrite lookup_insert_ne by auto. apply HL.
      + intros m0 H. apply in_app_iff in H as [H|[<-|[]]]; [now apply HL|exact We].
    - apply (process_cases I) in E. destruct E as [-> -> _|r c t D HS EP ER ->|r r' c t D HS EP EG ER ->|r r' ct tl rcv q D HS EP EG EA EQ EN].
      + now rewrite app_nil_r.
      + rewrite app_nil_r. destruct (li_P _ _ HL D) as (n & En & Ea & HP).
        assert (step_post n out sched' (process_loop I (st_round s) (st_received s) (map_keys sched (st_received s)))) as X.
        { apply P_step; auto. - eapply linv_rcv_ok; eauto. - unfold full. now rewrite <- Hi. - apply map_keys_perm. }
        rewrite EP in X. cbn in X. apply reportError_ret in ER as (r2 & E1 & _ & ->); [|exact D|apply (inv_err I s (li_inv _ _ HL) D)].
        split; auto; cbn; try discriminate; try apply HL. intros _. rewrite En. apply X. exact E1.
      + rewrite app_nil_r. destruct (li_P _ _ HL D) as (n & En & Ea & HP).
        assert (step_post n out sched' (process_loop I (st_round s) (st_received s) (map_keys sched (st_received s)))) as X.
        { apply P_step; auto. - eapply linv_rcv_ok; eauto. - unfold full. now rewrite <- Hi. - apply map_keys_perm. }
        rewrite EP in X. cbn in X. rewrite EG in X. apply reportError_ret in ER as (r2 & E1 & _ & ->); [|exact D|apply (inv_err I s (li_inv _ _ HL) D)].
        split; auto; cbn; try discriminate; try apply HL. intros _. rewrite En. apply X. exact E1.
      + destruct (li_P _ _ HL D) as (n & En & Ea & HP).
        assert (step_post n out sched' (process_loop I (st_round s) (st_received s) (map_keys sched (st_received s)))) as X.
        { apply P_step; auto. - eapply linv_rcv_ok; eauto. - unfold full. now rewrite <- Hi. - apply map_keys_perm. }
        rewrite EP in X. cbn in X. rewrite EG in X.
        assert (forall k m, rcv !! k = Some (Some m) -> W m) as Wr.
        { intros k m Hk. destruct tl as [|ct' tl']; inversion EQ; subst; [rewrite lookup_empty in Hk; discriminate|].
          pose proof (take_queue_some ct' (st_queue s) k _ Hk) as (m1 & [= <-] & Hin & _). now apply HL. }
        assert (forall m, In m q -> W m) as Wq.
        { intros m Hm. destruct tl as [|ct' tl']; inversion EQ; subst; [now apply HL|].
          assert (In m (snd (take_queue ct' (st_queue s) (∅ : gmap Z (option Message))))) as Hm' by exact Hm.
          apply take_queue_rest in Hm' as [Hm' _]. now apply HL. }
        destruct (r_next I r') as [nr|].
        * subst s'. split; auto; cbn; rewrite ?D; try discriminate. intros _. exists (S n). split; [lia|]. split; auto.
          rewrite EA in Ea. symmetry. eapply skipn_next. symmetry; exact Ea.
        * apply finish_ret in EN as (r2 & E1 & _ & ->); [|exact D]. split; auto; cbn; try discriminate.
          intros _. cbn in E1. rewrite (inv_err I s (li_inv _ _ HL) D). apply X. exact E1.
    - apply Ret_inj in E. inversion E; subst o. rewrite app_nil_r. subst s'.
      unfold timerExpire in *. destruct (tm_deadline (st_timer s)); [destruct (_ <=? _)|]; auto.
      split; auto; cbn; apply HL.
    - apply obind_ret in E as (s1 & E1 & E2). apply Ret_inj in E2. inversion E2; subst s1 o. rewrite app_nil_r. clear E2.
      unfold timerCallback in E1. destruct (tm_pending (st_timer s)) as [|k]; [apply Ret_inj in E1; subst; auto|].
      destruct (st_done s) eqn:D.
      + unfold reportError in E1. cbn [st_done] in E1. apply Ret_inj in E1. subst. split; auto; cbn; try discriminate; try apply HL. intros _. now apply HL.
      + apply reportError_ret in E1 as (r2 & E1 & _ & ->); [|reflexivity|apply (inv_err I s (li_inv _ _ HL) D)].
        split; auto; cbn; try discriminate; try apply HL. intros _. destruct (li_P _ _ HL D) as (n & En & Ea & HP). cbn in E1.
        rewrite En. eapply P_timeout; eauto.
  Qed.

  Lemma linv_run es s out : Forall event_ok es -> run I (NewBaseState I now timeout r0) es = Ret (s, out) -> linv s out.
  Proof.
    revert s out. induction es as [|e es IH] using rev_ind; intros s out HF E.
    - cbn in E. apply Ret_inj in E. inversion E; subst. apply linv_init.
    - apply Forall_app in HF as [HF He]. apply run_snoc in E as (s1 & o1 & o2 & E1 & E2 & ->). inversion He; subst.
      eapply linv_step; eauto.
  Qed.

  (** ** Absence of panics *)
  Lemma finish_total s : inv I s -> (exists r3, r_reset I (st_round s) = Ret r3) -> exists s', finish I s = Ret s'.
  Proof.
    intros HI [r3 E]. unfold finish. destruct (st_done s) eqn:D; eauto. rewrite E. cbn. pose proof (inv_closed I s HI) as C.
    rewrite D in C. rewrite C. eauto.
  Qed.
  Lemma reportError_total s c t : st_closed s = (if st_done s then 1%nat else 0%nat) -> (exists r3, r_reset I (st_round s) = Ret r3) -> exists s', reportError I s c t = Ret s'.
  Proof.
    intros C [r3 E]. unfold reportError, finish. cbn. destruct (st_done s) eqn:D; eauto. rewrite E. cbn. rewrite C. eauto.
  Qed.

  (** What one ProcessAll must not do on the stored messages, in the order [ks]. *)
  Definition safe_step (r : R) (rcv : gmap Z (option Message)) (ks sched : list Z) : Prop :=
    match process_loop I r rcv ks with
    | ROk r1 _ =>
      match r_generate I sched r1 with
      | ROk r2 l => match r_next I r2 with Some nr => True | None => exists r3, r_reset I r2 = Ret r3 end
      | RErr r2 c t => exists r3, r_reset I r2 = Ret r3
      | RPanic _ => False
      end
    | RErr r1 c t => exists r3, r_reset I r1 = Ret r3
    | RPanic _ => False
    end.
  Lemma safe_process s out sched sched' : linv s out -> (forall n r out, P n r out -> (n < List.length types)%nat) ->
    (forall n, st_roundNumber s = Z.of_nat n -> P n (st_round s) out -> r_self I (st_round s) = self -> r_ids I (st_round s) = ids ->
       rcv_ok n (st_received s) -> full (st_received s) -> safe_step (st_round s) (st_received s) (map_keys sched (st_received s)) sched') ->
    exists s' o, ProcessAll I sched sched' s = Ret (s', o).
  Proof.
    intros HL NP_types NP.
    unfold ProcessAll. destruct (st_done s) eqn:D; eauto.
    destruct (Z.eqb_spec (Z.of_nat (size (st_received s))) (u16 (N_ids (r_ids I (st_round s)) - 1))) as [HS|HS]; cbn [negb]; eauto.
    destruct (li_P _ _ HL D) as (n & En & Ea & HP). pose proof (li_self _ _ HL) as Hs. pose proof (li_ids _ _ HL) as Hi.
    pose proof (inv_closed I s (li_inv _ _ HL)) as HC. rewrite D in HC.
    assert (rcv_ok n (st_received s)) as HR by (eapply linv_rcv_ok; eauto).
    assert (full (st_received s)) as HFu by (unfold full; now rewrite <- Hi).
    pose proof (NP n En HP Hs Hi HR HFu) as X. unfold safe_step in X.
    destruct (process_loop _ _ _ _) as [r1 u|r1 c t|w]; [|destruct (reportError_total (set_round s r1) c t) as [s' ->]; cbn; eauto; rewrite D; auto|contradiction].
    destruct (r_generate I sched' r1) as [r2 l|r2 c t|w]; [| |contradiction].
    - rewrite Ea. pose proof (NP_types _ _ _ HP). destruct (skipn n types) as [|ct tl] eqn:Es.
      { apply (f_equal (@List.length _)) in Es. rewrite skipn_length in Es. cbn in Es. lia. }
      destruct (match tl with [] => (∅, st_queue s) | ct' :: _ => take_queue ct' (st_queue s) ∅ end) as [rcv q].
      destruct (r_next I r2); eauto. unfold finish. cbn. destruct X as [r3 ->]. cbn. rewrite HC. cbn. eauto.
    - match goal with |- context [reportError I ?s0 c t] => destruct (reportError_total s0 c t) as [s' ->] end; cbn; eauto.
  Qed.

  Context (NP_types : forall n r out, P n r out -> (n < List.length types)%nat)
    (NP_step : forall n r out rcv ks sched, P n r out -> r_self I r = self -> r_ids I r = ids -> rcv_ok n rcv -> full rcv ->
        Permutation ks (map fst (map_to_list rcv)) -> safe_step r rcv ks sched).

  (** Everything but a timeout callback returns normally. *)
  Lemma nopanic_step s out e : linv s out -> e <> ECallback -> exists s' o, step I s e = Ret (s', o).
  Proof.
    intros HL Hne. destruct e as [nw m|sched sched'|nw|]; cbn [step]; eauto; [|congruence].
    eapply safe_process; eauto. intros n _ A B C D E. eapply NP_step; eauto. apply map_keys_perm.
  Qed.
  Context (NP_reset : forall n r out, P n r out -> exists r3, r_reset I r = Ret r3).
  Lemma nopanic_step_all s out e : linv s out -> exists s' o, step I s e = Ret (s', o).
  Proof.
    intros HL. destruct e as [nw m|sched sched'|nw|]; try (eapply nopanic_step; [exact HL|discriminate]).
    cbn [step]. unfold timerCallback. destruct (tm_pending _); cbn; eauto.
    match goal with |- context [reportError I ?s0 0 ?t] => assert (exists s', reportError I s0 0 t = Ret s') as [s' ->] end; cbn; eauto.
    unfold reportError, finish. cbn. destruct (st_done s) eqn:D; eauto. destruct (li_P _ _ HL D) as (n1 & En & Ea & HP).
    destruct (NP_reset _ _ _ HP) as [r3 ->]. pose proof (inv_closed I s (li_inv _ _ HL)) as HC. rewrite D in HC. rewrite HC. cbn. eauto.
  Qed.
  Lemma nopanic_run es : Forall event_ok es -> exists s out, run I (NewBaseState I now timeout r0) es = Ret (s, out) /\ linv s out.
  Proof.
    induction es as [|e es IH] using rev_ind; intros HF.
    - eexists _, _. split; [reflexivity|apply linv_init].
    - apply Forall_app in HF as [HF He]. inversion He; subst. destruct (IH HF) as (s & out & E & HL).
      destruct (nopanic_step_all s out e HL) as (s' & o & E'). exists s', (out ++ o). split.
      + rewrite run_app, E. cbn [obind fst snd run]. rewrite E'. cbn. now rewrite app_nil_r.
      + eapply linv_step; eauto.
  Qed.
End Lift.
