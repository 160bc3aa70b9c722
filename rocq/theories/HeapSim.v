(** The heap model of a State: what each call can change, and simulation of State.v. *)
From Coq Require Import ZArith Lia List Bool String.
From stdpp Require Import base gmap list fin_maps.
From Verif Require Import ZField Primes Bytes Scalar Go Group Party Poly Zk Eddsa Messages State StateFacts Keygen Heap HeapFacts.
Import ListNotations.
Local Open Scope Z_scope.

Section HeapSim.
  Context `{Gr : group_ops} `{Hf : hash_fn}.
  Local Arguments rd_exp : simpl never.
  Local Arguments wr_exp : simpl never.
  Local Arguments rd_share : simpl never.
  Local Arguments wr_share : simpl never.
  Local Notation KR := keygen_round.

  (** The messages a State holds, and the objects it can reach. *)
  Definition holds (s : hstate) (m : hmsg) : Prop := (exists id, hs_received s !! id = Some (Some m)) \/ In m (hs_queue s).
  Definition reach_e (s : hstate) (q : nat) : Prop := k_reach (hs_round s) q \/ exists m pr, holds s m /\ hm_K1 m = Some (pr, q).
  Definition reach_s (s : hstate) (q : nat) : Prop := exists m, holds s m /\ hm_K2 m = Some q.

  Record swf (h : heap) (s : hstate) : Prop := {
    w_k : kwf h (hs_round s);
    w_from : forall id m, hs_received s !! id = Some (Some m) -> h_From (hm_Header m) = id;
    w_msg : forall m, holds s m -> msg_in h m /\ (forall pr q, hm_K1 m = Some (pr, q) -> hk_csum (hs_round s) <> Some q);
    w_sh : forall m m' q, holds s m -> holds s m' -> hm_K2 m = Some q -> hm_K2 m' = Some q -> h_From (hm_Header m) = h_From (hm_Header m')
  }.
  Lemma swf_rec h s : swf h s -> rec_wf h (hk_csum (hs_round s)) (hs_received s).
  Proof. intros W id m E. destruct (w_msg _ _ W m) as [A B]; [left; eauto|]. refine (conj (w_from _ _ W _ _ E) (conj A B)). Qed.
  Lemma swf_shares h s : swf h s -> shares_ok (hs_received s).
  Proof.
    intros W id m id' m' q E E' K K'. rewrite <- (w_from _ _ W _ _ E), <- (w_from _ _ W _ _ E').
    apply (w_sh _ _ W m m' q); auto; left; eauto.
  Qed.
  Lemma reach_e_in h s q : swf h s -> reach_e s q -> (q < le h)%nat.
  Proof.
    intros W [[A|(id & A)]|(m & pr & A & B)].
    - apply (w_k _ _ W), A.
    - apply (w_k _ _ W) in A. apply A.
    - destruct (w_msg _ _ W m A) as [[C _] _]. eauto.
  Qed.
  Lemma reach_s_in h s q : swf h s -> reach_s s q -> (q < ls h)%nat.
  Proof. intros W (m & A & B). destruct (w_msg _ _ W m A) as [[_ C] _]. eauto. Qed.

  (** [h'] differs from [h] at most in new objects and in the objects RE, RS. *)
  Definition frm (RE RS : nat -> Prop) (h h' : heap) : Prop :=
    (le h <= le h')%nat /\ (ls h <= ls h')%nat /\ (forall q, (q < le h)%nat -> ~ RE q -> rd_exp h' q = rd_exp h q) /\
    (forall q, (q < ls h)%nat -> ~ RS q -> rd_share h' q = rd_share h q).
  Lemma frm_refl RE RS h : frm RE RS h h. Proof. repeat split; auto. Qed.
  Lemma frm_ext RE RS h h' : ext h h' -> frm RE RS h h'.
  Proof. intros (A & B & C & D). refine (conj A (conj B (conj _ _))); auto. Qed.
  Lemma frm_trans RE RS RE' RS' h h1 h2 : frm RE RS h h1 -> frm RE' RS' h1 h2 ->
    (forall q, RE' q -> RE q \/ (le h <= q)%nat) -> (forall q, RS' q -> RS q \/ (ls h <= q)%nat) -> frm RE RS h h2.
  Proof.
    intros (A1 & A2 & A3 & A4) (B1 & B2 & B3 & B4) C D. refine (conj _ (conj _ (conj _ _))); [lia|lia| |].
    - intros q Hq N. rewrite B3; [auto|lia|]. intros X. destruct (C q X); [auto|lia].
    - intros q Hq N. rewrite B4; [auto|lia|]. intros X. destruct (D q X); [auto|lia].
  Qed.

  (** A State without its messages. *)
  Definition strip (s : State kround) : State kround :=
    mkState (st_accepted s) ∅ [] (st_timer s) (st_roundNumber s) (st_round s) (st_closed s) (st_done s) (st_err s).
  (** Same State; after the end, up to messages, which are not used any more. *)
  Definition same_state (h : heap) (s : hstate) (ps : State kround) : Prop :=
    if hs_done s then strip (abs_state h s) = strip ps else abs_state h s = ps.

  (** ** finish *)
  Lemma h_finish_ok h s ps : swf h s -> hs_done s = false -> strip (abs_state h s) = strip ps ->
    match h_finish h s with
    | Ret (h', s') => exists ps', finish KR ps = Ret ps' /\ same_state h' s' ps' /\ hs_done s' = true /\ swf h' s' /\ frm (reach_e s) (reach_s s) h h' /\
        (forall q, reach_e s' q -> reach_e s q) /\ (forall q, reach_s s' q -> reach_s s q)
    | Fail e => finish KR ps = Fail e
    | Panics w => finish KR ps = Panics w
    end.
  Proof.
    intros W D E. unfold h_finish, finish. rewrite D. assert (st_done ps = false) as ->. { apply (f_equal st_done) in E. cbn in E. congruence. }
    assert (ER : st_round ps = abs_round h (hs_round s)). { apply (f_equal st_round) in E. cbn in E. congruence. }
    assert (EC : st_closed ps = hs_closed s). { apply (f_equal st_closed) in E. cbn in E. congruence. }
    cbn [r_reset keygen_round]. rewrite ER, EC. pose proof (hkg_Reset_ok h (hs_round s)) as R.
    destruct (hkg_Reset h (hs_round s)) as [[h' k']|e|w]; cbn [obind]; [|now rewrite R|now rewrite R].
    destruct R as (R1 & R2 & R3 & R4 & R5 & R6 & R7). rewrite R1. cbn [obind fst snd]. destruct (hs_closed s); [|reflexivity].
    assert (LS : ls h' = ls h) by (unfold ls; now rewrite R3).
    eexists. split; [reflexivity|]. cbn [hs_done]. refine (conj _ (conj eq_refl (conj _ (conj _ (conj _ _))))).
    - unfold same_state. cbn [hs_done]. unfold strip in *. cbn in *. injection E; intros; f_equal; congruence.
    - destruct W as [[K1 K2] WF WM WS]. constructor; cbn.
      + split; rewrite R4, R2; auto. now rewrite R5.
      + exact WF.
      + intros m Hm. destruct (WM m Hm) as [[M1 M2] M3]. rewrite R4. split; [split|auto]; [rewrite R2; exact M1|rewrite LS; exact M2].
      + exact WS.
    - refine (conj _ (conj _ (conj _ _))); [lia|lia| |].
      + intros q _ N. apply R7. intros X. apply N. now left.
      + intros q _ _. unfold rd_share. now rewrite R3.
    - intros q [X|X]; [left|right; exact X]. unfold k_reach in *. cbn in X. now rewrite R4, R5 in X.
    - intros q X. exact X.
  Qed.
  Lemma h_reportError_ok h s ps c t : swf h s -> hs_done s = false -> strip (abs_state h s) = strip ps ->
    match h_reportError h s c t with
    | Ret (h', s') => exists ps', reportError KR ps c t = Ret ps' /\ same_state h' s' ps' /\ hs_done s' = true /\ swf h' s' /\ frm (reach_e s) (reach_s s) h h' /\
        (forall q, reach_e s' q -> reach_e s q) /\ (forall q, reach_s s' q -> reach_s s q)
    | Fail e => reportError KR ps c t = Fail e
    | Panics w => reportError KR ps c t = Panics w
    end.
  Proof.
    intros W D E. unfold h_reportError, reportError. rewrite D. assert (st_done ps = false) as ->. { apply (f_equal st_done) in E. cbn in E. congruence. }
    match goal with |- context [h_finish h ?x] => match goal with |- context [finish KR ?y] => apply (h_finish_ok h x y) end end.
    - destruct W; constructor; auto.
    - reflexivity.
    - unfold strip in *. cbn in *. injection E; intros e1 e2 e3 e4 e5 e6 e7. rewrite e1, e5. f_equal; congruence.
  Qed.

  (** ** HandleMessage *)
  Lemma h_Handle_cases now s m : let s' := h_HandleMessage now s m in
    s' = s \/ hs_round s' = hs_round s /\ (forall m', holds s' m' -> holds s m' \/ m' = m) /\
      (forall id m', hs_received s' !! id = Some (Some m') -> hs_received s !! id = Some (Some m') \/ m' = m /\ id = h_From (hm_Header m)).
  Proof.
    cbn zeta. unfold h_HandleMessage. destruct (hs_done s); [now left|]. destruct (hs_accepted s) as [|ct acc]; [now left|].
    destruct (_ =? _); [now left|]. destruct (_ && _); [now left|]. destruct (negb (Contains _ _)); [now left|].
    destruct (hs_received s !! _); [now left|]. destruct (negb (existsb _ _)); [now left|]. destruct (_ =? ct); right; (split; [reflexivity|]).
    - assert (H : forall id m', (<[h_From (hm_Header m):=Some m]> (hs_received s)) !! id = Some (Some m') -> hs_received s !! id = Some (Some m') \/ m' = m /\ id = h_From (hm_Header m)).
      { intros id m'. destruct (decide (id = h_From (hm_Header m))) as [->|D].
        - rewrite lookup_insert. intros [= <-]. now right.
        - rewrite lookup_insert_ne by congruence. now left. }
      split; [|exact H]. intros m' [(id & E)|E].
      + destruct (H id m' E) as [F|[F _]]; [left; left; eauto|now right].
      + left. now right.
    - split; [|now left]. intros m' [E|E]; [left; now left|]. cbn in E. apply in_app_iff in E as [E|[<-|[]]]; [left; now right|now right].
  Qed.
  (** A message can be given to a State if its Commitments are not the State's CommitmentsSum, and its body is not
      the body of another sender's message. *)
  Definition giveable (h : heap) (s : hstate) (m : hmsg) : Prop :=
    msg_in h m /\ (forall pr q, hm_K1 m = Some (pr, q) -> hk_csum (hs_round s) <> Some q) /\
    (forall m' q, holds s m' -> hm_K2 m = Some q -> hm_K2 m' = Some q -> h_From (hm_Header m) = h_From (hm_Header m')).
  Lemma h_Handle_wf now h s m : swf h s -> giveable h s m -> swf h (h_HandleMessage now s m).
  Proof.
    intros W (M1 & M2 & M3). destruct (h_Handle_cases now s m) as [->|(A & B & C)]; [exact W|]. destruct W as [WK WF WM WS]. constructor.
    - now rewrite A.
    - intros id m' E. destruct (C _ _ E) as [F|[-> ->]]; auto.
    - intros m' H. rewrite A. destruct (B _ H) as [F| ->]; auto.
    - intros m1 m2 q H1 H2 K1 K2. destruct (B _ H1) as [F1| ->], (B _ H2) as [F2| ->]; auto.
      + eapply WS; eauto.
      + symmetry. eapply M3; eauto.
      + eapply M3; eauto.
  Qed.
  Lemma abs_rec_lookup h (rec : gmap ID (option hmsg)) id : (option_map (deref h) <$> rec) !! id = option_map (deref h) <$> rec !! id.
  Proof. apply lookup_fmap. Qed.
  Lemma h_Handle_sim now h s m : hs_done s = false -> abs_state h (h_HandleMessage now s m) = fst (HandleMessage KR now (abs_state h s) (deref h m)).
  Proof.
    intros D. unfold h_HandleMessage, HandleMessage, isAcceptedType.
    change (st_done (abs_state h s)) with (hs_done s). change (st_accepted (abs_state h s)) with (hs_accepted s).
    change (r_self KR (st_round (abs_state h s))) with (kr_self (hk_rest (hs_round s))). change (r_ids KR (st_round (abs_state h s))) with (kr_ids (hk_rest (hs_round s))).
    change (m_From (deref h m)) with (h_From (hm_Header m)). change (m_Header (deref h m)) with (hm_Header m). change (m_To (deref h m)) with (h_To (hm_Header m)).
    change (m_Type (deref h m)) with (h_Type (hm_Header m)). change (st_received (abs_state h s)) with (option_map (deref h) <$> hs_received s).
    rewrite D. destruct (hs_accepted s) as [|ct acc] eqn:EA; [reflexivity|].
    destruct (_ =? _); [reflexivity|]. destruct (_ && _); [reflexivity|]. destruct (negb (Contains _ _)); [reflexivity|].
    rewrite lookup_fmap. destruct (hs_received s !! h_From (hm_Header m)); cbn [fmap option_fmap option_map]; [reflexivity|].
    destruct (negb (existsb _ _)); [reflexivity|].
    destruct (_ =? ct); cbn [fst]; unfold abs_state; cbn.
    - rewrite fmap_insert. reflexivity.
    - rewrite map_app. reflexivity.
  Qed.

  (** ** ProcessAll *)
  Definition h_requeue (accepted : list Z) (queue : list hmsg) : gmap ID (option hmsg) * list hmsg :=
    match accepted with [] => (∅, queue) | ct :: _ => h_take_queue ct queue ∅ end.
  Definition requeue (accepted : list Z) (queue : list Message) : gmap ID (option Message) * list Message :=
    match accepted with [] => (∅, queue) | ct :: _ => take_queue ct queue ∅ end.
  Lemma take_fold_sim h ct q : forall rec : gmap ID (option hmsg), option_map (deref h) <$> fold_left (fun m msg => if h_Type (hm_Header msg) =? ct then <[h_From (hm_Header msg) := Some msg]> m else m) q rec =
    fold_left (fun m msg => if m_Type msg =? ct then <[m_From msg := Some msg]> m else m) (map (deref h) q) (option_map (deref h) <$> rec).
  Proof.
    induction q as [|m q IH]; intros rec; cbn [map fold_left]; [reflexivity|]. rewrite IH. change (m_Type (deref h m)) with (h_Type (hm_Header m)).
    destruct (_ =? ct); [|reflexivity]. now rewrite fmap_insert.
  Qed.
  Lemma take_filter_sim h ct q : map (deref h) (List.filter (fun msg => negb (h_Type (hm_Header msg) =? ct)) q) = List.filter (fun msg => negb (m_Type msg =? ct)) (map (deref h) q).
  Proof.
    induction q as [|m q IH]; cbn [map List.filter]; [reflexivity|]. change (m_Type (deref h m)) with (h_Type (hm_Header m)).
    destruct (negb (h_Type (hm_Header m) =? ct)); cbn [map]; now rewrite IH.
  Qed.
  Lemma requeue_sim h acc q : requeue acc (map (deref h) q) = (option_map (deref h) <$> fst (h_requeue acc q), map (deref h) (snd (h_requeue acc q))).
  Proof.
    destruct acc as [|ct acc]; cbn [requeue h_requeue fst snd]; [now rewrite fmap_empty|]. unfold take_queue, h_take_queue. cbn [fst snd].
    rewrite take_fold_sim, take_filter_sim, fmap_empty. reflexivity.
  Qed.
  Lemma take_fold_in ct q : forall (rec : gmap ID (option hmsg)) id m, fold_left (fun m msg => if h_Type (hm_Header msg) =? ct then <[h_From (hm_Header msg) := Some msg]> m else m) q rec !! id = Some (Some m) ->
    rec !! id = Some (Some m) \/ In m q /\ h_From (hm_Header m) = id.
  Proof.
    induction q as [|x q IH]; intros rec id m; cbn [fold_left]; [now left|]. intros H. destruct (IH _ _ _ H) as [E|[E F]]; [|right; split; [now right|exact F]].
    destruct (_ =? ct); [|now left]. destruct (decide (h_From (hm_Header x) = id)) as [<-|D].
    - rewrite lookup_insert in E. injection E as <-. right. split; [now left|reflexivity].
    - rewrite lookup_insert_ne in E by exact D. now left.
  Qed.
  Lemma requeue_in acc q : (forall id m, fst (h_requeue acc q) !! id = Some (Some m) -> In m q /\ h_From (hm_Header m) = id) /\ (forall m, In m (snd (h_requeue acc q)) -> In m q).
  Proof.
    destruct acc as [|ct acc]; cbn [h_requeue fst snd]; [split; auto; intros id m; now rewrite lookup_empty|]. unfold h_take_queue. cbn [fst snd]. split.
    - intros id m H. destruct (take_fold_in _ _ _ _ _ H) as [E|E]; [now rewrite lookup_empty in E|exact E].
    - intros m H. now apply filter_In in H.
  Qed.

  Definition ms_post (h : heap) (h' : heap) (s' : hstate) (ms : list hmsg) : Prop :=
    forall m, In m ms -> msg_in h' m /\ (forall pr q, hm_K1 m = Some (pr, q) -> (le h <= q)%nat /\ hk_csum (hs_round s') = Some q) /\ (forall q, hm_K2 m = Some q -> (ls h <= q)%nat).
  Definition reach_post (h : heap) (s s' : hstate) : Prop :=
    (forall q, reach_e s' q -> reach_e s q \/ (le h <= q)%nat) /\ (forall q, reach_s s' q -> reach_s s q).

  Lemma h_ProcessAll_ok sched sched' h s : swf h s -> hs_done s = false ->
    match h_ProcessAll sched h s with
    | Ret (h', s', ms) => exists ps', ProcessAll KR sched sched' (abs_state h s) = Ret (ps', map (deref h') ms) /\ same_state h' s' ps' /\ swf h' s' /\
        frm (reach_e s) (reach_s s) h h' /\ reach_post h s s' /\ ms_post h h' s' ms
    | Fail e => ProcessAll KR sched sched' (abs_state h s) = Fail e
    | Panics w => ProcessAll KR sched sched' (abs_state h s) = Panics w
    end.
  Proof.
    intros W D. unfold h_ProcessAll, ProcessAll. change (st_done (abs_state h s)) with (hs_done s). rewrite D.
    change (r_ids KR (st_round (abs_state h s))) with (kr_ids (hk_rest (hs_round s))).
    change (st_received (abs_state h s)) with (option_map (deref h) <$> hs_received s). rewrite map_size_fmap.
    destruct (negb (Z.of_nat (size (hs_received s)) =? u16 (N_ids (kr_ids (hk_rest (hs_round s))) - 1))).
    { exists (abs_state h s). refine (conj eq_refl (conj _ (conj W (conj (frm_refl _ _ h) (conj _ _))))).
      - unfold same_state. now rewrite D.
      - split; auto.
      - intros m []. }
    set (ids := map_keys sched (option_map (deref h) <$> hs_received s)).
    pose proof (loop_ok (hs_received s) ids h (hs_round s) (option_map (deref h) <$> hs_received s) (w_k _ _ W) (swf_rec _ _ W) (swf_shares _ _ W)
      (map_keys_NoDup _ _) (fun id _ => abs_rec_lookup h (hs_received s) id)) as L.
    change (st_round (abs_state h s)) with (abs_round h (hs_round s)).
    destruct (h_process_loop h (hs_round s) (hs_received s) ids) as [[h1 k1] u|[h1 k1] c t|w] eqn:EL; [| |now rewrite L].
    - destruct L as [-> P]. pose proof (post_kwf _ _ _ _ _ P (w_k _ _ W) (swf_rec _ _ W)) as WK1.
      pose proof (hk_generate_ok h1 k1 sched' WK1) as GO. destruct (hk_generate h1 k1) as [[h2 k2] ms|? ? ?|w] eqn:EG; [|destruct GO|now rewrite GO].
      destruct GO as [GE (X & G1 & G2 & G3 & G4)]. pose proof GE as GE'. rewrite GE. change (st_accepted (abs_state h s)) with (hs_accepted s).
      destruct (hs_accepted s) as [|ct0 acc]; [reflexivity|]. fold (h_requeue acc (hs_queue s)). fold (requeue acc (st_queue (abs_state h s))).
      pose proof (requeue_in acc (hs_queue s)) as [RQ1 RQ2].
      destruct P as (P1 & P2 & P3 & P4 & P5 & P6 & P7 & P8). pose proof X as (X1 & X2 & X3 & X4).
      assert (F : frm (reach_e s) (reach_s s) h h2).
      { refine (conj _ (conj _ (conj _ _))); [lia|lia| |].
        - intros q Hq N. rewrite X3 by lia. apply P5. intros E. apply N. left. now left.
        - intros q Hq N. rewrite X4 by lia. apply P6. intros id m E K. apply N. exists m. split; [left; eauto|exact K]. }
      assert (KR2 : forall q, k_reach k2 q -> reach_e s q \/ (le h <= q)%nat).
      { intros q [E|(id & E)].
        - destruct G2 as [G2|[G2 _]]; [left; left; left; congruence|right; rewrite G2 in E; injection E as <-; lia].
        - rewrite G1 in E. destruct (P8 _ _ E) as [E'|(id' & m & pr & E' & K)]; [left; left; right; eauto|left; right; exists m, pr; split; [left; eauto|exact K]]. }
      assert (NC : forall q, (q < le h)%nat -> hk_csum (hs_round s) <> Some q -> hk_csum k2 <> Some q).
      { intros q Hq N. destruct G2 as [G2|[G2 _]]; [rewrite G2, P3; exact N|]. rewrite G2. intros [= E]. lia. }
      assert (WK2 : kwf h2 k2).
      { destruct WK1 as [WA WB]. split.
        - intros p E. destruct G2 as [G2|[G2 G2']]; [rewrite G2 in E; apply WA in E; lia|rewrite G2 in E; injection E as <-; exact G2'].
        - intros id q E. rewrite G1 in E. destruct (WB _ _ E) as [A B]. split; [lia|]. destruct G2 as [G2|[G2 _]]; [rewrite G2; exact B|]. rewrite G2. intros [= E']. lia. }
      assert (W2 : forall nr rn, kwf h2 nr -> hk_csum nr = hk_csum k2 -> swf h2 (mkHs acc (fst (h_requeue acc (hs_queue s))) (snd (h_requeue acc (hs_queue s))) (hs_timer s) rn nr (hs_closed s) false (hs_err s))).
      { intros nr rn KW EC. assert (H : forall m, holds (mkHs acc (fst (h_requeue acc (hs_queue s))) (snd (h_requeue acc (hs_queue s))) (hs_timer s) rn nr (hs_closed s) false (hs_err s)) m -> holds s m).
        { intros m [(id & E)|E]; right; cbn in E; [apply (RQ1 _ _ E)|exact (RQ2 _ E)]. }
        constructor; cbn.
        - exact KW.
        - intros id m E. apply (RQ1 _ _ E).
        - intros m E. destruct (w_msg _ _ W m (H m E)) as [[A B] C]. split.
          + split; [intros pr q K; specialize (A _ _ K); lia|intros q K; specialize (B _ K); lia].
          + intros pr q K. rewrite EC. apply NC; eauto.
        - intros m m' q E E'. exact (w_sh _ _ W m m' q (H _ E) (H _ E')). }
      destruct (h_requeue acc (hs_queue s)) as [rec' queue'] eqn:ERQ. cbn [fst snd] in *.
      assert (HR : forall nr rn c, (forall q, k_reach nr q -> k_reach k2 q) -> reach_post h s (mkHs acc rec' queue' (hs_timer s) rn nr c false (hs_err s))).
      { intros nr rn c HN. assert (H : forall m, holds (mkHs acc rec' queue' (hs_timer s) rn nr c false (hs_err s)) m -> holds s m).
        { intros m [(id & E)|E]; right; cbn in E; [apply (RQ1 _ _ E)|exact (RQ2 _ E)]. }
        split.
        - intros q [E|(m & pr & E & K)]; [apply KR2, HN, E|left; right; exists m, pr; split; [apply H, E|exact K]].
        - intros q (m & E & K). exists m. split; [apply H, E|exact K]. }
      destruct (requeue acc (st_queue (abs_state h s))) as [prec pqueue] eqn:EPQ.
      assert (N12 : hk_no k2 = hk_no (hs_round s)) by congruence.
      destruct (hk_next k2) as [nr|] eqn:EN.
      + assert (ENR : r_next KR (abs_round h2 k2) = Some (abs_round h2 nr) /\ hk_csum nr = hk_csum k2 /\ hk_comms nr = hk_comms k2 /\ (hk_no k2 < 2)%nat).
        { unfold hk_next in EN. cbn [r_next keygen_round]. change (kr_no (abs_round h2 k2)) with (hk_no k2).
          destruct (hk_no k2) as [|[|]]; [injection EN as <-|injection EN as <-|discriminate]; repeat split; lia. }
        destruct ENR as (-> & C1 & C2 & C3). eexists. split; [reflexivity|]. refine (conj _ (conj _ (conj F (conj _ _)))).
        * unfold same_state. cbn [hs_done].
          assert (EQ : map (deref h) (hs_queue s) = map (deref h2) (hs_queue s)).
          { apply map_ext_in. intros m Hm. destruct (w_msg _ _ W m (or_intror Hm)) as [[A B] C]. symmetry. apply deref_eq.
            - intros pr q K. rewrite X3 by (specialize (A _ _ K); lia). apply P5. eauto.
            - intros q K. rewrite X4 by (specialize (B _ K); lia). unfold rd_share. rewrite P7; [reflexivity|lia]. }
          assert (EPQ' : requeue acc (map (deref h) (hs_queue s)) = (prec, pqueue)) by exact EPQ. rewrite EQ, requeue_sim, ERQ in EPQ'. cbn [fst snd] in EPQ'.
          injection EPQ' as <- <-. reflexivity.
        * apply W2; [|exact C1]. destruct WK2 as [A B]. split; rewrite C1; [exact A|rewrite C2; exact B].
        * apply HR. intros q. unfold k_reach. now rewrite C1, C2.
        * intros m Hm. destruct (G4 m Hm) as (A & B & C). refine (conj A (conj _ _)); cbn.
          -- intros pr q K. destruct (B _ _ K) as (B1 & B2 & _). rewrite C1. split; [lia|exact B2].
          -- intros q K. specialize (C _ K). lia.
      + assert (ENR : r_next KR (abs_round h2 k2) = None /\ ms = []).
        { unfold hk_next in EN. cbn [r_next keygen_round]. change (kr_no (abs_round h2 k2)) with (hk_no k2).
          assert (M : (2 <= hk_no k1)%nat -> ms = []).
          { intros H2. cbn [r_generate keygen_round] in GE'. change (kr_no (abs_round h1 k1)) with (hk_no k1) in GE'.
            destruct (hk_no k1) as [|[|n]]; [lia|lia|]. pose proof (kg2g_shape (abs_round h1 k1) _ eq_refl) as KS.
            assert (GE2 : kg2_generate (abs_round h1 k1) = ROk (abs_round h2 k2) (map (deref h2) ms)) by exact GE'.
            rewrite GE2 in KS. destruct KS as (_ & _ & _ & KS). now apply map_eq_nil in KS. }
          rewrite G3 in EN |- *. destruct (hk_no k1) as [|[|]]; [discriminate|discriminate|]. split; [reflexivity|apply M; lia]. }
        destruct ENR as (-> & ->).
        assert (SS : strip (abs_state h2 (mkHs acc rec' queue' (hs_timer s) (hs_roundNumber s) k2 (hs_closed s) false (hs_err s))) =
                     strip (mkState acc prec pqueue (st_timer (abs_state h s)) (st_roundNumber (abs_state h s)) (abs_round h2 k2) (st_closed (abs_state h s)) false (st_err (abs_state h s)))) by reflexivity.
        pose proof (h_finish_ok h2 _ _ (W2 k2 (hs_roundNumber s) WK2 eq_refl) eq_refl SS) as FO.
        destruct (h_finish h2 _) as [[h3 s3]|e|w] eqn:EF; cbn [obind fst snd]; [|now rewrite FO|now rewrite FO].
        destruct FO as (ps' & -> & Q1 & Q2 & Q3 & Q4 & Q5 & Q6). cbn [obind]. exists ps'.
        destruct (HR k2 (hs_roundNumber s) (hs_closed s) (fun q x => x)) as [HRe HRs].
        refine (conj eq_refl (conj Q1 (conj Q3 (conj _ (conj _ _))))).
        * apply (frm_trans _ _ _ _ _ _ _ F Q4 HRe). intros q Z. left. now apply HRs.
        * split; intros q Z; [apply HRe, Q5, Z|apply HRs, Q6, Z].
        * intros m [].
    - destruct L as [-> P]. pose proof (post_kwf _ _ _ _ _ P (w_k _ _ W) (swf_rec _ _ W)) as WK1.
      destruct P as (P1 & P2 & P3 & P4 & P5 & P6 & P7 & P8).
      assert (W1 : swf h1 (h_set_round s k1)).
      { constructor; cbn.
        - exact WK1.
        - exact (w_from _ _ W).
        - intros m E. destruct (w_msg _ _ W m E) as [[A B] C]. rewrite P3. split; [split|exact C]; [rewrite P1; exact A|rewrite P2; exact B].
        - exact (w_sh _ _ W). }
      assert (SS : strip (abs_state h1 (h_set_round s k1)) = strip (set_round (abs_state h s) (abs_round h1 k1))) by reflexivity.
      pose proof (h_reportError_ok h1 _ _ c t W1 D SS) as FO.
      destruct (h_reportError h1 _ c t) as [[h3 s3]|e|w] eqn:EF; cbn [obind fst snd]; [|now rewrite FO|now rewrite FO].
      destruct FO as (ps' & -> & Q1 & Q2 & Q3 & Q4 & Q5 & Q6). cbn [obind]. exists ps'.
      assert (R1 : forall q, reach_e (h_set_round s k1) q -> reach_e s q).
      { intros q [[E|(id & E)]|E]; [left; left; cbn in E; congruence| |right; exact E].
        destruct (P8 _ _ E) as [E'|(id' & m & pr & E' & K)]; [left; right; eauto|right; exists m, pr; split; [left; eauto|exact K]]. }
      assert (F : frm (reach_e s) (reach_s s) h h1).
      { refine (conj _ (conj _ (conj _ _))); [lia|lia| |].
        - intros q Hq N. apply P5. intros E. apply N. left. now left.
        - intros q Hq N. apply P6. intros id m E K. apply N. exists m. split; [left; eauto|exact K]. }
      refine (conj eq_refl (conj Q1 (conj Q3 (conj _ (conj _ _))))).
      + apply (frm_trans _ _ _ _ _ _ _ F Q4); intros q Z; left; [now apply R1|exact Z].
      + split; intros q Z; [left; apply R1, Q5, Z|apply Q6, Z].
      + intros m [].
  Qed.
End HeapSim.
