(** Several States on one heap: simulation of State.v, and objects that stay unchanged. *)
From Coq Require Import ZArith Lia List Bool String.
From stdpp Require Import base gmap list fin_maps.
From Verif Require Import ZField Primes Bytes Scalar Go Group Party Poly Zk Eddsa Messages State StateFacts Keygen Heap HeapFacts HeapSim HeapFrame.
Import ListNotations.
Local Open Scope Z_scope.

Section HeapWorld.
  Context `{Gr : group_ops} `{Hf : hash_fn}.
  Local Arguments rd_exp : simpl never.
  Local Arguments rd_share : simpl never.
  Local Arguments alloc : simpl never.
  Local Notation KR := keygen_round.

  (** ** Pointers to existing objects *)
  Definition in_range (h : heap) (s : hstate) : Prop := (forall q, reach_e s q -> (q < le h)%nat) /\ (forall q, reach_s s q -> (q < ls h)%nat).
  Definition wvalid (w : world) : Prop := forall i, in_range (w_heap w) (w_state w i).
  (** Every message given by pointer exists when it is given. *)
  Fixpoint valid_run (w : world) (es : list (nat * hevent)) : Prop :=
    match es with
    | [] => True
    | (i, e) :: es' => (forall now m, e = HHandle now m -> msg_in (w_heap w) m) /\
                       match w_step w i e with Ret (w', _) => valid_run w' es' | _ => True end
    end.
  Lemma given_in h e m : (forall now m, e = HHandle now m -> msg_in h m) -> given_by h e m ->
    forall h' s s' ms, h_step h s e = Ret (h', s', ms) -> msg_in h' m /\ ((exists now, e = HHandle now m) \/ (forall pr q, hm_K1 m = Some (pr, q) -> (le h <= q)%nat) /\ (forall q, hm_K2 m = Some q -> (ls h <= q)%nat)).
  Proof.
    intros V G h' s s' ms E. destruct e as [now m'|now v| | |]; cbn in G; try contradiction.
    - subst m'. cbn in E. injection E as <- <- <-. split; [eauto|left; eauto].
    - cbn in E. destruct (alloc h v) as [h1 p] eqn:EA. injection E as <- <- <-. cbn in G. subst m. destruct (alloc_ok _ _ _ _ EA) as (X & _ & M & _ & A & B).
      split; [exact M|]. right. split; [|exact B]. intros pr q K. apply (A pr q K).
  Qed.
  Lemma w_step_inv w i e w' ms : w_step w i e = Ret (w', ms) -> exists h' s', h_step (w_heap w) (w_state w i) e = Ret (h', s', ms) /\ w_heap w' = h' /\
    forall j, w_state w' j = if Nat.eqb i j then s' else w_state w j.
  Proof.
    unfold w_step. destruct (h_step _ _ e) as [[[h' s'] ms']|x|x]; cbn [obind fst snd]; [|discriminate|discriminate]. intros [= <- <-]. exists h', s'. auto.
  Qed.
  Lemma w_step_frame w i e w' ms : w_step w i e = Ret (w', ms) ->
    call_frame (given_by (w_heap w) e) (w_heap w) (w_state w i) (w_heap w') (w_state w' i) ms /\ forall j, j <> i -> w_state w' j = w_state w j.
  Proof.
    intros E. destruct (w_step_inv _ _ _ _ _ E) as (h' & s' & E1 & <- & E2). split.
    - rewrite E2, Nat.eqb_refl. now apply h_step_frame.
    - intros j D. rewrite E2. destruct (Nat.eqb_spec i j); congruence.
  Qed.
  Lemma w_step_valid w i e w' ms : wvalid w -> (forall now m, e = HHandle now m -> msg_in (w_heap w) m) -> w_step w i e = Ret (w', ms) -> wvalid w'.
  Proof.
    intros V VE E. destruct (w_step_frame _ _ _ _ _ E) as [F N]. destruct (w_step_inv _ _ _ _ _ E) as (h' & s' & E1 & E0 & E2). rewrite <- E0 in E1.
    pose proof (cf_heap _ _ _ _ _ _ F) as (L1 & L2 & _). intros j. destruct (Nat.eq_dec j i) as [->|D].
    - destruct (V i) as [Ve Vs]. split.
      + intros q H. destruct (cf_e _ _ _ _ _ _ F q H) as [X|[X|(m & pr & X & K)]]; [apply Ve in X; lia|lia|].
        destruct (given_in _ _ _ VE X _ _ _ _ E1) as [[M _] _]. eauto.
      + intros q H. destruct (cf_s _ _ _ _ _ _ F q H) as [X|(m & X & K)]; [apply Vs in X; lia|].
        destruct (given_in _ _ _ VE X _ _ _ _ E1) as [[_ M] _]. eauto.
    - rewrite N by exact D. destruct (V j) as [Ve Vs]. split; intros q H; [apply Ve in H|apply Vs in H]; lia.
  Qed.

  (** ** Objects that stay unchanged *)
  Definition share_ptr (m m' : hmsg) : Prop :=
    (exists pr pr' q, hm_K1 m = Some (pr, q) /\ hm_K1 m' = Some (pr', q)) \/ (exists q, hm_K2 m = Some q /\ hm_K2 m' = Some q).
  Definition reaches (s : hstate) (m : hmsg) : Prop :=
    (exists pr q, hm_K1 m = Some (pr, q) /\ reach_e s q) \/ (exists q, hm_K2 m = Some q /\ reach_s s q).
  (** Calls that only store a message or start the timer's callback. *)
  Definition passive (e : hevent) : Prop := match e with HHandle _ _ | HDeliver _ _ | HExpire _ => True | _ => False end.
  Lemma passive_ext h s e h' s' ms : passive e -> h_step h s e = Ret (h', s', ms) -> ext h h'.
  Proof.
    destruct e as [now m|now v|sched|now|]; cbn [passive h_step]; try contradiction; intros _.
    - intros [= <- _ _]. apply ext_refl.
    - destruct (alloc h v) as [h1 p] eqn:EA. intros [= <- _ _]. apply (alloc_ok _ _ _ _ EA).
    - intros [= <- _ _]. apply ext_refl.
  Qed.
  Lemma unchanged (J : nat -> bool) m : forall es w w' out, wvalid w -> valid_run w es -> msg_in (w_heap w) m ->
    (forall i, J i = false -> ~ reaches (w_state w i) m) ->
    (forall i e, In (i, e) es -> J i = true -> passive e) ->
    (forall i now m', In (i, HHandle now m') es -> J i = false -> ~ share_ptr m m') ->
    w_run w es = Ret (w', out) -> deref (w_heap w') m = deref (w_heap w) m.
  Proof.
    induction es as [|[i e] es IH]; intros w w' out V VR M R PA SH E; cbn [w_run] in E; [injection E as <- <-; reflexivity|].
    destruct VR as [VE VR]. destruct (w_step w i e) as [[w1 ms]|x|x] eqn:E1; cbn [obind fst snd] in E; [|discriminate|discriminate].
    destruct (w_run w1 es) as [[w2 out2]|x|x] eqn:E2; cbn [obind fst snd] in E; [|discriminate|discriminate]. injection E as <- <-.
    pose proof (w_step_valid _ _ _ _ _ V VE E1) as V1. destruct (w_step_frame _ _ _ _ _ E1) as [F N].
    destruct (w_step_inv _ _ _ _ _ E1) as (h' & s' & ES & EH & _). rewrite <- EH in ES. pose proof (cf_heap _ _ _ _ _ _ F) as (L1 & L2 & L3 & L4). destruct M as [M1 M2].
    assert (D1 : deref (w_heap w1) m = deref (w_heap w) m).
    { destruct (J i) eqn:EJ.
      - assert (X : ext (w_heap w) (w_heap w1)) by (apply (passive_ext _ _ _ _ _ _ (PA i e (or_introl eq_refl) EJ) ES)). apply ext_deref; [exact X|split; assumption].
      - apply deref_eq.
        + intros pr q K. apply L3; [eauto|]. intros X. apply (R i EJ). left. eauto.
        + intros q K. apply L4; [eauto|]. intros X. apply (R i EJ). right. eauto. }
    rewrite <- D1. apply (IH w1 w2 out2); auto.
    - split; [intros pr q K; specialize (M1 _ _ K); lia|intros q K; specialize (M2 _ K); lia].
    - intros j EJ. destruct (Nat.eq_dec j i) as [->|D]; [|rewrite N by exact D; auto].
      assert (G : forall g, given_by (w_heap w) e g -> ~ share_ptr m g).
      { intros g Hg X. destruct (given_in _ _ _ VE Hg _ _ _ _ ES) as [_ [(now & ->)|[A B]]].
        - exact (SH i now g (or_introl eq_refl) EJ X).
        - destruct X as [(pr & pr' & q & K & K')|(q & K & K')]; [specialize (A _ _ K'); specialize (M1 _ _ K); lia|specialize (B _ K'); specialize (M2 _ K); lia]. }
      intros [(pr & q & K & X)|(q & K & X)].
      + destruct (cf_e _ _ _ _ _ _ F q X) as [Y|[Y|(g & pr' & Y & K')]].
        * apply (R i EJ). left. eauto.
        * specialize (M1 _ _ K). lia.
        * apply (G g Y). left. eauto.
      + destruct (cf_s _ _ _ _ _ _ F q X) as [Y|(g & Y & K')].
        * apply (R i EJ). right. eauto.
        * apply (G g Y). right. eauto.
    - intros j e' Hin. apply PA. now right.
    - intros j now m' Hin. apply (SH j now m'). now right.
  Qed.
  (** The Commitments of a returned KeyGen1 message are its sender's CommitmentsSum for ever. *)
  Lemma csum_kept i : forall es w w' out, (1 <= hk_no (hs_round (w_state w i)))%nat -> w_run w es = Ret (w', out) ->
    hk_csum (hs_round (w_state w' i)) = hk_csum (hs_round (w_state w i)).
  Proof.
    induction es as [|[j e] es IH]; intros w w' out H E; cbn [w_run] in E; [injection E as <- <-; reflexivity|].
    destruct (w_step w j e) as [[w1 ms]|x|x] eqn:E1; cbn [obind fst snd] in E; [|discriminate|discriminate].
    destruct (w_run w1 es) as [[w2 out2]|x|x] eqn:E2; cbn [obind fst snd] in E; [|discriminate|discriminate]. injection E as <- <-.
    destruct (w_step_frame _ _ _ _ _ E1) as [F N]. destruct (Nat.eq_dec i j) as [<-|D].
    - destruct (cf_csum _ _ _ _ _ _ F H) as [A B]. rewrite (IH _ _ _ B E2). exact A.
    - rewrite (IH w1 w2 out2); [now rewrite N|now rewrite N|exact E2].
  Qed.
  Lemma returned_csum : forall es w w' out i m c pr q, w_run w es = Ret (w', out) -> In (i, m, c) out -> hm_K1 m = Some (pr, q) -> hk_csum (hs_round (w_state w' i)) = Some q.
  Proof.
    induction es as [|[j e] es IH]; intros w w' out i m c pr q E Hin K; cbn [w_run] in E; [injection E as <- <-; destruct Hin|].
    destruct (w_step w j e) as [[w1 ms]|x|x] eqn:E1; cbn [obind fst snd] in E; [|discriminate|discriminate].
    destruct (w_run w1 es) as [[w2 out2]|x|x] eqn:E2; cbn [obind fst snd] in E; [|discriminate|discriminate]. injection E as <- <-.
    apply in_app_iff in Hin as [Hin|Hin]; [|exact (IH _ _ _ _ _ _ _ _ E2 Hin K)].
    apply in_map_iff in Hin as (m' & [= -> -> _] & Hm). destruct (w_step_frame _ _ _ _ _ E1) as [F N].
    destruct (cf_msgs _ _ _ _ _ _ F m Hm) as (_ & B & _). destruct (B _ _ K) as (_ & B2 & B3). rewrite <- B2. exact (csum_kept i _ _ _ _ B3 E2).
  Qed.

  (** ** Simulation *)
  Lemma abs_same h h' s : (forall q, reach_e s q -> rd_exp h' q = rd_exp h q) -> (forall q, reach_s s q -> rd_share h' q = rd_share h q) -> abs_state h' s = abs_state h s.
  Proof.
    intros A B. assert (D : forall m, holds s m -> deref h' m = deref h m).
    { intros m H. apply deref_eq; [intros pr q K; apply A; right; eauto|intros q K; apply B; exists m; auto]. }
    unfold abs_state. f_equal.
    - apply map_eq. intros id. rewrite !lookup_fmap. destruct (hs_received s !! id) as [[m|]|] eqn:E; cbn; [|reflexivity|reflexivity]. rewrite D; [reflexivity|]. left. eauto.
    - apply map_ext_in. intros m H. apply D. now right.
    - apply abs_round_eq; [intros p E; apply A; left; now left|intros id q E; apply A; left; right; eauto].
  Qed.
  Lemma swf_range h s : swf h s -> in_range h s.
  Proof. intros W. split; intros q; [apply reach_e_in|apply reach_s_in]; exact W. Qed.
  Lemma swf_ge h h' s : (le h <= le h')%nat -> (ls h <= ls h')%nat -> swf h s -> swf h' s.
  Proof.
    intros L1 L2 [[K1 K2] B C D]. constructor; auto.
    - split; [intros p E; apply K1 in E; lia|]. intros id q E. destruct (K2 _ _ E). split; [lia|assumption].
    - intros m H. destruct (C m H) as [[A1 A2] A3]. split; [split|exact A3]; [intros pr q K; specialize (A1 _ _ K); lia|intros q K; specialize (A2 _ K); lia].
  Qed.
  Lemma same_state_eq h h' s ps : abs_state h' s = abs_state h s -> same_state h s ps -> same_state h' s ps.
  Proof. intros E. unfold same_state. now rewrite E. Qed.
  Lemma same_done h s ps : same_state h s ps -> st_done ps = hs_done s.
  Proof. unfold same_state. destruct (hs_done s) eqn:D; [intros E; apply (f_equal st_done) in E; cbn in E; congruence|intros <-; exact D]. Qed.

  (** The calls with messages from the network. *)
  Definition lift (e : event) : hevent :=
    match e with EHandle now m => HDeliver now m | EProcess o _ => HProcess o | EExpire now => HExpire now | ECallback => HCallback end.
  Definition strip_eq h s ps := strip (abs_state h s) = strip ps.
  Lemma same_strip h s ps : same_state h s ps -> strip_eq h s ps.
  Proof. unfold same_state, strip_eq. destruct (hs_done s); [auto|intros ->; reflexivity]. Qed.

  Lemma h_step_ok h s ps e : swf h s -> same_state h s ps ->
    match h_step h s (lift e) with
    | Ret (h', s', ms) => exists ps', step KR ps e = Ret (ps', map (deref h') ms) /\ same_state h' s' ps' /\ swf h' s'
    | Fail x => step KR ps e = Fail x
    | Panics x => step KR ps e = Panics x
    end.
  Proof.
    intros W SS. pose proof (same_done _ _ _ SS) as SD. destruct e as [now m|o o'|now|]; cbn [lift h_step step].
    - destruct (alloc h m) as [h' p] eqn:EA. destruct (alloc_ok _ _ _ _ EA) as (X & DP & MI & _ & F1 & F2). pose proof X as (X1 & X2 & X3 & X4).
      assert (W' : swf h' s) by exact (swf_ge _ _ _ X1 X2 W). destruct (swf_range _ _ W) as [RE RS].
      assert (SS' : same_state h' s ps). { apply (same_state_eq h); [|exact SS]. apply abs_same; auto. }
      eexists. split; [reflexivity|]. split.
      + destruct (hs_done s) eqn:D.
        * unfold h_HandleMessage, HandleMessage. rewrite D, SD. exact SS'.
        * unfold same_state in SS'. rewrite D in SS'. subst ps. rewrite <- DP, <- (h_Handle_sim now h' s p D). unfold same_state. destruct (hs_done (h_HandleMessage now s p)); reflexivity.
      + apply h_Handle_wf; [exact W'|]. refine (conj MI (conj _ _)).
        * intros pr q K. destruct (F1 _ _ K) as [A _]. intros E. assert (reach_e s q) as Y by (left; now left). apply RE in Y. lia.
        * intros m' q H K K'. specialize (F2 _ K). assert (reach_s s q) as Y by (exists m'; auto). apply RS in Y. lia.
    - destruct (hs_done s) eqn:D.
      + unfold h_ProcessAll, ProcessAll. rewrite D, SD. exists ps. split; [reflexivity|]. split; assumption.
      + unfold same_state in SS. rewrite D in SS. subst ps. pose proof (h_ProcessAll_ok o o' h s W D) as P.
        destruct (h_ProcessAll o h s) as [[[h' s'] ms]|x|x]; [|exact P|exact P]. destruct P as (ps' & A & B & C & _). eauto.
    - eexists. split; [reflexivity|]. split.
      + assert (Q : forall s0 ps0, strip_eq h s0 ps0 -> hs_done s0 = hs_done s -> strip_eq h (h_timerExpire now s0) (timerExpire now ps0) /\ hs_done (h_timerExpire now s0) = hs_done s).
        { intros s0 ps0 E D0. unfold strip_eq, h_timerExpire, timerExpire in *. assert (st_timer ps0 = hs_timer s0) as ->. { apply (f_equal st_timer) in E. cbn in E. congruence. }
          destruct (tm_deadline (hs_timer s0)) as [dl|]; [|auto]. destruct (dl <=? now); [|auto]. split; [|exact D0]. unfold strip in *. cbn in *. injection E; intros. f_equal; congruence. }
        destruct (Q s ps (same_strip _ _ _ SS) eq_refl) as [Q1 Q2]. unfold same_state. rewrite Q2. destruct (hs_done s) eqn:D; [exact Q1|].
        unfold same_state in SS. rewrite D in SS. subst ps. unfold h_timerExpire, timerExpire. change (st_timer (abs_state h s)) with (hs_timer s).
        destruct (tm_deadline (hs_timer s)) as [dl|]; [|reflexivity]. destruct (dl <=? now); reflexivity.
      + unfold h_timerExpire. destruct (tm_deadline (hs_timer s)); [|exact W]. destruct (_ <=? now); [|exact W]. destruct W; constructor; auto.
    - unfold h_timerCallback, timerCallback. pose proof (same_strip _ _ _ SS) as ST. assert (st_timer ps = hs_timer s) as ->. { apply (f_equal st_timer) in ST. cbn in ST. congruence. }
      destruct (tm_pending (hs_timer s)) as [|k]; cbn [obind fst snd].
      + exists ps. split; [reflexivity|]. split; assumption.
      + set (s1 := mkHs _ _ _ _ _ _ _ _ _). set (ps1 := mkState _ _ _ _ _ _ _ _ _).
        assert (W1 : swf h s1) by (destruct W; constructor; auto).
        assert (ST1 : strip (abs_state h s1) = strip ps1). { unfold strip_eq, strip in *. cbn in *. injection ST; intros. f_equal; congruence. }
        destruct (hs_done s) eqn:D.
        * unfold h_reportError, reportError. change (hs_done s1) with true. change (st_done ps1) with (st_done ps). rewrite SD. cbn [obind fst snd]. exists ps1. split; [reflexivity|]. split; [|exact W1]. exact ST1.
        * pose proof (h_reportError_ok h s1 ps1 0 "message timeout" W1 eq_refl ST1) as R.
          destruct (h_reportError h s1 0 "message timeout") as [[h' s']|x|x]; cbn [obind fst snd]; [|now rewrite R|now rewrite R].
          destruct R as (ps' & -> & A & _ & B & _). cbn [obind]. eauto.
  Qed.

  (** States that do not share objects *)
  Record wsim (w : world) (pw : nat -> State kround) : Prop := {
    ws_wf : forall i, swf (w_heap w) (w_state w i);
    ws_same : forall i, same_state (w_heap w) (w_state w i) (pw i);
    ws_e : forall i j q, i <> j -> reach_e (w_state w i) q -> ~ reach_e (w_state w j) q;
    ws_s : forall i j q, i <> j -> reach_s (w_state w i) q -> ~ reach_s (w_state w j) q
  }.
  Lemma lift_given h e m : given_by h (lift e) m -> (forall pr q, hm_K1 m = Some (pr, q) -> (le h <= q)%nat) /\ (forall q, hm_K2 m = Some q -> (ls h <= q)%nat).
  Proof.
    destruct e as [now v| | |]; cbn; try contradiction. destruct (alloc h v) as [h1 p] eqn:EA. intros ->. destruct (alloc_ok _ _ _ _ EA) as (_ & _ & _ & _ & A & B).
    split; [|exact B]. intros pr q K. apply (A _ _ K).
  Qed.
  Lemma w_step_sim w pw i e : wsim w pw ->
    match w_step w i (lift e) with
    | Ret (w', ms) => exists ps', step KR (pw i) e = Ret (ps', map (deref (w_heap w')) ms) /\ wsim w' (fun j => if Nat.eqb i j then ps' else pw j)
    | Fail x => step KR (pw i) e = Fail x
    | Panics x => step KR (pw i) e = Panics x
    end.
  Proof.
    intros S0. pose proof (h_step_ok (w_heap w) (w_state w i) (pw i) e (ws_wf _ _ S0 i) (ws_same _ _ S0 i)) as P.
    destruct (w_step w i (lift e)) as [[w' ms]|x|x] eqn:E.
    - destruct (w_step_inv _ _ _ _ _ E) as (h' & s' & E1 & EH & E2). rewrite E1 in P. destruct P as (ps' & A & B & C). subst h'. exists ps'. split; [exact A|].
      destruct (w_step_frame _ _ _ _ _ E) as [F N]. pose proof (cf_heap _ _ _ _ _ _ F) as (L1 & L2 & L3 & L4).
      assert (SI : w_state w' i = s') by (rewrite E2, Nat.eqb_refl; reflexivity).
      assert (RE : forall j q, j <> i -> reach_e (w_state w' i) q -> ~ reach_e (w_state w j) q).
      { intros j q D X Y. pose proof (reach_e_in _ _ _ (ws_wf _ _ S0 j) Y) as Z. destruct (cf_e _ _ _ _ _ _ F q X) as [U|[U|(m & pr & U & K)]].
        - exact (ws_e _ _ S0 i j q (not_eq_sym D) U Y).
        - lia.
        - destruct (lift_given _ _ _ U) as [G _]. specialize (G _ _ K). lia. }
      assert (RS : forall j q, j <> i -> reach_s (w_state w' i) q -> ~ reach_s (w_state w j) q).
      { intros j q D X Y. pose proof (reach_s_in _ _ _ (ws_wf _ _ S0 j) Y) as Z. destruct (cf_s _ _ _ _ _ _ F q X) as [U|(m & U & K)].
        - exact (ws_s _ _ S0 i j q (not_eq_sym D) U Y).
        - destruct (lift_given _ _ _ U) as [_ G]. specialize (G _ K). lia. }
      constructor.
      + intros j. destruct (Nat.eq_dec j i) as [->|D]; [rewrite SI; exact C|]. rewrite N by exact D. exact (swf_ge _ _ _ L1 L2 (ws_wf _ _ S0 j)).
      + intros j. destruct (Nat.eqb_spec i j) as [<-|D]; [rewrite SI; exact B|]. rewrite N by congruence. apply (same_state_eq (w_heap w)); [|apply (ws_same _ _ S0)].
        apply abs_same.
        * intros q X. apply L3; [exact (reach_e_in _ _ _ (ws_wf _ _ S0 j) X)|]. intros Y. exact (ws_e _ _ S0 i j q D Y X).
        * intros q X. apply L4; [exact (reach_s_in _ _ _ (ws_wf _ _ S0 j) X)|]. intros Y. exact (ws_s _ _ S0 i j q D Y X).
      + intros a b q D X Y. destruct (Nat.eq_dec a i) as [->|Da].
        * rewrite N in Y by congruence. exact (RE b q (not_eq_sym D) X Y).
        * rewrite N in X by exact Da. destruct (Nat.eq_dec b i) as [->|Db]; [exact (RE a q D Y X)|]. rewrite N in Y by exact Db. exact (ws_e _ _ S0 a b q D X Y).
      + intros a b q D X Y. destruct (Nat.eq_dec a i) as [->|Da].
        * rewrite N in Y by congruence. exact (RS b q (not_eq_sym D) X Y).
        * rewrite N in X by exact Da. destruct (Nat.eq_dec b i) as [->|Db]; [exact (RS a q D Y X)|]. rewrite N in Y by exact Db. exact (ws_s _ _ S0 a b q D X Y).
    - unfold w_step in E. destruct (h_step (w_heap w) (w_state w i) (lift e)) as [[[h' s'] ms]|y|y]; cbn [obind] in E; [discriminate|congruence|discriminate].
    - unfold w_step in E. destruct (h_step (w_heap w) (w_state w i) (lift e)) as [[[h' s'] ms]|y|y]; cbn [obind] in E; [discriminate|discriminate|congruence].
  Qed.

  (** The calls on one State, and the contents of the messages it returned. *)
  Definition mine {A} (i : nat) (es : list (nat * A)) : list A := map snd (List.filter (fun p => Nat.eqb (fst p) i) es).
  Definition said (i : nat) (out : list (nat * hmsg * Message)) : list Message := map snd (List.filter (fun p => Nat.eqb (fst (fst p)) i) out).
  Definition on (p : nat * event) : nat * hevent := (fst p, lift (snd p)).
  Lemma said_app i a b : said i (a ++ b) = said i a ++ said i b.
  Proof. unfold said. rewrite List.filter_app. apply map_app. Qed.
  Lemma said_mine i h ms : said i (map (fun m => (i, m, deref h m)) ms) = map (deref h) ms.
  Proof. induction ms as [|m ms IH]; [reflexivity|]. unfold said in *. cbn. rewrite Nat.eqb_refl. cbn. f_equal. exact IH. Qed.
  Lemma said_other i j h ms : j <> i -> said i (map (fun m => (j, m, deref h m)) ms) = [].
  Proof. intros D. induction ms as [|m ms IH]; [reflexivity|]. unfold said in *. cbn. destruct (Nat.eqb_spec j i); [congruence|exact IH]. Qed.

  Lemma w_run_sim : forall es w pw, wsim w pw ->
    match w_run w (map on es) with
    | Ret (w', out) => exists pw', wsim w' pw' /\ forall i, run KR (pw i) (mine i es) = Ret (pw' i, said i out)
    | Fail x => exists i n, run KR (pw i) (mine i (firstn n es)) = Fail x
    | Panics x => exists i n, run KR (pw i) (mine i (firstn n es)) = Panics x
    end.
  Proof.
    induction es as [|[i e] es IH]; intros w pw S0; cbn [map w_run on fst snd].
    - exists pw. split; [exact S0|]. reflexivity.
    - assert (M1 : forall l, mine i ((i, e) :: l) = e :: mine i l) by (intros l; unfold mine; cbn; now rewrite Nat.eqb_refl).
      assert (M2 : forall j (l : list (nat * event)), j <> i -> mine j ((i, e) :: l) = mine j l) by (intros j l D; unfold mine; cbn; destruct (Nat.eqb_spec i j); [congruence|reflexivity]).
      pose proof (w_step_sim w pw i e S0) as P. destruct (w_step w i (lift e)) as [[w1 ms]|x|x]; cbn [obind fst snd].
      + destruct P as (ps1 & A & S1). specialize (IH w1 _ S1). destruct (w_run w1 (map on es)) as [[w2 out2]|x|x]; cbn [obind fst snd].
        * destruct IH as (pw' & S2 & R). exists pw'. split; [exact S2|]. intros j. rewrite said_app. specialize (R j). destruct (Nat.eqb_spec i j) as [E|D]; [subst j|].
          -- rewrite M1. cbn [run]. rewrite A. cbn [obind fst snd]. rewrite R. cbn [obind fst snd]. now rewrite said_mine.
          -- rewrite M2 by congruence. rewrite R. now rewrite said_other.
        * destruct IH as (j & n & R). exists j, (S n). cbn [firstn]. destruct (Nat.eqb_spec i j) as [E|D]; [subst j|rewrite M2 by congruence; exact R].
          rewrite M1. cbn [run]. rewrite A. cbn [obind fst snd]. rewrite R. reflexivity.
        * destruct IH as (j & n & R). exists j, (S n). cbn [firstn]. destruct (Nat.eqb_spec i j) as [E|D]; [subst j|rewrite M2 by congruence; exact R].
          rewrite M1. cbn [run]. rewrite A. cbn [obind fst snd]. rewrite R. reflexivity.
      + exists i, 1%nat. cbn [firstn]. rewrite M1. cbn [run]. rewrite P. reflexivity.
      + exists i, 1%nat. cbn [firstn]. rewrite M1. cbn [run]. rewrite P. reflexivity.
  Qed.

  (** New States *)
  Lemma new_fold {A B} (l : list ID) self (a : gmap ID (option A)) (f : A -> B) :
    (option_map f <$> fold_left (fun m id => if id =? self then m else <[id := None]> m) l a) = fold_left (fun m id => if id =? self then m else <[id := None]> m) l (option_map f <$> a).
  Proof. revert a. induction l as [|x l IH]; intros a; cbn [fold_left]; [reflexivity|]. rewrite IH. destruct (x =? self); [reflexivity|]. now rewrite fmap_insert. Qed.
  Lemma new_none {A} (l : list ID) self : forall (a : gmap ID (option A)) id m, (forall id m, a !! id <> Some (Some m)) -> fold_left (fun m id => if id =? self then m else <[id := None]> m) l a !! id <> Some (Some m).
  Proof.
    induction l as [|x l IH]; intros a id m H; cbn [fold_left]; [apply H|]. apply IH. intros id' m'. destruct (x =? self); [apply H|].
    destruct (decide (x = id')) as [->|D]; [rewrite lookup_insert; congruence|rewrite lookup_insert_ne by exact D; apply H].
  Qed.
  Lemma h_New_ok h r now timeout self ids t :
    match h_New r now timeout self ids t with
    | Ret s => NewKeygenState r now timeout self ids t = Ret (abs_state h s) /\ swf h s /\ hs_done s = false /\ (forall q, ~ reach_e s q) /\ (forall q, ~ reach_s s q)
    | Fail e => NewKeygenState r now timeout self ids t = Fail e
    | Panics w => NewKeygenState r now timeout self ids t = Panics w
    end.
  Proof.
    unfold h_New, NewKeygenState, kg_NewRound. destruct (t =? 0); [reflexivity|]. destruct (_ <? t); [reflexivity|].
    destruct (NewBaseRound self ids) as [base|e|w]; cbn [obind]; [|reflexivity|reflexivity].
    assert (NH : forall s id m, hs_received s = fold_left (fun m id => if id =? fst base then m else <[id := None]> m) (snd base) ∅ -> hs_received s !! id <> Some (Some m)).
    { intros s id m ->. apply new_none. intros id' m'. rewrite lookup_empty. discriminate. }
    refine (conj _ (conj _ (conj eq_refl (conj _ _)))).
    - unfold abs_state, NewBaseState, abs_round. cbn. rewrite (new_fold (snd base) (fst base) ∅ (deref h)), !fmap_empty. reflexivity.
    - constructor; cbn.
      + split; cbn; [discriminate|]. intros id q. rewrite lookup_empty. discriminate.
      + intros id m E. exfalso. revert E. apply new_none. intros id' m'. rewrite lookup_empty. discriminate.
      + intros m [(id & E)|[]]. exfalso. revert E. apply NH. reflexivity.
      + intros m m' q [(id & E)|[]]. exfalso. revert E. apply NH. reflexivity.
    - intros q [[E|(id & E)]|(m & pr & [(id & E)|[]] & _)]; cbn in E; [discriminate|rewrite lookup_empty in E; discriminate|].
      revert E. apply new_none. intros id' m'. rewrite lookup_empty. discriminate.
    - intros q (m & [(id & E)|[]] & _). revert E. apply NH. reflexivity.
  Qed.
End HeapWorld.
