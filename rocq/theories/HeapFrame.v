(** What calls on a State can change in the heap, whatever pointers the States share. *)
From Coq Require Import ZArith Lia List Bool String.
From stdpp Require Import base gmap list fin_maps.
From Verif Require Import ZField Primes Bytes Scalar Go Group Party Poly Zk Eddsa Messages State StateFacts Keygen Heap HeapFacts HeapSim.
Import ListNotations.
Local Open Scope Z_scope.

Section HeapFrame.
  Context `{Gr : group_ops} `{Hf : hash_fn}.
  Local Arguments rd_exp : simpl never.
  Local Arguments wr_exp : simpl never.
  Local Arguments rd_share : simpl never.
  Local Arguments wr_share : simpl never.

  Lemma hk_process_post h k m :
    match hk_process h k m with ROk (h', k') _ | RErr (h', k') _ _ => proc_post m h k h' k' | RPanic w => True end.
  Proof.
    unfold hk_process. destruct (hk_no k) as [|[|n]] eqn:EN.
    - destruct k as [r c cm]. apply (proc_post_refl m h (mkHk r c cm) r eq_refl).
    - unfold hkg1_process. pose proof (kg1_shape (abs_round h k) (option_map (deref h) m) _ eq_refl) as SH.
      destruct (kg1_process (abs_round h k) (option_map (deref h) m)) as [k' []|k' c t|w] eqn:EK; [|subst k'; apply proc_post_refl; reflexivity|exact I].
      destruct SH as (msg & b & c & c' & E1 & E2 & E3 & E4 & E5 & E6). destruct m as [msg0|]; [|exact I].
      destruct (hk_csum k) as [p|] eqn:EP; [|exact I]. destruct (hm_K1 msg0) as [[pr q]|] eqn:EQ; [|exact I].
      unfold proc_post. rewrite EP. cbn [hk_csum hk_comms]. refine (conj (le_wr_exp _ _ _) (conj eq_refl (conj eq_refl (conj _ (conj _ (conj _ (conj _ _))))))).
      + unfold hk_no. cbn. rewrite E6. reflexivity.
      + intros q' D. apply rd_wr_exp_other. congruence.
      + reflexivity.
      + reflexivity.
      + intros id q'. destruct (decide (id = h_From (hm_Header msg0))) as [->|D].
        * rewrite lookup_insert. intros [= <-]. right. eauto.
        * rewrite lookup_insert_ne by congruence. auto.
    - unfold hkg2_process. pose proof (kg2_shape (abs_round h k) (option_map (deref h) m) _ eq_refl) as SH.
      destruct (kg2_process (abs_round h k) (option_map (deref h) m)) as [k' []|k' c t|w] eqn:EK; [|subst k'; apply proc_post_refl; reflexivity|exact I].
      destruct SH as (msg & b & E1 & E2 & E3 & E4 & E5). destruct m as [msg0|]; [|exact I]. destruct (hm_K2 msg0) as [q|] eqn:EQ; [|exact I].
      unfold proc_post. cbn [hk_csum hk_comms]. refine (conj eq_refl (conj (ls_wr_share _ _ _) (conj eq_refl (conj E5 (conj _ (conj _ (conj _ _))))))).
      + reflexivity.
      + intros q' H. apply rd_wr_share_other. intros ->. now apply (H msg0).
      + rewrite EN. lia.
      + auto.
  Qed.
  Lemma loop_post_refl rec h k : loop_post rec h k h k.
  Proof. repeat (split; [auto; fail|]). auto. Qed.
  Lemma h_loop_post rec ids : forall h k,
    match h_process_loop h k rec ids with ROk (h', k') _ | RErr (h', k') _ _ => loop_post rec h k h' k' | RPanic w => True end.
  Proof.
    induction ids as [|id ids IH]; intros h k; cbn [h_process_loop]; [apply loop_post_refl|].
    pose proof (hk_process_post h k (default None (rec !! id))) as P.
    destruct (hk_process h k (default None (rec !! id))) as [[h1 k1] u|[h1 k1] c t|w]; [|exact (loop_one _ _ _ _ _ _ P)|exact I].
    apply loop_one in P. specialize (IH h1 k1). destruct (h_process_loop h1 k1 rec ids) as [[h2 k2] u2|[h2 k2] c t|w]; [| |exact I]; exact (loop_trans _ _ _ _ _ _ _ P IH).
  Qed.
  Lemma hk_generate_post h k :
    match hk_generate h k with ROk (h', k') ms => gen_post h k h' k' ms | RErr _ _ _ => False | RPanic w => True end.
  Proof.
    unfold hk_generate. destruct (hk_no k) as [|[|n]] eqn:EN.
    - unfold hkg0_generate. pose proof (kg0_shape (abs_round h k) _ eq_refl) as SH.
      destruct (kg0_generate (abs_round h k)) as [k' ms|? ? ?|w]; [|contradiction|exact I].
      destruct SH as (pf & c & -> & E1 & E2 & E3). rewrite E1. cbn [default map].
      refine (conj _ (conj eq_refl (conj (or_intror (conj eq_refl _)) (conj _ _)))).
      + unfold ext, le, ls. cbn. refine (conj _ (conj _ (conj _ _))); [rewrite app_length; lia|lia| |reflexivity]. intros q Hq. unfold rd_exp. cbn. now rewrite app_nth1.
      + unfold le. cbn. rewrite app_length. cbn. lia.
      + unfold hk_no. cbn. rewrite E3. reflexivity.
      + intros m [<-|[]]. cbn. refine (conj _ (conj _ _)).
        * split; cbn; [|discriminate]. intros pr q [= <- <-]. unfold le. cbn. rewrite app_length. cbn. lia.
        * intros pr q [= <- <-]. unfold le. auto.
        * discriminate.
    - unfold hkg1_generate. pose proof (kg1g_shape (abs_round h k) _ eq_refl) as SH.
      destruct (kg1_generate (abs_round h k)) as [k' ms|? ? ?|w]; [|contradiction|exact I].
      destruct SH as (E1 & E2 & E3 & E4). destruct (alloc_all h ms) as [h' ps] eqn:EA. destruct (alloc_all_ok _ _ _ _ EA) as (X & D & R).
      refine (conj X (conj eq_refl (conj (or_introl eq_refl) (conj _ _)))); [unfold hk_no; cbn; rewrite E3; reflexivity|].
      intros m Hm. destruct (R m Hm) as (A & B & C). refine (conj A (conj _ C)). intros pr q K. destruct (B _ _ K) as (_ & m' & M1 & M2). now rewrite (E4 _ M1) in M2.
    - unfold hkg2_generate. pose proof (kg2g_shape (abs_round h k) _ eq_refl) as SH.
      destruct (kg2_generate (abs_round h k)) as [k' ms|? ? ?|w]; [|contradiction|exact I].
      destruct SH as (E1 & E2 & E3 & ->). cbn [alloc_all map]. apply gen_refl. unfold hk_no. rewrite E3. reflexivity.
  Qed.

  Lemma hk_generate_extra h k :
    match hk_generate h k with ROk (h', k') ms => ((1 <= hk_no k)%nat -> hk_csum k' = hk_csum k) /\ ((2 <= hk_no k)%nat -> ms = []) | _ => True end.
  Proof.
    unfold hk_generate. destruct (hk_no k) as [|[|n]] eqn:EN.
    - unfold hkg0_generate. destruct (kg0_generate (abs_round h k)); [split; lia|exact I|exact I].
    - unfold hkg1_generate. destruct (kg1_generate (abs_round h k)); [|exact I|exact I]. destruct (alloc_all h _). split; [reflexivity|lia].
    - unfold hkg2_generate. pose proof (kg2g_shape (abs_round h k) _ eq_refl) as SH. destruct (kg2_generate (abs_round h k)); [|exact I|exact I].
      destruct SH as (_ & _ & _ & ->). cbn. split; reflexivity.
  Qed.

  (** A call on [s] that leaves [h'], [s'] and returns [ms]; [given] are the messages handed over by the call. *)
  Record call_frame (given : hmsg -> Prop) (h : heap) (s : hstate) (h' : heap) (s' : hstate) (ms : list hmsg) : Prop := {
    cf_heap : frm (reach_e s) (reach_s s) h h';
    cf_e : forall q, reach_e s' q -> reach_e s q \/ (le h <= q < le h')%nat \/ exists m pr, given m /\ hm_K1 m = Some (pr, q);
    cf_s : forall q, reach_s s' q -> reach_s s q \/ exists m, given m /\ hm_K2 m = Some q;
    cf_csum : (1 <= hk_no (hs_round s))%nat -> hk_csum (hs_round s') = hk_csum (hs_round s) /\ (1 <= hk_no (hs_round s'))%nat;
    cf_msgs : forall m, In m ms -> msg_in h' m /\ (forall pr q, hm_K1 m = Some (pr, q) -> (le h <= q)%nat /\ hk_csum (hs_round s') = Some q /\ (1 <= hk_no (hs_round s'))%nat) /\
      (forall q, hm_K2 m = Some q -> (ls h <= q)%nat)
  }.
  Lemma cf_same given h s : call_frame given h s h s [].
  Proof. constructor; auto; [apply frm_refl|intros m []]. Qed.
  Lemma h_finish_frame given h s h' s' : h_finish h s = Ret (h', s') -> call_frame given h s h' s' [].
  Proof.
    unfold h_finish. destruct (hs_done s); [intros [= <- <-]; apply cf_same|]. pose proof (hkg_Reset_ok h (hs_round s)) as R.
    destruct (hkg_Reset h (hs_round s)) as [[h1 k1]|e|w]; cbn [obind]; [|discriminate|discriminate]. destruct R as (R1 & R2 & R3 & R4 & R5 & R6 & R7).
    cbn [fst snd]. destruct (hs_closed s); [|discriminate]. intros [= <- <-]. assert (LS : ls h1 = ls h) by (unfold ls; now rewrite R3). constructor; cbn.
    - refine (conj _ (conj _ (conj _ _))); [lia|lia| |].
      + intros q _ N. apply R7. intros X. apply N. now left.
      + intros q _ _. unfold rd_share. now rewrite R3.
    - intros q [X|X]; left; [left|right; exact X]. unfold k_reach in *. cbn in X. now rewrite R4, R5 in X.
    - intros q X. left. exact X.
    - intros H. rewrite R6. auto.
    - intros m [].
  Qed.
  Lemma h_reportError_frame given h s c t h' s' : h_reportError h s c t = Ret (h', s') -> call_frame given h s h' s' [].
  Proof.
    unfold h_reportError. destruct (hs_done s) eqn:D; [intros [= <- <-]; apply cf_same|]. intros H. apply (h_finish_frame given) in H. destruct H. constructor; auto.
  Qed.
  Lemma cf_trans given h s h1 s1 h2 s2 : call_frame given h s h1 s1 [] -> call_frame (fun _ => False) h1 s1 h2 s2 [] -> (forall q m, given m -> (forall pr, hm_K1 m = Some (pr, q) -> reach_e s q) /\ (hm_K2 m = Some q -> reach_s s q)) ->
    call_frame given h s h2 s2 [].
  Proof.
    intros A B C. pose proof (cf_heap _ _ _ _ _ _ A) as (L1 & L2 & _). pose proof (cf_heap _ _ _ _ _ _ B) as (L3 & L4 & _). constructor.
    - refine (frm_trans _ _ _ _ _ _ _ (cf_heap _ _ _ _ _ _ A) (cf_heap _ _ _ _ _ _ B) _ _).
      + intros q H. destruct (cf_e _ _ _ _ _ _ A q H) as [E|[E|(m & pr & E & F)]]; [now left|right; lia|left; now apply (C q m E) with pr].
      + intros q H. destruct (cf_s _ _ _ _ _ _ A q H) as [E|(m & E & F)]; [now left|left; now apply (C q m E)].
    - intros q H. destruct (cf_e _ _ _ _ _ _ B q H) as [E|[E|(m & pr & [] & F)]]; [|right; left; lia].
      destruct (cf_e _ _ _ _ _ _ A q E) as [E'|[E'|E']]; [now left|right; left; lia|right; now right].
    - intros q H. destruct (cf_s _ _ _ _ _ _ B q H) as [E|(m & [] & F)]. exact (cf_s _ _ _ _ _ _ A q E).
    - intros H. destruct (cf_csum _ _ _ _ _ _ A H) as [E F]. destruct (cf_csum _ _ _ _ _ _ B F) as [E' F']. split; [congruence|exact F'].
    - intros m [].
  Qed.

  Lemma h_ProcessAll_frame sched h s h' s' ms : h_ProcessAll sched h s = Ret (h', s', ms) -> call_frame (fun _ => False) h s h' s' ms.
  Proof.
    unfold h_ProcessAll. destruct (hs_done s); [intros [= <- <- <-]; apply cf_same|]. destruct (negb _); [intros [= <- <- <-]; apply cf_same|].
    pose proof (h_loop_post (hs_received s) (map_keys sched (st_received (abs_state h s))) h (hs_round s)) as P.
    destruct (h_process_loop _ _ _ _) as [[h1 k1] u|[h1 k1] c t|w] eqn:EL; [| |discriminate].
    - pose proof (hk_generate_post h1 k1) as GP. pose proof (hk_generate_extra h1 k1) as GX. destruct (hk_generate h1 k1) as [[h2 k2] ms1|? ? ?|w]; [|destruct GP|discriminate].
      destruct GP as (X & G1 & G2 & G3 & G4). destruct GX as [GX1 GX2]. destruct P as (P1 & P2 & P3 & P4 & P5 & P6 & P7 & P8). pose proof X as (X1 & X2 & X3 & X4).
      destruct (hs_accepted s) as [|ct0 acc]; [discriminate|]. fold (h_requeue acc (hs_queue s)). pose proof (requeue_in acc (hs_queue s)) as [RQ1 RQ2].
      destruct (h_requeue acc (hs_queue s)) as [rec' queue']. cbn [fst snd] in RQ1, RQ2.
      assert (CF : forall nr rn d, hk_csum nr = hk_csum k2 -> hk_comms nr = hk_comms k2 -> ((1 <= hk_no k2)%nat -> (1 <= hk_no nr)%nat) -> (hk_no k2 = O -> ms1 = [] \/ (1 <= hk_no nr)%nat) ->
        call_frame (fun _ => False) h s h2 (mkHs acc rec' queue' (hs_timer s) rn nr (hs_closed s) d (hs_err s)) ms1).
      { intros nr rn d C1 C2 C3 C4. assert (H : forall m, holds (mkHs acc rec' queue' (hs_timer s) rn nr (hs_closed s) d (hs_err s)) m -> holds s m).
        { intros m [(id & E)|E]; right; cbn in E; [apply (RQ1 _ _ E)|exact (RQ2 _ E)]. }
        constructor; cbn [hs_round].
        - refine (conj _ (conj _ (conj _ _))); [lia|lia| |].
          + intros q Hq N. rewrite X3 by lia. apply P5. intros E. apply N. left. now left.
          + intros q Hq N. rewrite X4 by lia. apply P6. intros id m E K. apply N. exists m. split; [left; eauto|exact K].
        - intros q [[E|(id & E)]|(m & pr & E & K)]; cbn [hs_round] in *.
          + rewrite C1 in E. destruct G2 as [G2|[G2 G2']]; [left; left; left; congruence|right; left; rewrite G2 in E; injection E as <-; lia].
          + rewrite C2, G1 in E. left. destruct (P8 _ _ E) as [E'|(id' & m & pr & E' & K)]; [left; right; eauto|right; exists m, pr; split; [left; eauto|exact K]].
          + left. right. exists m, pr. split; [apply H, E|exact K].
        - intros q (m & E & K). left. exists m. split; [apply H, E|exact K].
        - intros N. split; [|apply C3; lia]. rewrite C1, <- P3. apply GX1. lia.
        - intros m Hm. destruct (G4 m Hm) as (A & B & C). refine (conj A (conj _ _)).
          + intros pr q K. destruct (B _ _ K) as (B1 & B2 & B3). refine (conj _ (conj _ _)); [lia|congruence|].
            destruct C4 as [->|C4]; [congruence|destruct Hm|exact C4].
          + intros q K. specialize (C _ K). lia. }
      destruct (hk_next k2) as [nr|] eqn:EN.
      + intros [= <- <- <-]. unfold hk_next in EN. destruct (hk_no k2) as [|[|]] eqn:E2; [injection EN as <-|injection EN as <-|discriminate]; apply CF; try reflexivity; cbn; lia.
      + destruct (h_finish h2 _) as [[h3 s3]|e|w] eqn:EF; cbn [obind fst snd]; [|discriminate|discriminate]. intros [= <- <- <-].
        unfold hk_next in EN. destruct (hk_no k2) as [|[|n]] eqn:E2; [discriminate|discriminate|]. assert (ms1 = []) as -> by (apply GX2; lia).
        apply (h_finish_frame (fun _ => False)) in EF. refine (cf_trans _ _ _ _ _ _ _ (CF k2 _ _ eq_refl eq_refl _ _) EF _); [lia|now left|intros q m []].
    - destruct P as (P1 & P2 & P3 & P4 & P5 & P6 & P7 & P8).
      destruct (h_reportError h1 _ c t) as [[h3 s3]|e|w] eqn:EF; cbn [obind fst snd]; [|discriminate|discriminate]. intros [= <- <- <-].
      apply (h_reportError_frame (fun _ => False)) in EF. refine (cf_trans _ _ _ _ _ _ _ _ EF _); [|intros q m []]. constructor; cbn.
      + refine (conj _ (conj _ (conj _ _))); [lia|lia| |].
        * intros q Hq N. apply P5. intros E. apply N. left. now left.
        * intros q Hq N. apply P6. intros id m E K. apply N. exists m. split; [left; eauto|exact K].
      + intros q [[E|(id & E)]|E]; left; [left; left; cbn in E; congruence| |right; exact E].
        destruct (P8 _ _ E) as [E'|(id' & m & pr & E' & K)]; [left; right; eauto|right; exists m, pr; split; [left; eauto|exact K]].
      + intros q E. left. exact E.
      + intros H. rewrite P3, P4. auto.
      + intros m [].
  Qed.

  (** ** All calls *)
  Definition given_by (h : heap) (e : hevent) (m : hmsg) : Prop :=
    match e with HHandle _ m' => m = m' | HDeliver _ v => m = snd (alloc h v) | _ => False end.
  Lemma h_step_frame h s e h' s' ms : h_step h s e = Ret (h', s', ms) -> call_frame (given_by h e) h s h' s' ms.
  Proof.
    assert (HH : forall now m h0 h', ext h0 h' -> call_frame (fun x => x = m) h0 s h' (h_HandleMessage now s m) []).
    { intros now m h0 h1 X. pose proof X as (X1 & X2 & X3 & X4). destruct (h_Handle_cases now s m) as [->|(A & B & _)].
      - constructor; auto; [now apply frm_ext|intros x []].
      - constructor.
        + now apply frm_ext.
        + intros q [E|(m' & pr & E & K)]; [left; left; now rewrite <- A|]. destruct (B _ E) as [F| ->]; [left; right; eauto|right; right; eauto].
        + intros q (m' & E & K). destruct (B _ E) as [F| ->]; [left; exists m'; auto|right; eauto].
        + intros H. now rewrite A.
        + intros x []. }
    destruct e as [now m|now v|sched|now|]; cbn [h_step given_by].
    - intros [= <- <- <-]. apply HH, ext_refl.
    - destruct (alloc h v) as [h1 p] eqn:EA. destruct (alloc_ok _ _ _ _ EA) as (X & _). intros [= <- <- <-]. assert (p = snd (alloc h v)) as -> by now rewrite EA. apply HH, X.
    - apply h_ProcessAll_frame.
    - intros [= <- <- <-]. unfold h_timerExpire. destruct (tm_deadline (hs_timer s)); [|apply cf_same]. destruct (_ <=? _); [|apply cf_same].
      constructor; auto; [apply frm_refl|intros x []].
    - unfold h_timerCallback. destruct (tm_pending (hs_timer s)); cbn [obind]; [intros [= <- <- <-]; apply cf_same|].
      destruct (h_reportError h _ 0 _) as [[h1 s1]|x|x] eqn:EF; cbn [obind fst snd]; [|discriminate|discriminate]. intros [= <- <- <-].
      apply (h_reportError_frame (fun _ => False)) in EF. destruct EF. constructor; auto.
  Qed.
End HeapFrame.
