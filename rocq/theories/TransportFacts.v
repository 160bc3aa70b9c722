(** Facts about the goroutines of Transport.v. *)
From Coq Require Import ZArith Lia List Bool String Permutation.
From Coq.Strings Require Import Byte.
From stdpp Require Import base gmap list fin_maps.
From Verif Require Import ZField Primes Bytes Scalar Go Group Party Poly PolyFacts Zk Eddsa Messages State StateFacts Spec_State Lift Net Progress NetProgress NetLive
  Properties_State Keygen Sign Helpers Cmd Lockstep Loops LoopsFacts Transport.
Import ListNotations.
Local Open Scope Z_scope.

Lemma fupd_same {A} i (v : A) f : fupd i v f i = v.
Proof. unfold fupd. now rewrite Z.eqb_refl. Qed.
Lemma fupd_other {A} i j (v : A) f : j <> i -> fupd i v f j = f j.
Proof. intros H. unfold fupd. now rewrite (proj2 (Z.eqb_neq _ _) H). Qed.

(** The items with a given tag. *)
Definition from {A} (j : Z) (l : list (Z * A)) : list A := map snd (List.filter (fun x => fst x =? j) l).
Definition ofrom {A} (j : Z) (o : option (Z * A)) : list A := match o with Some x => from j [x] | None => [] end.
Lemma from_app {A} j (l l' : list (Z * A)) : from j (l ++ l') = from j l ++ from j l'.
Proof. unfold from. now rewrite List.filter_app, map_app. Qed.
Lemma from_cons {A} j k (a : A) l : from j ((k, a) :: l) = if k =? j then a :: from j l else from j l.
Proof. unfold from. cbn. now destruct (k =? j). Qed.
Lemma from_none {A} j (l : list (Z * A)) : (forall x, In x l -> fst x <> j) -> from j l = [].
Proof.
  induction l as [|[k a] l IH]; intros H; [reflexivity|]. rewrite from_cons, (proj2 (Z.eqb_neq k j)) by (apply (H (k, a)); now left). apply IH. intros x Hx. apply H. now right.
Qed.
Lemma from_length {A} ids (l : list (Z * A)) : List.NoDup ids -> (forall x, In x l -> In (fst x) ids) ->
  List.length l = list_sum (map (fun j => List.length (from j l)) ids).
Proof.
  intros ND. induction l as [|[k a] l IH]; intros H.
  - cbn [List.length]. clear. induction ids as [|i ids IH]; [reflexivity|]. cbn. unfold list_sum in IH. exact IH.
  - cbn [List.length]. rewrite IH by (intros x Hx; apply H; now right). assert (In k ids) as Hk by (apply (H (k, a)); now left). clear IH H.
    assert (forall ids, (In k ids -> List.NoDup ids -> S (list_sum (map (fun j => List.length (from j l)) ids)) = list_sum (map (fun j => List.length (from j ((k, a) :: l))) ids)) /\
      (~ In k ids -> list_sum (map (fun j => List.length (from j l)) ids) = list_sum (map (fun j => List.length (from j ((k, a) :: l))) ids))) as X.
    { clear. induction ids as [|i ids [IH1 IH2]]; [split; [intros []|reflexivity]|]. cbn [map]. change (list_sum (?x :: ?y)) with (x + list_sum y)%nat.
      rewrite from_cons. destruct (Z.eqb_spec k i) as [->|Hne].
      - split; [|intros X; exfalso; apply X; now left]. intros _ ND. inversion ND; subst. rewrite <- IH2 by auto. cbn [List.length]. lia.
      - split.
        + intros [->|Hin] ND; [congruence|]. inversion ND; subst. specialize (IH1 Hin H2). lia.
        + intros Hn. rewrite <- IH2; [reflexivity|]. intros X. apply Hn. now right. }
    now apply X.
Qed.
Lemma Forall2_len {A B} (Q : A -> B -> Prop) l l' : List.Forall2 Q l l' -> List.length l = List.length l'.
Proof. induction 1; cbn; auto. Qed.

Section Facts.
  Context `{Gr : group_ops} {R : Type} (I : RoundI R) (ROK : round_ok I).
  Context (ids : list Z) (HS : sorted ids) (HV : valid_ids ids) (H2 : (2 <= List.length ids)%nat).
  Context (U W : Message -> Prop) (now timeout : Z -> Z) (r0 : Z -> R) (P : Z -> nat -> R -> list Message -> Prop)
      (F : Z -> R -> option PError -> list Message -> Prop) (s0 : Z -> State R) (t0 t1 t2 : Z) (M1 : Z -> Message) (M2 : Z -> list Message).
  Context (T : three I ids U W now timeout r0 P F s0 t0 t1 t2 M1 M2) (TD : List.NoDup [t0; t1; t2]).
  Context (AD : forall i m, In i ids -> In m (M2 i) -> m_To m = 0 \/ In (m_To m) ids).

  Definition hreach := h_trace I true ids (h_init s0).
  Lemma hr_inv ls hc : hreach ls hc -> hinv I ids W s0 False ls hc.
  Proof. intros H. eapply (trace_hinv I ROK ids HS HV H2); eauto. contradiction. Qed.

  (** ** What the Handlers send *)
  Definition good (m : Message) : Prop := U m /\ (m_To m = 0 \/ In (m_To m) ids).
  Lemma good_all i m : In i ids -> In m (M1 i :: M2 i) -> good m.
  Proof.
    intros Hi [<-|Hm].
    - destruct (th_M1 T i Hi) as (A & _ & _ & B). split; auto.
    - split; [apply (th_M2 T i m Hi Hm)|eauto].
  Qed.
  Lemma start_out ls hc i a b s o : hreach ls hc -> In i ids -> hc_started hc i = false -> ProcessAll I a b (hc_state hc i) = Ret (s, o) -> Forall good o /\ st_done s = false.
  Proof.
    intros HR Hi Hst E. destruct (hr_inv _ _ HR) as [(H & es & out & HP & _)]. pose proof (HP i Hi) as PI.
    destruct (pi_ns _ _ _ _ _ _ _ _ _ _ PI Hst) as [Ees _]. pose proof (pi_run _ _ _ _ _ _ _ _ _ _ PI) as Er. rewrite Ees in Er. cbn in Er. apply Ret_inj in Er. inversion Er as [[Es Eo]].
    rewrite <- Es in E. eapply (first_step I ids HV) in E; eauto. destruct E as (-> & D & _). split; auto. constructor; [|constructor]. eapply good_all; eauto. now left.
  Qed.
  Lemma recv_run ls hc i nw a b m m' s o : hreach ls hc -> In i ids -> hc_started hc i = true -> U m -> same_msg m m' ->
    handler_msg I nw a b (hc_state hc i) m' = Ret (s, o) ->
    exists a0 b0 es out, run I (s0 i) (EProcess a0 b0 :: es) = Ret (s, out ++ o) /\ Forall (event_ok W) es /\ Forall (fun e => e <> ECallback) es.
  Proof.
    intros HR Hi Hst Um Hsame E. destruct (hr_inv _ _ HR) as [(H & es & out & HP & _)]. pose proof (HP i Hi) as PI.
    destruct (pi_st _ _ _ _ _ _ _ _ _ _ PI Hst) as (a0 & b0 & es0 & Ees). pose proof (pi_run _ _ _ _ _ _ _ _ _ _ PI) as Er. rewrite Ees in Er.
    pose proof (pi_ev _ _ _ _ _ _ _ _ _ _ PI) as HE. pose proof (pi_cb _ _ _ _ _ _ _ _ _ _ PI) as HCB. rewrite Ees in HE, HCB.
    exists a0, b0, (es0 ++ [EHandle nw m'; EProcess a b]), (out i). split; [|split].
    - change (EProcess a0 b0 :: es0 ++ [EHandle nw m'; EProcess a b]) with ((EProcess a0 b0 :: es0) ++ [EHandle nw m'; EProcess a b]).
      rewrite run_app, Er. cbn [obind fst snd run step]. unfold handler_msg in E. rewrite E. cbn. now rewrite app_nil_r.
    - apply Forall_app. split; [exact (List.Forall_inv_tail HE)|]. constructor; [eapply (th_UW T); eauto|constructor; [exact Logic.I|constructor]].
    - apply Forall_app. split; [exact (List.Forall_inv_tail HCB)|]. constructor; [discriminate|constructor; [discriminate|constructor]].
  Qed.
  Lemma recv_out ls hc i nw a b m m' s o : hreach ls hc -> In i ids -> hc_started hc i = true -> U m -> same_msg m m' ->
    handler_msg I nw a b (hc_state hc i) m' = Ret (s, o) -> Forall good o /\ st_err s = None.
  Proof.
    intros HR Hi Hst Um Hsame E. destruct (recv_run _ _ _ _ _ _ _ _ _ _ HR Hi Hst Um Hsame E) as (a0 & b0 & es & out & Er & HE & HC).
    pose proof Er as Ef. eapply (started_form I ids HV) in Ef; eauto. destruct Ef as (Ee & Hf). split; auto.
    apply List.Forall_forall. intros m0 Hm0. assert (In m0 (out ++ o)) as Hin by (apply in_app_iff; auto).
    apply (good_all i); auto. destruct Hf as [(_ & _ & _ & X)|[(_ & _ & _ & X)|(_ & X)]]; rewrite X in Hin; auto. destruct Hin as [<-|[]]. now left.
  Qed.

  (** ** Data and messages *)
  Definition RM (m x : Message) : Prop := U m /\ same_msg m x.
  Definition RB (m : Message) (b : list byte) : Prop := U m /\ msg_MarshalBinary m = Ret b.
  Lemma RB_dec m b : RB m b -> exists m', msg_UnmarshalBinary zero_message b = Ret m' /\ RM m m'.
  Proof.
    intros [Um E]. destruct (th_WIRE T m Um) as (b' & m' & A & B & C). rewrite E in A. apply Ret_inj in A. subst b'. exists m'. split; auto. now split.
  Qed.

  Lemma perm_once k ks i b : Permutation ks (List.filter (fun k => negb (k =? i)) ids) -> In k ids -> k <> i -> from k (map (fun k => (k, b)) ks) = [b : list byte].
  Proof.
    intros HP Hk Hne. assert (List.NoDup ks) as ND. { eapply Permutation_NoDup; [symmetry; exact HP|]. apply List.NoDup_filter, HV. }
    assert (In k ks) as Hin. { eapply Permutation_in; [symmetry; exact HP|]. apply filter_In. split; auto. apply negb_true_iff. now apply Z.eqb_neq. }
    clear HP. induction ks as [|x ks IH]; [contradiction|]. cbn [map]. rewrite from_cons. inversion ND; subst. destruct (Z.eqb_spec x k) as [->|Hx].
    - f_equal. apply from_none. intros y Hy. apply in_map_iff in Hy as (z & <- & Hz). cbn. intros ->. contradiction.
    - apply IH; auto. destruct Hin; [congruence|auto].
  Qed.
  Lemma sends_from i out l : sends ids i out l -> Forall good out ->
    (forall k, In k ids -> k <> i -> List.Forall2 RB (List.filter (addr k) out) (from k l)) /\ (forall x, In x l -> In (fst x) ids /\ fst x <> i).
  Proof.
    induction 1 as [|m e ms l E HSd IH|m b ks ms l E EB HP HSd IH|m b ms l E EB Hne HSd IH|m b ms l E EB Heq HSd IH]; intros HG.
    - split; [intros k _ _; constructor|intros x []].
    - exfalso. inversion HG as [|? ? [Um _] _]; subst. destruct (th_WIRE T m Um) as (b & m' & A & _). rewrite E in A. discriminate.
    - inversion HG as [|? ? [Um Hto] HG']; subst. destruct (IH HG') as [IH1 IH2]. split.
      + intros k Hk Hki. rewrite from_app, (perm_once k ks i b) by auto. cbn [List.filter]. unfold addr at 1. rewrite EB. cbn [orb app]. constructor; [now split|auto].
      + intros x Hx. apply in_app_iff in Hx as [Hx|Hx]; [|auto]. apply in_map_iff in Hx as (y & <- & Hy). cbn.
        apply (Permutation_in _ HP) in Hy. apply filter_In in Hy as [A B]. split; auto. apply negb_true_iff in B. now apply Z.eqb_neq.
    - inversion HG as [|? ? [Um Hto] HG']; subst. destruct (IH HG') as [IH1 IH2]. split.
      + intros k Hk Hki. rewrite from_cons. cbn [List.filter]. unfold addr at 1. rewrite EB. cbn [orb]. destruct (m_To m =? k); [constructor; [now split|auto]|auto].
      + intros x [<-|Hx]; [|auto]. cbn. split; auto. destruct Hto as [Hto|Hto]; auto. exfalso. unfold IsBroadcast in EB. unfold m_To in Hto. rewrite Hto in EB. discriminate.
    - inversion HG as [|? ? [Um Hto] HG']; subst. destruct (IH HG') as [IH1 IH2]. split; auto.
      intros k Hk Hki. cbn [List.filter]. unfold addr at 1. rewrite EB. cbn [orb]. rewrite (proj2 (Z.eqb_neq _ _)) by congruence. auto.
  Qed.
  Lemma sends_ex i out : Forall good out -> exists l, sends ids i out l.
  Proof.
    induction 1 as [|m ms [Um Hto] _ [l IH]]; [exists []; constructor|]. destruct (th_WIRE T m Um) as (b & m' & A & _).
    destruct (IsBroadcast (m_Header m)) eqn:EB; [eexists; eapply sends_all; eauto|]. destruct (Z.eq_dec (m_To m) i) as [E|E]; [eexists; eapply sends_self; eauto|eexists; eapply sends_one; eauto].
  Qed.

  (** ** The goroutines as the Handlers of Loops.v *)
  Record trel (hc : @hconfig _ R) (c : @tconfig _ R) : Prop := {
    tr_state : forall i, hc_state hc i = tc_state c i;
    tr_started : forall i, hc_started hc i = tc_started c i;
    tr_chan : forall j i, In j ids -> In i ids -> j <> i -> exists l1 l2, hc_chan hc j i = l1 ++ l2 /\
      List.Forall2 RM l1 (from j (tc_inc c i) ++ ofrom j (tc_hand c i)) /\ List.Forall2 RB l2 (from j (tc_bytes c i) ++ from i (tc_out c j));
    tr_inc : forall i x, In i ids -> In x (tc_inc c i) -> In (fst x) ids /\ fst x <> i;
    tr_hand : forall i x, In i ids -> tc_hand c i = Some x -> In (fst x) ids /\ fst x <> i;
    tr_bytes : forall i x, In i ids -> In x (tc_bytes c i) -> In (fst x) ids /\ fst x <> i;
    tr_out : forall i x, In i ids -> In x (tc_out c i) -> In (fst x) ids /\ fst x <> i;
    tr_fresh : forall i, tc_started c i = false -> tc_out c i = []
  }.
  Lemma trel_init : trel (h_init s0) (t_init ids s0).
  Proof. split; cbn; try tauto; try discriminate. intros j i _ _ _. exists [], []. split; auto. Qed.

  Lemma trel_step early ls hc c l c' : hreach ls hc -> trel hc c -> t_step I early ids c l c' ->
    exists hc', trel hc' c' /\ match l with TH h => h_step I true ids hc h hc' | _ => hc' = hc end.
  Proof.
    intros HR TR HStep. destruct TR as [Rst Rsd Rch Rin Rha Rby Rou Rfr].
    destruct HStep as [i a b s' o l Hi Hst EP HSd|i k b l Hi Eo Hk Hc Hroom|i j b l m Hi Hex Hh Eb Em|i j b l e Hi Hex Hh Eb Em|i j m Hi Hh Hc Hroom
      |i j m rest nw a b s' o l Hi Hst Eo Hret Ein EP HSd|i Hi Hst Eo Hret HD|k r1 r2 Em HD He|k r1 r2 Em HD He Hea|Em|k r1 r2 Em|k rest Em|Ef Hz|k r1 r2 Ef|Ef|i Hi Ef Hh Hex].
    - (* start *)
      rewrite <- Rsd in Hst. rewrite <- Rst in EP. destruct (start_out _ _ _ _ _ _ _ HR Hi Hst EP) as [HG _]. destruct (sends_from _ _ _ HSd HG) as [S1 S2].
      eexists. split; [|eapply h_start; eauto]. split; cbn [set_handler hc_state hc_started hc_chan tc_state tc_started tc_inc tc_hand tc_bytes tc_out].
      + intros j. unfold hc_put, fupd. destruct (j =? i); auto.
      + intros j. unfold fupd. rewrite Rsd. now destruct (j =? i).
      + intros j k Hj Hk Hne. destruct (Rch j k Hj Hk Hne) as (l1 & l2 & E & F1 & F2).
        assert (fupd i (tc_inc c i) (tc_inc c) k = tc_inc c k) as -> by (unfold fupd; destruct (Z.eqb_spec k i) as [->|]; auto).
        destruct (Z.eq_dec j i) as [->|Hji].
        * rewrite (push_self ids) by auto. rewrite fupd_same. exists l1, (l2 ++ List.filter (addr k) o). split; [now rewrite E, app_assoc|]. split; auto.
          rewrite Rfr, app_nil_r in F2 by (now rewrite <- Rsd). apply List.Forall2_app; auto.
        * rewrite (push_other ids) by auto. rewrite fupd_other by auto. exists l1, l2. auto.
      + intros j x Hj. unfold fupd. destruct (Z.eqb_spec j i) as [->|]; auto.
      + auto.
      + auto.
      + intros j x Hj. unfold fupd. destruct (Z.eqb_spec j i) as [->|]; auto.
      + intros j. unfold fupd. destruct (Z.eqb_spec j i); [discriminate|auto].
    - (* send *)
      exists hc. split; auto. assert (k <> i) as Hki by (apply (Rou i (k, b) Hi); rewrite Eo; now left).
      split; cbn [tc_state tc_started tc_inc tc_hand tc_bytes tc_out]; auto.
      + intros x y Hx Hy Hne. destruct (Rch x y Hx Hy Hne) as (l1 & l2 & E & F1 & F2). exists l1, l2. split; auto. split; auto.
        destruct (Z.eq_dec x i) as [->|Hxi]; [rewrite fupd_same|rewrite (fupd_other i x) by auto].
        * rewrite Eo, from_cons in F2. destruct (Z.eqb_spec k y) as [->|Hky]; [rewrite fupd_same|rewrite fupd_other by auto; exact F2].
          rewrite from_app, from_cons, Z.eqb_refl. change (from i []) with (@nil (list byte)). rewrite <- app_assoc. exact F2.
        * destruct (Z.eq_dec y k) as [->|Hyk]; [rewrite fupd_same|rewrite fupd_other by auto; exact F2].
          rewrite from_app, from_cons, (proj2 (Z.eqb_neq i x)) by auto. change (from x []) with (@nil (list byte)). rewrite app_nil_r. exact F2.
      + intros y x Hy. unfold fupd. destruct (Z.eqb_spec y k) as [->|]; [|auto]. intros Hx. apply in_app_iff in Hx as [Hx|[<-|[]]]; [auto|]. cbn. auto.
      + intros y x Hy. unfold fupd. destruct (Z.eqb_spec y i) as [->|]; [|auto]. intros Hx. apply (Rou i); auto. rewrite Eo. now right.
      + intros y Hy. unfold fupd. destruct (Z.eqb_spec y i) as [->|]; [|auto]. rewrite (Rfr i Hy) in Eo. discriminate.
    - (* decode *)
      exists hc. split; auto. assert (In j ids /\ j <> i) as [Hj Hji] by (apply (Rby i (j, b) Hi); rewrite Eb; now left).
      split; cbn [tc_state tc_started tc_inc tc_hand tc_bytes tc_out]; auto.
      + intros x y Hx Hy Hne. destruct (Rch x y Hx Hy Hne) as (l1 & l2 & E & F1 & F2).
        destruct (Z.eq_dec y i) as [->|Hyi]; [rewrite !fupd_same|rewrite !fupd_other by auto; exists l1, l2; auto].
        rewrite Eb, from_cons in F2. rewrite Hh in F1. cbn [ofrom] in F1. rewrite app_nil_r in F1. cbn [ofrom]. rewrite from_cons. change (from x []) with (@nil Message).
        destruct (Z.eqb_spec j x) as [->|Hjx]; [|rewrite app_nil_r; exists l1, l2; auto].
        inversion F2 as [|m0 b0 l2' b' Hb Hl]; subst. apply RB_dec in Hb as (m' & Em' & HM). rewrite Em in Em'. apply Ret_inj in Em'. subst m'.
        exists (l1 ++ [m0]), l2'. split; [now rewrite <- app_assoc|]. split; auto. apply List.Forall2_app; auto.
      + intros y x Hy. unfold fupd. destruct (Z.eqb_spec y i) as [->|]; [|auto]. intros [= <-]. cbn. auto.
      + intros y x Hy. unfold fupd. destruct (Z.eqb_spec y i) as [->|]; [|auto]. intros Hx. apply (Rby i); auto. rewrite Eb. now right.
    - (* undecodable: does not happen *)
      exfalso. assert (In j ids /\ j <> i) as [Hj Hji] by (apply (Rby i (j, b) Hi); rewrite Eb; now left).
      destruct (Rch j i Hj Hi Hji) as (l1 & l2 & E & F1 & F2). rewrite Eb, from_cons, Z.eqb_refl in F2. inversion F2 as [|m0 b0 l2' b' Hb Hl]; subst.
      apply RB_dec in Hb as (m' & Em' & _). rewrite Em in Em'. discriminate.
    - (* put *)
      exists hc. split; auto. destruct (Rha i (j, m) Hi Hh) as [Hj Hji]. cbn [fst] in *.
      split; cbn [tc_state tc_started tc_inc tc_hand tc_bytes tc_out]; auto.
      + intros x y Hx Hy Hne. destruct (Rch x y Hx Hy Hne) as (l1 & l2 & E & F1 & F2). exists l1, l2. split; auto. split; auto.
        destruct (Z.eq_dec y i) as [->|Hyi]; [rewrite !fupd_same|rewrite !fupd_other by auto; auto]. rewrite Hh in F1. cbn [ofrom] in *. now rewrite from_app, app_nil_r.
      + intros y x Hy. unfold fupd. destruct (Z.eqb_spec y i) as [->|]; [|auto]. intros Hx. apply in_app_iff in Hx as [Hx|[<-|[]]]; [auto|]. cbn. auto.
      + intros y x Hy. unfold fupd. destruct (Z.eqb_spec y i) as [->|]; [discriminate|auto].
    - (* receive *)
      assert (In j ids /\ j <> i) as [Hj Hji] by (apply (Rin i (j, m) Hi); rewrite Ein; now left).
      destruct (Rch j i Hj Hi Hji) as (l1 & l2 & E & F1 & F2). rewrite Ein, from_cons, Z.eqb_refl in F1. cbn [app] in F1. inversion F1 as [|m0 m1 l1' l1'' [Um Hsame] F1']; subst m1 l1'' l1.
      rewrite <- Rsd in Hst. rewrite <- Rst in EP. destruct (recv_out _ _ _ _ _ _ _ _ _ _ HR Hi Hst Um Hsame EP) as [HG _]. destruct (sends_from _ _ _ HSd HG) as [S1 S2].
      eexists. split; [|rewrite <- Rst; eapply (h_recv I true ids hc j i [] m0 (l1' ++ l2) m nw a b s' o); eauto].
      split; cbn [set_handler hc_state hc_started hc_chan tc_state tc_started tc_inc tc_hand tc_bytes tc_out app].
      + intros x. unfold hc_put, fupd. destruct (x =? i); auto.
      + intros x. unfold fupd. rewrite <- Rsd. destruct (Z.eqb_spec x i) as [->|]; auto.
      + intros x y Hx Hy Hne. destruct (Z.eq_dec y i) as [->|Hyi].
        * rewrite fupd_same, (push_other ids) by auto. rewrite fupd_other by auto. unfold hc_pop. rewrite Z.eqb_refl, andb_true_r.
          destruct (Z.eqb_spec x j) as [->|Hxj]; [exists l1', l2; auto|]. destruct (Rch x i Hx Hy Hne) as (k1 & k2 & E' & F1'' & F2'').
          rewrite Ein, from_cons, (proj2 (Z.eqb_neq j x)) in F1'' by auto. exists k1, k2. auto.
        * rewrite (fupd_other i y) by auto. destruct (Rch x y Hx Hy Hne) as (k1 & k2 & E' & F1'' & F2'').
          destruct (Z.eq_dec x i) as [->|Hxi].
          -- rewrite (push_self ids) by auto. rewrite fupd_same. unfold hc_pop. rewrite (proj2 (Z.eqb_neq y i)) by auto. rewrite andb_false_r.
             exists k1, (k2 ++ List.filter (addr y) o). split; [now rewrite E', app_assoc|]. split; auto. rewrite Eo in F2''. change (from y []) with (@nil (list byte)) in F2''. rewrite app_nil_r in F2''.
             apply List.Forall2_app; auto.
          -- rewrite (push_other ids) by auto. rewrite fupd_other by auto. unfold hc_pop. rewrite (proj2 (Z.eqb_neq y i)) by auto. rewrite andb_false_r. exists k1, k2. auto.
      + intros y x Hy. unfold fupd. destruct (Z.eqb_spec y i) as [->|]; [|auto]. intros Hx. apply (Rin i); auto. rewrite Ein. now right.
      + auto.
      + auto.
      + intros y x Hy. unfold fupd. destruct (Z.eqb_spec y i) as [->|]; auto.
      + intros y. unfold fupd. destruct (Z.eqb_spec y i); [discriminate|auto].
    - exists hc. split; auto. split; cbn; auto.
    - exists hc. split; auto. split; cbn; auto.
    - exists hc. split; auto. split; cbn; auto.
    - exists hc. split; auto. split; cbn; auto.
    - exists hc. split; auto. split; cbn; auto.
    - exists hc. split; auto. split; cbn; auto.
    - exists hc. split; auto. split; cbn; auto.
    - exists hc. split; auto. split; cbn; auto.
    - exists hc. split; auto. split; cbn; auto.
    - exists hc. split; auto. split; cbn; auto.
  Qed.
  Lemma trel_trace early ls c : t_trace I early ids (t_init ids s0) ls c -> exists hc, hreach (t_hlabels ls) hc /\ trel hc c.
  Proof.
    induction 1 as [|ls c l c' HTr (hc & HR & TR) HStep]; [exists (h_init s0); split; [constructor|apply trel_init]|].
    destruct (trel_step _ _ _ _ _ _ HR TR HStep) as (hc' & TR' & X). exists hc'. split; auto. unfold t_hlabels. rewrite flat_map_app. cbn [flat_map].
    destruct l as [h| | | |]; cbn [app]; rewrite ?app_nil_r; subst; auto. econstructor; eauto.
  Qed.

  (** ** A party that has finished has read everything *)
  Lemma done_read ls hc : hreach ls hc -> forall i j, In i ids -> In j ids -> j <> i -> st_done (hc_state hc i) = true -> (2 <= cnt (is_recv j i) ls)%nat.
  Proof.
    induction 1 as [|ls hc l hc' HTr IH HStep]; intros i j Hi Hj Hji D.
    - exfalso. cbn in D. rewrite (th_E0 T i Hi) in D. discriminate.
    - rewrite cnt_snoc. destruct (hr_inv ls hc HTr) as [(H & es & out & HP & HC & HD & HN)].
      assert (forall k o, st_done (hc_state hc k) = true -> In k ids -> k = i -> (2 <= cnt (is_recv j i) ls + o)%nat) as Hold by (intros k o X Y ->; specialize (IH i j Hi Hj Hji X); lia).
      destruct HStep as [k a b s' o Hk Hst EP|k1 k l1 m l2 m' nw a b s' o Hk Hk1 Hst Ech Hfifo Hsame EP]; cbn [hc_state] in D; unfold hc_put in D.
      + destruct (Z.eqb_spec i k) as [->|Hne]; [|eapply Hold; eauto]. destruct (start_out _ _ _ _ _ _ _ HTr Hk Hst EP) as [_ X]. congruence.
      + destruct (Z.eqb_spec i k) as [->|Hne]; [|eapply Hold; eauto]. destruct (st_done (hc_state hc k)) eqn:D0; [eapply Hold; eauto|].
        rewrite (Hfifo eq_refl) in *. clear Hfifo l1 Hold. cbn [app] in *.
        assert (k1 <> k) as Hk1k by (intros ->; rewrite HD in Ech by auto; discriminate).
        assert (forall z w, In z ids -> z <> k -> In w (H z k ++ hc_chan hc z k) -> m_From w = z /\ U w) as Hfw.
        { intros z w Hz Hzk Hw. rewrite <- HC in Hw by auto.
          destruct (sent_form I ids HV H2 U W now timeout r0 P F s0 t0 t1 t2 M1 M2 T TD _ _ _ _ _ _ k (HP z Hz) Hz Hk Hzk) as (m2z & G1 & G2 & G3 & G4 & G5 & G6 & Hformz).
          destruct Hformz as [[X1 _]|[[X1 _]|[X1 _]]]; rewrite X1 in Hw; [contradiction|destruct Hw as [<-|[]]; auto|destruct Hw as [<-|[<-|[]]]; auto]. }
        assert (In m (H k1 k ++ hc_chan hc k1 k)) as Hmin by (rewrite Ech; apply in_app_iff; right; now left). destruct (Hfw k1 m Hk1 Hk1k Hmin) as [Fm Um].
        destruct (recv_out _ _ _ _ _ _ _ _ _ _ HTr Hk Hst Um Hsame EP) as [_ Er'].
        pose proof (HP k Hk) as PI. destruct PI as [Er HE HCB Hns Hs Hfrom _ _ _].
        unfold handler_msg in EP. set (s := hc_state hc k) in *. set (s1 := fst (HandleMessage I nw s m')) in *.
        assert (W m') as Wm' by (eapply (th_UW T); eauto).
        assert (run I (s0 k) (es k ++ [EHandle nw m']) = Ret (s1, out k)) as Er1.
        { rewrite run_app, Er. cbn [obind fst snd run step]. fold s1. cbn. now rewrite app_nil_r. }
        assert (Forall (event_ok W) (es k ++ [EHandle nw m'])) as HE1.
        { apply Forall_app. split; [exact HE|]. constructor; [exact Wm'|constructor]. }
        assert (Forall (fun e => e <> ECallback) (es k ++ [EHandle nw m'])) as HCB1.
        { apply Forall_app. split; [exact HCB|]. constructor; [discriminate|constructor]. }
        pose proof (th_HL T k _ _ _ Hk HE1 Er1) as L1. destruct (th_R0 T k Hk) as [Rs Ri].
        pose proof (li_self _ _ _ _ _ _ _ L1) as Es1. pose proof (li_ids _ _ _ _ _ _ _ L1) as Eid1. rewrite Rs in Es1. rewrite Ri in Eid1.
        pose proof (li_inv _ _ _ _ _ _ _ L1) as IV1.
        assert (st_done s1 = false) as D1.
        { unfold s1. destruct (handle_cases I nw s m') as [->|(_ & _ & _ & _ & _ & _ & ct & tl & _ & [[_ ->]|(_ & _ & ->)])]; auto. }
        destruct (li_P _ _ _ _ _ _ _ L1 D1) as (n & En & Ea & HPn). rewrite (th_TY T k Hk) in Ea. pose proof (th_P3 T k _ _ _ HPn) as Hn3.
        (* it was in round 2 *)
        assert (n = 2%nat) as ->.
        { destruct n as [|[|[|n]]]; [| |reflexivity|lia]; exfalso.
          - assert (st_done s' = false); [|congruence]. exact (process_not_done I ids W r0 P F s0 (th_HL T) (th_NE T) (th_NXT T) k s1 _ _ a b s' o 0%nat Hk Er1 HE1 HCB1 D1 En ltac:(lia) EP).
          - assert (st_done s' = false); [|congruence]. exact (process_not_done I ids W r0 P F s0 (th_HL T) (th_NE T) (th_NXT T) k s1 _ _ a b s' o 1%nat Hk Er1 HE1 HCB1 D1 En ltac:(lia) EP). }
        cbn in Ea.
        (* and had everything *)
        assert (Z.of_nat (size (st_received s1)) = u16 (N_ids (r_ids I (st_round s1)) - 1)) as Hsz.
        { apply process_cases in EP. destruct EP as [-> _ _|r cx tx _ X|r r' cx tx _ X|r r' ct' tl' rcv q _ X]; auto. congruence. }
        assert (st_received s1 !! j <> None) as Hr by (refine (full_all I s1 IV1 _ _ Hsz j _ _); rewrite ?Es1, ?Eid1; auto).
        destruct (st_received s1 !! j) as [v|] eqn:Ev; [|congruence]. destruct (inv_received I s1 IV1 j v Ev) as (_ & _ & Hv). destruct v as [y|]; [|lia]. destruct Hv as (Fy & _ & Hty).
        destruct (Hty D1) as (tl & Etl). rewrite Ea in Etl. injection Etl as Ety _.
        set (H' := H j k ++ if (k1 =? j) then [m] else []).
        assert (exists w, In w H' /\ m_Type w = t2) as (w & Hw & Tw).
        { assert (stored s1 y) as Hsy by (left; rewrite Fy; exact Ev). apply stored_handle in Hsy as [Hst'|Ey].
          - destruct (Hfrom y Hst') as (z & w & Z1 & Z2 & Z3 & Z4). destruct (Hfw z w Z1 Z2 ltac:(apply in_app_iff; auto)) as [Fw _].
            rewrite (same_from _ _ Z4), Fw in Fy. subst z. exists w. split; [apply in_app_iff; auto|]. rewrite <- (same_type _ _ Z4). auto.
          - subst y. exists m. rewrite <- (same_type _ _ Hsame). split; auto. rewrite (same_from _ _ Hsame), Fm in Fy. unfold H'. rewrite (proj2 (Z.eqb_eq k1 j) Fy). apply in_app_iff. right. now left. }
        assert (List.length H' = (cnt (is_recv j k) ls + if (k1 =? j)%Z then 1 else 0)%nat) as HLen.
        { unfold H'. rewrite app_length, HN by auto. now destruct (k1 =? j). }
        cbn [is_recv]. rewrite Z.eqb_refl, andb_true_r. rewrite <- HLen.
        assert (exists rest, List.filter (addr k) (out j) = H' ++ rest) as [rest Hpre].
        { rewrite HC by auto. unfold H'. destruct (Z.eqb_spec k1 j) as [->|]; [rewrite Ech; exists l2; now rewrite <- app_assoc|rewrite app_nil_r; eauto]. }
        destruct (sent_form I ids HV H2 U W now timeout r0 P F s0 t0 t1 t2 M1 M2 T TD _ _ _ _ _ _ k (HP j Hj) Hj Hk Hji) as (m2 & _ & G2 & _ & G4 & _ & _ & Hform).
        assert (t1 <> t2) as Ht12 by (apply (TD12 _ _ _ TD)).
        clearbody H'. destruct Hform as [[X _]|[[X _]|[X _]]]; rewrite X in Hpre; clear - Hpre Hw Tw G2 G4 Ht12.
        * destruct H'; [contradiction|discriminate].
        * destruct H' as [|h [|h' H']]; [contradiction| |cbn in Hpre; discriminate]. exfalso. inversion Hpre; subst. destruct Hw as [<-|[]]. congruence.
        * destruct H' as [|h [|h' H']]; [contradiction| |cbn; lia]. exfalso. inversion Hpre; subst. destruct Hw as [<-|[]]. congruence.
  Qed.
  Lemma done_empty ls hc : hreach ls hc -> forall i j, In i ids -> In j ids -> st_done (hc_state hc i) = true -> hc_chan hc j i = [].
  Proof.
    intros HR i j Hi Hj D. pose proof (chan_bound I ids HV H2 U W now timeout r0 P F s0 t0 t1 t2 M1 M2 T TD ls hc (hr_inv ls hc HR) j i Hj Hi) as X.
    destruct (Z.eqb_spec j i) as [->|Hne]; [destruct (hc_chan hc i i); [auto|cbn in X; lia]|]. pose proof (done_read ls hc HR i j Hi Hj Hne D). destruct (hc_chan hc j i); [auto|cbn in X; lia].
  Qed.

  (** ** Contents and capacities *)
  Lemma chan_len hc c j i : trel hc c -> In j ids -> In i ids -> j <> i ->
    List.length (hc_chan hc j i) = (List.length (from j (tc_inc c i)) + List.length (ofrom j (tc_hand c i)) + List.length (from j (tc_bytes c i)) + List.length (from i (tc_out c j)))%nat.
  Proof.
    intros TR Hj Hi Hne. destruct (tr_chan _ _ TR j i Hj Hi Hne) as (l1 & l2 & -> & F1 & F2). apply Forall2_len in F1, F2. rewrite app_length in *. lia.
  Qed.
  Lemma from_nil {A} (l : list (Z * A)) : (forall x, In x l -> from (fst x) l = []) -> l = [].
  Proof. destruct l as [|[k a] l]; auto. intros H. specialize (H (k, a) (or_introl eq_refl)). cbn [fst] in H. rewrite from_cons, Z.eqb_refl in H. discriminate. Qed.
  Lemma len0 {A} (l : list A) : List.length l = 0%nat -> l = [].
  Proof. destruct l; [auto|discriminate]. Qed.
  Lemma done_quiet ls hc c i : hreach ls hc -> trel hc c -> In i ids -> st_done (tc_state c i) = true ->
    tc_inc c i = [] /\ tc_hand c i = None /\ tc_bytes c i = [] /\ forall j, In j ids -> from i (tc_out c j) = [].
  Proof.
    intros HR TR Hi D. rewrite <- (tr_state _ _ TR) in D.
    assert (forall j, In j ids -> j <> i -> from j (tc_inc c i) = [] /\ ofrom j (tc_hand c i) = [] /\ from j (tc_bytes c i) = [] /\ from i (tc_out c j) = []) as X.
    { intros j Hj Hji. pose proof (chan_len hc c j i TR Hj Hi Hji) as E. rewrite (done_empty ls hc HR i j Hi Hj D) in E. cbn in E. repeat split; apply len0; lia. }
    split; [|split; [|split]].
    - apply from_nil. intros x Hx. destruct (tr_inc _ _ TR i x Hi Hx). now apply X.
    - destruct (tc_hand c i) as [[j m]|] eqn:E; auto. destruct (tr_hand _ _ TR i _ Hi E) as [A B]. cbn [fst] in *. destruct (X j A B) as (_ & Y & _). try rewrite E in Y. cbn [ofrom] in Y. rewrite from_cons, Z.eqb_refl in Y. discriminate.
    - apply from_nil. intros x Hx. destruct (tr_bytes _ _ TR i x Hi Hx). now apply X.
    - intros j Hj. destruct (Z.eq_dec j i) as [->|Hji]; [|now apply X]. apply from_none. intros x Hx. now apply (tr_out _ _ TR i x Hi Hx).
  Qed.
  Lemma sum3 (f g h k : Z -> nat) l : (forall j, In j l -> f j + g j + h j <= k j)%nat -> (list_sum (map f l) + list_sum (map g l) + list_sum (map h l) <= list_sum (map k l))%nat.
  Proof.
    induction l as [|x l IH]; intros H; [cbn; lia|]. cbn [map]. change (list_sum (?x :: ?y)) with (x + list_sum y)%nat. specialize (H x (or_introl eq_refl)) as Hx.
    specialize (IH (fun j Hj => H j (or_intror Hj))). lia.
  Qed.
  (** What waits for one party, in its two channels and in the hands of the goroutine between them. *)
  Lemma room ls hc c i : hreach ls hc -> trel hc c -> In i ids ->
    (List.length (tc_inc c i) + (match tc_hand c i with Some _ => 1 | None => 0 end) + List.length (tc_bytes c i) <= 2 * (List.length ids - 1))%nat.
  Proof.
    intros HR TR Hi. etransitivity; [|eapply (waiting_bound I ROK ids HS HV H2) with (i := i); eauto].
    set (oh := match tc_hand c i with Some x => [x] | None => [] end).
    assert (forall j, ofrom j (tc_hand c i) = from j oh) as Eo by (intros j; unfold oh; destruct (tc_hand c i); reflexivity).
    assert ((match tc_hand c i with Some _ => 1 | None => 0 end)%nat = List.length oh) as -> by (unfold oh; destruct (tc_hand c i); reflexivity).
    rewrite (from_length ids (tc_inc c i)), (from_length ids oh), (from_length ids (tc_bytes c i)).
    - apply sum3. intros j Hj. destruct (Z.eq_dec j i) as [->|Hji].
      + rewrite !from_none; [cbn; lia| | |].
        * intros x Hx. now apply (tr_bytes _ _ TR i x Hi Hx).
        * intros x Hx. unfold oh in Hx. destruct (tc_hand c i) eqn:E; [|contradiction]. destruct Hx as [<-|[]]. now apply (tr_hand _ _ TR i _ Hi E).
        * intros x Hx. now apply (tr_inc _ _ TR i x Hi Hx).
      + rewrite (chan_len hc c j i TR Hj Hi Hji), Eo. lia.
    - apply HV.
    - intros x Hx. now apply (tr_bytes _ _ TR i x Hi Hx).
    - apply HV.
    - intros x Hx. unfold oh in Hx. destruct (tc_hand c i) eqn:E; [|contradiction]. destruct Hx as [<-|[]]. now apply (tr_hand _ _ TR i _ Hi E).
    - apply HV.
    - intros x Hx. now apply (tr_inc _ _ TR i x Hi Hx).
  Qed.

  (** ** The test program and the shutdown *)
  Definition treach early := t_trace I early ids (t_init ids s0).
  Lemma handler_done nw a b s m s' o : handler_msg I nw a b s m = Ret (s', o) -> st_done s = true -> s' = s.
  Proof.
    unfold handler_msg. intros E D. assert (fst (HandleMessage I nw s m) = s) as X by (unfold HandleMessage; now rewrite D). rewrite X in E. eapply process_done; eauto.
  Qed.
  Lemma no_error ls hc i : hreach ls hc -> In i ids -> st_err (hc_state hc i) = None.
  Proof.
    intros HR Hi. destruct (hr_inv _ _ HR) as [(H & es & out & HP & _)]. pose proof (HP i Hi) as [Er HE HCB _ _ _ _ _ _]. eapply (th_NE T i (es i)); eauto.
  Qed.
  Record cinv (c : @tconfig _ R) : Prop := {
    ci_wait : forall rest, tc_main c = MWait rest -> (forall k, In k rest -> In k ids) /\ forall k, In k ids -> ~ In k rest -> st_done (tc_state c k) = true;
    ci_close : (forall rest, tc_main c <> MWait rest) -> forall k, In k ids -> st_done (tc_state c k) = true;
    ci_fin : tc_fin c <> FWait -> wg_zero c;
    ci_ret : forall i, tc_ret c i = true -> In i ids /\ st_done (tc_state c i) = true /\ tc_out c i = [] /\ tc_started c i = true;
    ci_exit : forall i, tc_exit c i = true -> tc_fin c = FEnd
  }.
  Lemma cinv_init : cinv (t_init ids s0).
  Proof.
    split; cbn; try discriminate; try congruence.
    - intros rest [= <-]. split; [auto|]. intros k A B. contradiction.
    - intros X. exfalso. now apply (X ids).
  Qed.
  Lemma in_mid {A} (k x : A) r1 r2 : In k (r1 ++ x :: r2) <-> k = x \/ In k (r1 ++ r2).
  Proof. rewrite !in_app_iff. cbn. intuition congruence. Qed.
  Lemma cinv_handler c i s' l inc : cinv c -> In i ids -> (st_done (tc_state c i) = true -> s' = tc_state c i) -> tc_ret c i = false -> cinv (set_handler c i s' l inc).
  Proof.
    intros [C1 C2 C3 C4 C5] Hi Hd Hr.
    assert (forall k, st_done (tc_state c k) = true -> st_done (fupd i s' (tc_state c) k) = true) as Hk.
    { intros k D. unfold fupd. destruct (Z.eqb_spec k i) as [->|]; auto. now rewrite (Hd D). }
    split; cbn [set_handler tc_main tc_fin tc_state tc_ret tc_out tc_started tc_exit]; auto.
    - intros rest E. destruct (C1 rest E). split; auto.
    - intros k Hk'. destruct (Z.eq_dec k i) as [->|Hne]; [congruence|]. rewrite !fupd_other by auto. auto.
  Qed.
  Lemma cinv_step early ls hc c l c' : hreach ls hc -> trel hc c -> cinv c -> t_step I early ids c l c' -> cinv c'.
  Proof.
    intros HR TR CI HStep.
    destruct HStep as [i a b s' o l Hi Hst EP HSd|i k b l Hi Eo Hk Hc Hroom|i j b l m Hi Hex Hh Eb Em|i j b l e Hi Hex Hh Eb Em|i j m Hi Hh Hc Hroom
      |i j m rest nw a b s' o l Hi Hst Eo Hret Ein EP HSd|i Hi Hst Eo Hret HD|k r1 r2 Em HD He|k r1 r2 Em HD He Hea|Em|k r1 r2 Em|k rest Em|Ef Hz|k r1 r2 Ef|Ef|i Hi Ef Hh Hex].
    - apply cinv_handler; auto.
      + intros D. eapply process_done; eauto.
      + destruct (tc_ret c i) eqn:E; auto. destruct (ci_ret _ CI i E) as (_ & _ & _ & X). congruence.
    - destruct CI as [C1 C2 C3 C4 C5]. split; cbn [tc_main tc_fin tc_state tc_ret tc_out tc_started tc_exit]; auto.
      intros x Hx. destruct (C4 x Hx) as (A & B & C & D). split; auto. split; auto. split; auto. destruct (Z.eq_dec x i) as [->|]; [congruence|now rewrite fupd_other].
    - destruct CI as [C1 C2 C3 C4 C5]. split; cbn [tc_main tc_fin tc_state tc_ret tc_out tc_started tc_exit]; auto.
    - destruct CI as [C1 C2 C3 C4 C5]. split; cbn [tc_main tc_fin tc_state tc_ret tc_out tc_started tc_exit]; auto.
    - destruct CI as [C1 C2 C3 C4 C5]. split; cbn [tc_main tc_fin tc_state tc_ret tc_out tc_started tc_exit]; auto.
    - apply cinv_handler; auto. intros D. eapply handler_done; eauto.
    - destruct CI as [C1 C2 C3 C4 C5]. split; cbn [tc_main tc_fin tc_state tc_ret tc_out tc_started tc_exit]; auto.
      intros x. unfold fupd. destruct (Z.eqb_spec x i) as [->|]; auto.
    - destruct CI as [C1 C2 C3 C4 C5]. destruct (C1 _ Em) as [A B]. split; cbn [set_main tc_main tc_fin tc_state tc_ret tc_out tc_started tc_exit]; auto.
      + intros rest [= <-]. split; [intros x Hx; apply A; apply in_mid; auto|]. intros x Hx Hn. destruct (Z.eq_dec x k) as [->|Hne]; auto. apply B; auto. rewrite in_mid. tauto.
      + intros X. exfalso. now apply (X (r1 ++ r2)).
      + intros X. specialize (C3 X). unfold wg_zero in *. rewrite Em in C3. contradiction.
    - exfalso. apply He. rewrite <- (tr_state _ _ TR). eapply no_error; eauto. destruct (ci_wait _ CI _ Em) as [A _]. apply A. apply in_mid. auto.
    - destruct CI as [C1 C2 C3 C4 C5]. destruct (C1 _ Em) as [A B]. split; cbn [set_main tc_main tc_fin tc_state tc_ret tc_out tc_started tc_exit]; auto.
      + discriminate.
      + intros X. specialize (C3 X). unfold wg_zero in *. rewrite Em in C3. contradiction.
    - destruct CI as [C1 C2 C3 C4 C5]. split; cbn [set_main tc_main tc_fin tc_state tc_ret tc_out tc_started tc_exit]; auto.
      + discriminate.
      + intros _. apply C2. intros rest. rewrite Em. discriminate.
      + intros X. specialize (C3 X). unfold wg_zero in *. rewrite Em in C3. destruct r1; discriminate.
    - destruct CI as [C1 C2 C3 C4 C5]. split; cbn [set_main tc_main tc_fin tc_state tc_ret tc_out tc_started tc_exit]; auto.
      + discriminate.
      + intros _. apply C2. intros x. rewrite Em. discriminate.
      + intros X. specialize (C3 X). unfold wg_zero in *. rewrite Em in C3. exact C3.
    - destruct CI as [C1 C2 C3 C4 C5]. split; cbn [set_fin tc_main tc_fin tc_state tc_ret tc_out tc_started tc_exit]; auto.
      intros x Hx. rewrite (C5 x Hx) in Ef. discriminate.
    - destruct CI as [C1 C2 C3 C4 C5]. split; cbn [set_fin tc_main tc_fin tc_state tc_ret tc_out tc_started tc_exit]; auto.
      + intros _. apply C3. rewrite Ef. discriminate.
      + intros x Hx. rewrite (C5 x Hx) in Ef. discriminate.
    - destruct CI as [C1 C2 C3 C4 C5]. split; cbn [set_fin tc_main tc_fin tc_state tc_ret tc_out tc_started tc_exit]; auto.
      intros _. apply C3. rewrite Ef. discriminate.
    - destruct CI as [C1 C2 C3 C4 C5]. split; cbn [tc_main tc_fin tc_state tc_ret tc_out tc_started tc_exit]; auto.
  Qed.
  Lemma treach_inv early ls c : treach early ls c -> exists hc, hreach (t_hlabels ls) hc /\ trel hc c /\ cinv c.
  Proof.
    induction 1 as [|ls c l c' HTr (hc & HR & TR & CI) HStep]; [exists (h_init s0); split; [constructor|split; [apply trel_init|apply cinv_init] ]|].
    destruct (trel_step _ _ _ _ _ _ HR TR HStep) as (hc' & TR' & X). exists hc'. split; [|split; [auto|eapply cinv_step; eauto] ]. unfold t_hlabels. rewrite flat_map_app. cbn [flat_map].
    destruct l as [h| | | |]; cbn [app]; rewrite ?app_nil_r; subst; auto. econstructor; eauto.
  Qed.

  (** Nobody ever sends on a closed channel. *)
  Lemma no_panic early ls c : treach early ls c -> ~ t_panics ids c.
  Proof.
    intros HTr. destruct (treach_inv _ _ _ HTr) as (hc & HR & TR & CI).
    assert ((forall rest, tc_main c <> MWait rest) -> forall i, In i ids -> tc_hand c i = None /\ tc_out c i = []) as Hq.
    { intros Hm i Hi. pose proof (ci_close _ CI Hm) as HD. split; [apply (done_quiet _ _ _ i HR TR Hi (HD i Hi))|].
      apply from_nil. intros x Hx. destruct (tr_out _ _ TR i x Hi Hx) as [A _]. apply (done_quiet _ _ _ (fst x) HR TR A (HD _ A)). exact Hi. }
    intros [(i & k & b & l & Hi & Eo & Hc)|(i & x & Hi & Eh & Hc)].
    - destruct (Hq) with (i := i) as [_ X]; auto; [|congruence]. unfold bytes_closed in Hc.
      assert (wg_zero c) as Hz by (apply (ci_fin _ CI); intros X; rewrite X in Hc; discriminate). unfold wg_zero in Hz. intros rest X. now rewrite X in Hz.
    - destruct (Hq) with (i := i) as [X _]; auto; [|congruence]. unfold inc_closed in Hc. intros rest X. rewrite X in Hc. discriminate.
  Qed.

  (** ** Progress *)
  Lemma t_run ls hc i a b nw m m' : hreach ls hc -> In i ids -> hc_started hc i = true -> U m -> same_msg m m' -> exists s o, handler_msg I nw a b (hc_state hc i) m' = Ret (s, o).
  Proof.
    intros HR Hi Hst Um Hsame. destruct (hr_inv _ _ HR) as [(H & es & out & HP & _)]. pose proof (HP i Hi) as PI.
    destruct (pi_st _ _ _ _ _ _ _ _ _ _ PI Hst) as (a0 & b0 & es0 & Ees). pose proof (pi_run _ _ _ _ _ _ _ _ _ _ PI) as Er. pose proof (pi_ev _ _ _ _ _ _ _ _ _ _ PI) as HE. rewrite Ees in Er, HE.
    destruct (th_NP T i a0 b0 (es0 ++ [EHandle nw m'; EProcess a b]) Hi) as (s & o & E).
    { apply Forall_app. split; [exact (List.Forall_inv_tail HE)|]. constructor; [eapply (th_UW T); eauto|constructor; [exact Logic.I|constructor] ]. }
    change (EProcess a0 b0 :: es0 ++ [EHandle nw m'; EProcess a b]) with ((EProcess a0 b0 :: es0) ++ [EHandle nw m'; EProcess a b]) in E.
    rewrite run_app, Er in E. cbn [obind fst snd run step] in E. unfold handler_msg. destruct (ProcessAll I a b (fst (HandleMessage I nw (hc_state hc i) m'))) as [[s' o']| |]; try discriminate. eauto.
  Qed.
  Lemma t_stuck early ls c : treach early ls c -> (forall l c', ~ t_step I early ids c l c') ->
    (forall i, In i ids -> tc_started c i = true /\ tc_out c i = [] /\ tc_bytes c i = [] /\ tc_hand c i = None /\ tc_inc c i = [] /\ tc_ret c i = st_done (tc_state c i)) /\
    (t_over ids c \/ exists rest, tc_main c = MWait rest /\ rest <> [] /\ forall k, In k rest -> In k ids /\ st_done (tc_state c k) = false).
  Proof.
    intros HTr Hno. destruct (treach_inv _ _ _ HTr) as (hc & HR & TR & CI). pose proof (no_panic _ _ _ HTr) as NPn.
    assert (forall i, In i ids -> tc_started c i = true) as Hst.
    { intros i Hi. destruct (tc_started c i) eqn:E; auto. exfalso. pose proof E as E'. rewrite <- (tr_started _ _ TR) in E'.
      destruct (hr_inv _ _ HR) as [(H & es & out & HP & _)]. pose proof (HP i Hi) as PI. destruct (pi_ns _ _ _ _ _ _ _ _ _ _ PI E') as [Ees _].
      pose proof (pi_run _ _ _ _ _ _ _ _ _ _ PI) as Er. rewrite Ees in Er. cbn in Er. apply Ret_inj in Er. inversion Er as [[Es Eo]].
      destruct (th_NP T i [] [] [] Hi) as (s & o & E1); [constructor|]. cbn [run step] in E1. rewrite Es in E1.
      destruct (ProcessAll I [] [] (hc_state hc i)) as [[s' o']| |] eqn:EP; try discriminate. destruct (start_out _ _ _ _ _ _ _ HR Hi E' EP) as [HG _].
      destruct (sends_ex i o' HG) as [l Hl]. rewrite (tr_state _ _ TR) in EP. eapply Hno. eapply (t_start I early ids c i); eauto. }
    assert (forall i, In i ids -> tc_out c i = []) as Hout.
    { intros i Hi. destruct (tc_out c i) as [|[k b] l] eqn:Eo; auto. exfalso.
      assert (In k ids /\ k <> i) as [Hk Hki] by (apply (tr_out _ _ TR i (k, b) Hi); rewrite Eo; now left).
      assert (bytes_closed c k = false) as Hc by (destruct (bytes_closed c k) eqn:E; auto; exfalso; apply NPn; left; eauto 10).
      destruct (le_lt_dec (List.length ids) (List.length (tc_bytes c k))) as [Hfull|Hroom]; [|eapply Hno; eapply (t_send I early ids c i); eauto].
      assert (from k (tc_out c i) <> []) as Hfk by (rewrite Eo, from_cons, Z.eqb_refl; discriminate).
      assert (st_done (tc_state c k) = false) as Dk.
      { destruct (st_done (tc_state c k)) eqn:E; auto. exfalso. apply Hfk. now apply (done_quiet _ _ _ k HR TR Hk E). }
      destruct (tc_hand c k) as [[j m]|] eqn:Eh.
      - assert (inc_closed c k = false) as Hic by (destruct (inc_closed c k) eqn:E; auto; exfalso; apply NPn; right; eauto 10).
        destruct (le_lt_dec (List.length ids) (List.length (tc_inc c k))) as [Hf2|Hr2]; [|eapply Hno; eapply (t_put I early ids c k); eauto].
        pose proof (room _ _ _ k HR TR Hk) as X. rewrite Eh in X. lia.
      - destruct (tc_bytes c k) as [|[j b'] l'] eqn:Eb; [cbn in Hfull; lia|].
        assert (In j ids /\ j <> k) as [Hj Hjk] by (apply (tr_bytes _ _ TR k (j, b') Hk); rewrite Eb; now left).
        destruct (tr_chan _ _ TR j k Hj Hk Hjk) as (l1 & l2 & _ & _ & F2). rewrite Eb, from_cons, Z.eqb_refl in F2. inversion F2 as [|m0 b0 l2' b'' Hb Hl]; subst.
        apply RB_dec in Hb as (m' & Em' & _). assert (tc_exit c k = false) as Hx.
        { destruct (tc_exit c k) eqn:E; auto. exfalso. pose proof (ci_exit _ CI k E) as Ef. unfold bytes_closed in Hc. rewrite Ef in Hc. discriminate. }
        eapply Hno. eapply (t_fwd I early ids c k); eauto. }
    assert (forall i, In i ids -> tc_ret c i = st_done (tc_state c i)) as Hret.
    { intros i Hi. destruct (tc_ret c i) eqn:Er; [symmetry; now apply (ci_ret _ CI)|]. destruct (st_done (tc_state c i)) eqn:D; auto. exfalso. eapply Hno. eapply (t_return I early ids c i); eauto. }
    assert (forall i, In i ids -> tc_inc c i = []) as Hinc.
    { intros i Hi. destruct (tc_inc c i) as [|[j m] rest] eqn:Ein; auto. exfalso.
      assert (In j ids /\ j <> i) as [Hj Hji] by (apply (tr_inc _ _ TR i (j, m) Hi); rewrite Ein; now left).
      destruct (st_done (tc_state c i)) eqn:D; [destruct (done_quiet _ _ _ i HR TR Hi D) as (X & _); congruence|].
      destruct (tr_chan _ _ TR j i Hj Hi Hji) as (l1 & l2 & _ & F1 & _). rewrite Ein, from_cons, Z.eqb_refl in F1. cbn [app] in F1. inversion F1 as [|m0 m1 l1' l1'' [Um Hsame] F1']; subst.
      pose proof (Hst i Hi) as Hs. rewrite <- (tr_started _ _ TR) in Hs. destruct (t_run _ _ i [] [] 0 _ _ HR Hi Hs Um Hsame) as (s' & o & EP).
      destruct (recv_out _ _ _ _ _ _ _ _ _ _ HR Hi Hs Um Hsame EP) as [HG _]. destruct (sends_ex i o HG) as [l Hl]. rewrite (tr_state _ _ TR) in EP.
      eapply Hno. eapply (t_recv I early ids c i j m rest); eauto; rewrite Hret by auto; exact D. }
    assert (forall i, In i ids -> tc_hand c i = None) as Hhand.
    { intros i Hi. destruct (tc_hand c i) as [[j m]|] eqn:Eh; auto. exfalso.
      assert (inc_closed c i = false) as Hic by (destruct (inc_closed c i) eqn:E; auto; exfalso; apply NPn; right; eauto 10).
      eapply Hno. eapply (t_put I early ids c i); eauto. rewrite Hinc by auto. cbn. lia. }
    assert (forall i, In i ids -> tc_bytes c i = []) as Hby.
    { intros i Hi. destruct (tc_bytes c i) as [|[j b] l] eqn:Eb; auto. exfalso.
      assert (In j ids /\ j <> i) as [Hj Hji] by (apply (tr_bytes _ _ TR i (j, b) Hi); rewrite Eb; now left).
      destruct (tr_chan _ _ TR j i Hj Hi Hji) as (l1 & l2 & _ & _ & F2). rewrite Eb, from_cons, Z.eqb_refl in F2. inversion F2 as [|m0 b0 l2' b'' Hb Hl]; subst.
      apply RB_dec in Hb as (m' & Em' & _). assert (tc_exit c i = false) as Hx.
      { destruct (tc_exit c i) eqn:E; auto. exfalso. pose proof (ci_exit _ CI i E) as Ef. assert (wg_zero c) as Hz by (apply (ci_fin _ CI); rewrite Ef; discriminate).
        destruct (done_quiet _ _ _ i HR TR Hi) as (_ & _ & X & _); [|congruence]. apply (ci_close _ CI); auto. intros rest X. unfold wg_zero in Hz. now rewrite X in Hz. }
      eapply Hno. eapply (t_fwd I early ids c i); eauto. }
    split; [intros i Hi; repeat split; auto|].
    destruct (tc_main c) as [rest|rest|k rest] eqn:Em.
    - right. exists rest. split; auto. destruct (ci_wait _ CI rest Em) as [A B]. split.
      + intros ->. eapply Hno. now eapply t_waited.
      + intros k Hk. split; auto. destruct (st_done (tc_state c k)) eqn:D; auto. exfalso. apply in_split in Hk as (r1 & r2 & ->). eapply Hno. eapply t_wait; eauto.
        left. rewrite <- (tr_state _ _ TR). eapply no_error; eauto. apply A. apply in_mid. auto.
    - left. destruct rest as [|k rest]; [|exfalso; eapply Hno; eapply (t_wg I early ids c k [] rest); eauto].
      assert (tc_fin c = FEnd) as Ef.
      { destruct (tc_fin c) as [|[|k rest]|] eqn:Ef; auto; exfalso.
        - eapply Hno. eapply t_zero; eauto. unfold wg_zero. now rewrite Em.
        - eapply Hno. eapply t_done; eauto.
        - eapply Hno. eapply (t_closeb I early ids c k [] rest); eauto. }
      split; auto. split; auto. intros i Hi.
      assert (st_done (tc_state c i) = true) as D by (apply (ci_close _ CI); auto; intros r X; congruence).
      rewrite Hret, D by auto. split; auto. split; [|auto]. destruct (tc_exit c i) eqn:Ex; auto. exfalso. eapply Hno. eapply (t_exit I early ids c i); eauto.
    - exfalso. eapply Hno. eapply t_close; eauto.
  Qed.
  (** In terms of the Handlers: nothing more happens there either. *)
  Lemma t_stuck_rests early ls c : treach early ls c -> (forall l c', ~ t_step I early ids c l c') -> exists hc, hreach (t_hlabels ls) hc /\ h_rests ids hc /\ forall i, hc_state hc i = tc_state c i.
  Proof.
    intros HTr Hno. destruct (treach_inv _ _ _ HTr) as (hc & HR & TR & CI). destruct (t_stuck _ _ _ HTr Hno) as [A _]. exists hc. split; auto. split; [|apply TR].
    intros i Hi. destruct (A i Hi) as (A1 & A2 & A3 & A4 & A5 & A6). rewrite (tr_started _ _ TR). split; auto. right. intros j Hj. destruct (Z.eq_dec j i) as [->|Hji].
    - destruct (hr_inv _ _ HR) as [(H & es & out & HP & _ & HD & _)]. auto.
    - apply len0. rewrite (chan_len _ _ j i TR Hj Hi Hji), A3, A4, A5. destruct (A j Hj) as (_ & -> & _). reflexivity.
  Qed.

  (** ** Executions are finite *)
  Definition sel (f : tlabel -> option (Z * Z)) (ls : list tlabel) : list (Z * Z) := flat_map (fun l => match f l with Some p => [p] | None => [] end) ls.
  Definition s_recv (l : tlabel) : option (Z * Z) := match l with TH (HRecv j i _) => Some (j, i) | _ => None end.
  Definition s_put (l : tlabel) : option (Z * Z) := match l with TPut j i => Some (j, i) | _ => None end.
  Definition s_fwd (l : tlabel) : option (Z * Z) := match l with TFwd j i => Some (j, i) | _ => None end.
  Definition s_send (l : tlabel) : option (Z * Z) := match l with TSend j i => Some (j, i) | _ => None end.
  Definition num (f : tlabel -> option (Z * Z)) (ls : list tlabel) (j i : Z) : nat := count_occ Zpair_dec (sel f ls) (j, i).
  Lemma num_snoc f ls l j i : num f (ls ++ [l]) j i = (num f ls j i + match f l with Some (a, b) => if (a =? j)%Z && (b =? i)%Z then 1 else 0 | None => 0 end)%nat.
  Proof.
    unfold num, sel. rewrite flat_map_app, count_occ_app. f_equal. cbn [flat_map]. rewrite app_nil_r. destruct (f l) as [[a b]|]; [|reflexivity]. cbn [count_occ].
    destruct (Zpair_dec (a, b) (j, i)) as [E|E]; [inversion E; subst; rewrite !Z.eqb_refl; reflexivity|]. destruct (Z.eqb_spec a j), (Z.eqb_spec b i); cbn; congruence.
  Qed.
  Lemma num_recv ls j i : num s_recv ls j i = cnt (is_recv j i) (t_hlabels ls).
  Proof.
    induction ls as [|l ls IH] using rev_ind; [reflexivity|]. rewrite num_snoc, IH. unfold t_hlabels. rewrite flat_map_app. fold (t_hlabels ls). cbn [flat_map].
    destruct l as [[k|a b x]| | | |]; cbn [s_recv app]; rewrite ?app_nil_r, ?cnt_snoc; cbn [is_recv]; lia.
  Qed.
  Lemma one_len {A} j x (m : A) : List.length (from j [(x, m)]) = if (x =? j) then 1%nat else 0%nat.
  Proof. rewrite from_cons. now destruct (x =? j). Qed.
  (** Every item that was put somewhere was taken or is still there. *)
  Lemma flow early ls c : treach early ls c -> forall j i, In i ids ->
    num s_put ls j i = (num s_recv ls j i + List.length (from j (tc_inc c i)))%nat /\
    num s_fwd ls j i = (num s_put ls j i + List.length (ofrom j (tc_hand c i)))%nat /\
    num s_send ls j i = (num s_fwd ls j i + List.length (from j (tc_bytes c i)))%nat.
  Proof.
    induction 1 as [|ls c l c' HTr IH HStep]; intros y x Hx; [cbn; auto|]. specialize (IH y x Hx). destruct IH as (I1 & I2 & I3). rewrite !num_snoc.
    destruct (treach_inv _ _ _ HTr) as (hc & HR & TR & CI).
    destruct HStep as [i a b s' o l Hi Hst EP HSd|i k b l Hi Eo Hk Hc Hroom|i j b l m Hi Hex Hh Eb Em|i j b l e Hi Hex Hh Eb Em|i j m Hi Hh Hc Hroom
      |i j m rest nw a b s' o l Hi Hst Eo Hret Ein EP HSd|i Hi Hst Eo Hret HD|k r1 r2 Em HD He|k r1 r2 Em HD He Hea|Em|k r1 r2 Em|k rest Em|Ef Hz|k r1 r2 Ef|Ef|i Hi Ef Hh Hex];
      cbn [s_recv s_put s_fwd s_send set_handler set_main set_fin tc_inc tc_hand tc_bytes]; try lia.
    - assert (fupd i (tc_inc c i) (tc_inc c) x = tc_inc c x) as -> by (unfold fupd; destruct (Z.eqb_spec x i) as [->|]; auto). lia.
    - unfold fupd. rewrite (Z.eqb_sym k x). destruct (Z.eqb_spec x k) as [->|]; [|rewrite andb_false_r; lia]. rewrite andb_true_r, from_app, app_length, one_len. lia.
    - unfold fupd. rewrite (Z.eqb_sym i x). destruct (Z.eqb_spec x i) as [->|]; [|rewrite andb_false_r; lia]. rewrite andb_true_r. rewrite Eb, from_cons in I3. rewrite Hh in I2. cbn [ofrom List.length] in *.
      rewrite one_len. destruct (j =? y); cbn [List.length] in *; lia.
    - exfalso. assert (In j ids /\ j <> i) as [Hj Hji] by (apply (tr_bytes _ _ TR i (j, b) Hi); rewrite Eb; now left).
      destruct (tr_chan _ _ TR j i Hj Hi Hji) as (l1 & l2 & _ & _ & F2). rewrite Eb, from_cons, Z.eqb_refl in F2. inversion F2 as [|m0 b0 l2' b'' Hb Hl]; subst.
      apply RB_dec in Hb as (m' & Em' & _). rewrite Em in Em'. discriminate.
    - unfold fupd. rewrite (Z.eqb_sym i x). destruct (Z.eqb_spec x i) as [->|]; [|rewrite andb_false_r; lia]. rewrite andb_true_r. rewrite Hh in I2. cbn [ofrom List.length] in *.
      rewrite from_app, app_length, one_len in *. lia.
    - unfold fupd. rewrite (Z.eqb_sym i x). destruct (Z.eqb_spec x i) as [->|]; [|rewrite andb_false_r; lia]. rewrite andb_true_r. rewrite Ein, from_cons in I1. destruct (j =? y); cbn [List.length] in *; lia.
  Qed.
  Lemma num_bound early ls c : treach early ls c -> forall j i, In j ids -> In i ids -> j <> i ->
    (num s_put ls j i <= 2 /\ num s_fwd ls j i <= 2 /\ num s_send ls j i <= 2)%nat.
  Proof.
    intros HTr j i Hj Hi Hji. destruct (flow _ _ _ HTr j i Hi) as (A & B & C). destruct (treach_inv _ _ _ HTr) as (hc & HR & TR & CI).
    pose proof (chan_bound I ids HV H2 U W now timeout r0 P F s0 t0 t1 t2 M1 M2 T TD _ hc (hr_inv _ hc HR) j i Hj Hi) as X. rewrite (proj2 (Z.eqb_neq j i)) in X by auto.
    rewrite (chan_len _ _ j i TR Hj Hi Hji) in X. rewrite num_recv in A. lia.
  Qed.
  Lemma sel_dom early ls c : treach early ls c -> forall f, In f [s_put; s_fwd; s_send] -> forall j i, In (j, i) (sel f ls) -> In j ids /\ In i ids /\ j <> i.
  Proof.
    induction 1 as [|ls c l c' HTr IH HStep]; intros f Hf y x Hyx; [contradiction|]. unfold sel in Hyx. rewrite flat_map_app in Hyx. apply in_app_iff in Hyx as [Hyx|Hyx]; [eauto|].
    destruct (treach_inv _ _ _ HTr) as (hc & HR & TR & CI). cbn [flat_map] in Hyx. rewrite app_nil_r in Hyx.
    assert (match l with TPut j i | TFwd j i | TSend j i => In j ids /\ In i ids /\ j <> i | _ => True end) as X.
    { destruct HStep as [i a b s' o l Hi Hst EP HSd|i k b l Hi Eo Hk Hc Hroom|i j b l m Hi Hex Hh Eb Em|i j b l e Hi Hex Hh Eb Em|i j m Hi Hh Hc Hroom
      |i j m rest nw a b s' o l Hi Hst Eo Hret Ein EP HSd|i Hi Hst Eo Hret HD|k r1 r2 Em HD He|k r1 r2 Em HD He Hea|Em|k r1 r2 Em|k rest Em|Ef Hz|k r1 r2 Ef|Ef|i Hi Ef Hh Hex]; auto.
      - destruct (tr_out _ _ TR i (k, b) Hi) as [A B]; [rewrite Eo; now left|]. cbn in *. auto.
      - destruct (tr_bytes _ _ TR i (j, b) Hi) as [A B]; [rewrite Eb; now left|]. cbn in *. auto.
      - destruct (tr_bytes _ _ TR i (j, b) Hi) as [A B]; [rewrite Eb; now left|]. cbn in *. auto.
      - destruct (tr_hand _ _ TR i _ Hi Hh) as [A B]. cbn in *. auto. }
    destruct Hf as [<-|[<-|[<-|[]]]]; destruct l; cbn in Hyx; try contradiction; destruct Hyx as [[= <- <-]|[]]; auto.
  Qed.
  Lemma sel_bound early ls c f : treach early ls c -> In f [s_put; s_fwd; s_send] -> (List.length (sel f ls) <= 2 * (List.length ids * List.length ids))%nat.
  Proof.
    intros HTr Hf. rewrite <- prod_length. apply (count_len ids H2 Zpair_dec).
    - intros [x y] Hin. apply in_prod_iff. destruct (sel_dom _ _ _ HTr f Hf x y Hin) as (A & B & _). auto.
    - intros [x y]. destruct (in_dec Zpair_dec (x, y) (sel f ls)) as [Hin|Hin]; [|apply (count_occ_not_In Zpair_dec) in Hin; lia].
      destruct (sel_dom _ _ _ HTr f Hf x y Hin) as (A & B & C). destruct (num_bound _ _ _ HTr x y A B C) as (X1 & X2 & X3). destruct Hf as [<-|[<-|[<-|[]]]]; auto.
  Qed.
  Definition left_of (f : Z -> bool) : nat := List.length (List.filter (fun i => negb (f i)) ids).
  Lemma left_upd i f : In i ids -> f i = false -> S (left_of (fupd i true f)) = left_of f.
  Proof.
    intros Hi Hf. unfold left_of. pose proof (proj1 HV) as ND. clear - ND Hi Hf. induction ids as [|x l IH]; [contradiction|]. inversion ND as [|? ? Hni ND']; subst. cbn [List.filter].
    destruct (Z.eq_dec x i) as [->|Hne].
    - rewrite fupd_same, Hf. cbn. f_equal. f_equal. apply filter_ext_in. intros y Hy. rewrite fupd_other; auto. intros ->. contradiction.
    - rewrite fupd_other by auto. destruct Hi as [->|Hi]; [congruence|]. specialize (IH Hi ND'). destruct (negb (f x)); cbn; lia.
  Qed.
  Definition mu_main (m : tmain) : nat := match m with MWait r => 1 + List.length r + 2 * List.length ids | MClose r => 2 * List.length r | MClosing _ r => 1 + 2 * List.length r end.
  Definition mu_fin (f : tfin) : nat := match f with FWait => 2 + List.length ids | FClose r => 1 + List.length r | FEnd => 0 end.
  Definition mu (c : @tconfig _ R) : nat := (mu_main (tc_main c) + mu_fin (tc_fin c) + left_of (tc_ret c) + left_of (tc_exit c))%nat.
  Definition is_ctl (l : tlabel) : bool := match l with TCtl => true | _ => false end.
  Lemma mid_len {A} (r1 r2 : list A) x : List.length (r1 ++ x :: r2) = S (List.length (r1 ++ r2)).
  Proof. rewrite !app_length. cbn. lia. Qed.
  Lemma ctl_bound early ls c : treach early ls c -> (List.length (List.filter is_ctl ls) + mu c <= 6 * List.length ids + 3)%nat.
  Proof.
    induction 1 as [|ls c l c' HTr IH HStep].
    - unfold mu, left_of. cbn. assert (forall l : list Z, List.filter (fun _ => true) l = l) as -> by (induction l; cbn; congruence). lia.
    - rewrite List.filter_app, app_length. unfold mu in *.
      destruct HStep as [i a b s' o l Hi Hst EP HSd|i k b l Hi Eo Hk Hc Hroom|i j b l m Hi Hex Hh Eb Em|i j b l e Hi Hex Hh Eb Em|i j m Hi Hh Hc Hroom
      |i j m rest nw a b s' o l Hi Hst Eo Hret Ein EP HSd|i Hi Hst Eo Hret HD|k r1 r2 Em HD He|k r1 r2 Em HD He Hea|Em|k r1 r2 Em|k rest Em|Ef Hz|k r1 r2 Ef|Ef|i Hi Ef Hh Hex];
      cbn [List.filter is_ctl List.length set_handler set_main set_fin tc_main tc_fin tc_ret tc_exit]; try lia.
      + pose proof (left_upd i (tc_ret c) Hi Hret). lia.
      + rewrite Em in IH. cbn [mu_main] in *. rewrite mid_len in IH. lia.
      + rewrite Em in IH. cbn [mu_main] in *. lia.
      + rewrite Em in IH. cbn [mu_main List.length] in *. lia.
      + rewrite Em in IH. cbn [mu_main] in *. rewrite mid_len in IH. lia.
      + rewrite Em in IH. cbn [mu_main] in *. lia.
      + rewrite Ef in IH. cbn [mu_fin] in *. lia.
      + rewrite Ef in IH. cbn [mu_fin] in *. rewrite mid_len in IH. lia.
      + rewrite Ef in IH. cbn [mu_fin List.length] in *. lia.
      + pose proof (left_upd i (tc_exit c) Hi Hex). lia.
  Qed.
  Lemma t_bound early ls c : treach early ls c -> (List.length ls <= 8 * (List.length ids * List.length ids) + 6 * List.length ids + 3)%nat.
  Proof.
    intros HTr. assert (forall ls, List.length ls = (List.length (t_hlabels ls) + List.length (sel s_put ls) + List.length (sel s_fwd ls) + List.length (sel s_send ls) + List.length (List.filter is_ctl ls))%nat) as E.
    { clear. induction ls as [|l ls IH]; [reflexivity|]. unfold t_hlabels, sel in *. cbn [flat_map List.filter List.length]. rewrite !app_length.
      destruct l; cbn [s_put s_fwd s_send is_ctl List.length]; rewrite IH; lia. }
    rewrite E. pose proof (sel_bound _ _ _ s_put HTr ltac:(cbn; auto)). pose proof (sel_bound _ _ _ s_fwd HTr ltac:(cbn; auto)). pose proof (sel_bound _ _ _ s_send HTr ltac:(cbn; auto)).
    pose proof (ctl_bound _ _ _ HTr). destruct (treach_inv _ _ _ HTr) as (hc & HR & _). pose proof (trace_bound I ROK ids HS HV H2 U W now timeout r0 P F s0 t0 t1 t2 M1 M2 T TD _ _ HR). lia.
  Qed.
End Facts.

(** * Concrete executions *)
Section Exec.
  Context `{Gr : group_ops} {R : Type} (I : RoundI R).

  Lemma inb_In i l : inb i l = true -> In i l.
  Proof. unfold inb. intros H. apply existsb_exists in H as (x & Hx & E). apply Z.eqb_eq in E. now subst. Qed.
  Lemma take_out_split k : forall l l', take_out k l = Some l' -> exists r1 r2, l = r1 ++ k :: r2 /\ l' = r1 ++ r2.
  Proof.
    induction l as [|x l IH]; intros l' E; [discriminate|]. cbn in E. destruct (Z.eqb_spec x k) as [->|].
    - inversion E; subst. exists [], l'. auto.
    - destruct (take_out k l) as [r|]; [|discriminate]. inversion E; subst. destruct (IH r eq_refl) as (r1 & r2 & -> & ->). exists (x :: r1), r2. auto.
  Qed.
  Lemma sends_f_ok ids i : forall ms l, sends_f ids i ms = Some l -> sends ids i ms l.
  Proof.
    induction ms as [|m ms IH]; intros l E; cbn in E; [inversion E; constructor|]. destruct (sends_f ids i ms) as [l0|]; [|discriminate]. specialize (IH l0 eq_refl).
    destruct (msg_MarshalBinary m) as [b|e|e] eqn:Em; [|inversion E; subst; eapply sends_err; eauto|discriminate].
    destruct (IsBroadcast (m_Header m)) eqn:EB; [inversion E; subst; eapply sends_all; eauto|].
    destruct (Z.eqb_spec (m_To m) i); inversion E; subst; [eapply sends_self; eauto|eapply sends_one; eauto].
  Qed.
  Lemma t_exec1_step early ids c a l c' : t_exec1 I ids c a = Some (l, c') -> t_step I early ids c l c'.
  Proof.
    destruct a as [i|i|i|i|i|i|k| |k| | |k| |i]; cbn [t_exec1].
    - destruct (inb i ids) eqn:Ei; [|discriminate]. destruct (tc_started c i) eqn:Es; [discriminate|]. cbn [andb negb]. destruct (ProcessAll _ _ _ _) as [[s' o]| |] eqn:EP; try discriminate.
      destruct (sends_f ids i o) as [l0|] eqn:ES; [|discriminate]. intros [= <- <-]. apply sends_f_ok in ES. eapply t_start; eauto. now apply inb_In.
    - destruct (tc_out c i) as [|[k b] l0] eqn:Eo; [discriminate|]. destruct (inb i ids) eqn:Ei; [|discriminate]. destruct (inb k ids) eqn:Ek; [|discriminate].
      destruct (bytes_closed c k) eqn:Ec; [discriminate|]. destruct (Nat.ltb_spec (List.length (tc_bytes c k)) (List.length ids)); [|discriminate]. cbn [andb negb]. intros [= <- <-]. eapply t_send; eauto; now apply inb_In.
    - destruct (tc_hand c i) eqn:Eh; [discriminate|]. destruct (tc_bytes c i) as [|[j b] l0] eqn:Eb; [discriminate|]. destruct (inb i ids) eqn:Ei; [|discriminate]. destruct (tc_exit c i) eqn:Ex; [discriminate|].
      cbn [andb negb]. destruct (msg_UnmarshalBinary zero_message b) as [m| |] eqn:Em; try discriminate. intros [= <- <-]. eapply t_fwd; eauto; now apply inb_In.
    - destruct (tc_hand c i) as [[j m]|] eqn:Eh; [|discriminate]. destruct (inb i ids) eqn:Ei; [|discriminate]. destruct (inc_closed c i) eqn:Ec; [discriminate|].
      destruct (Nat.ltb_spec (List.length (tc_inc c i)) (List.length ids)); [|discriminate]. cbn [andb negb]. intros [= <- <-]. eapply t_put; eauto; now apply inb_In.
    - destruct (tc_inc c i) as [|[j m] rest] eqn:Ein; [discriminate|]. destruct (tc_out c i) eqn:Eo; [|discriminate]. destruct (inb i ids) eqn:Ei; [|discriminate]. destruct (tc_started c i) eqn:Es; [|discriminate].
      destruct (tc_ret c i) eqn:Er; [discriminate|]. cbn [andb negb]. destruct (handler_msg _ _ _ _ _ _) as [[s' o]| |] eqn:EP; try discriminate. destruct (sends_f ids i o) as [l0|] eqn:ES; [|discriminate].
      intros [= <- <-]. apply sends_f_ok in ES. eapply t_recv; eauto. now apply inb_In.
    - destruct (inb i ids) eqn:Ei; [|discriminate]. destruct (tc_started c i) eqn:Es; [|discriminate]. destruct (tc_out c i) eqn:Eo; [|discriminate]. destruct (tc_ret c i) eqn:Er; [discriminate|].
      destruct (st_done (tc_state c i)) eqn:D; [|discriminate]. cbn [andb negb]. intros [= <- <-]. eapply t_return; eauto. now apply inb_In.
    - destruct (tc_main c) as [rest| |] eqn:Em; try discriminate. destruct (take_out k rest) as [r|] eqn:Et; [|discriminate]. destruct (st_done (tc_state c k)) eqn:D; [|discriminate].
      destruct (st_err (tc_state c k)) eqn:Ee; [discriminate|]. cbn [andb]. intros [= <- <-]. apply take_out_split in Et as (r1 & r2 & -> & ->). eapply t_wait; eauto.
    - destruct (tc_main c) as [[|]| |] eqn:Em; try discriminate. intros [= <- <-]. now eapply t_waited.
    - destruct (tc_main c) as [|rest|] eqn:Em; try discriminate. destruct (take_out k rest) as [r|] eqn:Et; [|discriminate]. intros [= <- <-]. apply take_out_split in Et as (r1 & r2 & -> & ->). eapply t_wg; eauto.
    - destruct (tc_main c) as [| |k rest] eqn:Em; try discriminate. intros [= <- <-]. eapply t_close; eauto.
    - destruct (tc_fin c) eqn:Ef; try discriminate. destruct (tc_main c) as [|[|]|k [|]] eqn:Em; try discriminate; intros [= <- <-]; (eapply t_zero; [auto|unfold wg_zero; rewrite Em; reflexivity]).
    - destruct (tc_fin c) as [|rest|] eqn:Ef; try discriminate. destruct (take_out k rest) as [r|] eqn:Et; [|discriminate]. intros [= <- <-]. apply take_out_split in Et as (r1 & r2 & -> & ->). eapply t_closeb; eauto.
    - destruct (tc_fin c) as [|[|]|] eqn:Ef; try discriminate. intros [= <- <-]. now eapply t_done.
    - destruct (tc_fin c) eqn:Ef; try discriminate. destruct (tc_hand c i) eqn:Eh; [discriminate|]. destruct (inb i ids) eqn:Ei; [|discriminate]. destruct (tc_exit c i) eqn:Ex; [discriminate|]. cbn [andb negb].
      intros [= <- <-]. rewrite <- Ef. eapply t_exit; eauto. now apply inb_In.
  Qed.
  Lemma t_exec_trace early ids c0 : forall acts c ls ls' c', t_trace I early ids c0 ls c -> t_exec I ids c acts = Some (ls', c') -> t_trace I early ids c0 (ls ++ ls') c'.
  Proof.
    induction acts as [|a acts IH]; intros c ls ls' c' HT E; cbn [t_exec] in E; [inversion E; subst; now rewrite app_nil_r|].
    destruct (t_exec1 I ids c a) as [[l c1]|] eqn:E1; [|discriminate]. destruct (t_exec I ids c1 acts) as [[ls1 c2]|] eqn:E2; [|discriminate]. inversion E; subst.
    apply (t_exec1_step early) in E1. replace (ls ++ l :: ls1) with ((ls ++ [l]) ++ ls1) by (now rewrite <- app_assoc). eapply IH; [|exact E2]. econstructor; eauto.
  Qed.

  (** A configuration in which everybody waits. *)
  Lemma t_dead early ids c rest : (forall i, In i ids -> tc_started c i = true /\ tc_out c i = [] /\ tc_bytes c i = [] /\ tc_hand c i = None /\ tc_inc c i = [] /\ tc_ret c i = st_done (tc_state c i)) ->
    tc_main c = MWait rest -> rest <> [] -> (forall k, In k rest -> st_done (tc_state c k) = false) -> tc_fin c = FWait -> forall l c', ~ t_step I early ids c l c'.
  Proof.
    intros HA HM HR HD HF l c' HStep.
    destruct HStep as [i a b s' o l Hi Hst EP HSd|i k b l Hi Eo Hk Hc Hroom|i j b l m Hi Hex Hh Eb Em|i j b l e Hi Hex Hh Eb Em|i j m Hi Hh Hc Hroom
      |i j m rst nw a b s' o l Hi Hst Eo Hret Ein EP HSd|i Hi Hst Eo Hret Hd|k r1 r2 Em Hd He|k r1 r2 Em Hd He Hea|Em|k r1 r2 Em|k rst Em|Ef Hz|k r1 r2 Ef|Ef|i Hi Ef Hh Hex];
      try (destruct (HA i Hi) as (A1 & A2 & A3 & A4 & A5 & A6)); try congruence.
    - rewrite HM in Em. inversion Em; subst. rewrite HD in Hd; [discriminate|]. apply in_app_iff. right. now left.
    - rewrite HM in Em. inversion Em; subst. rewrite HD in Hd; [discriminate|]. apply in_app_iff. right. now left.
    - unfold wg_zero in Hz. rewrite HM in Hz. contradiction.
  Qed.
End Exec.
