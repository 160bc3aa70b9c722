(** C39: goroutines that read a State without its mutex. *)
From Coq Require Import ZArith Lia List Bool.
From Verif Require Import Conc.
Import ListNotations.
Local Open Scope Z_scope.

(** Specification: a result is right if the State is done and it is what the fields hold, with the output complete
    when there is no error and empty when there is one. *)
Definition right_result (c : config) (r : result) : Prop :=
  newest c LDone = 1 /\ r_err r = newest c LErr /\ r_round r = newest c LRound /\ r_pub r = newest c LPub /\ r_sec r = newest c LSec /\
  (r_err r = 0 /\ r_pub r = 1 /\ r_sec r = 1 \/ r_err r <> 0 /\ r_pub r = 0 /\ r_sec r = 0).

(** ** A type system for the accesses *)
Record st := { sd : Z; se : Z; sr : Z; sp : Z; ss : Z }.
Definition get (m : st) (l : loc) : Z := match l with LDone => sd m | LErr => se m | LRound => sr m | LPub => sp m | LSec => ss m end.
Definition set (m : st) (l : loc) (v : Z) : st :=
  match l with
  | LDone => {| sd := v; se := se m; sr := sr m; sp := sp m; ss := ss m |}
  | LErr => {| sd := sd m; se := v; sr := sr m; sp := sp m; ss := ss m |}
  | LRound => {| sd := sd m; se := se m; sr := v; sp := sp m; ss := ss m |}
  | LPub => {| sd := sd m; se := se m; sr := sr m; sp := v; ss := ss m |}
  | LSec => {| sd := sd m; se := se m; sr := sr m; sp := sp m; ss := v |}
  end.
Definition st0 : st := {| sd := 0; se := 0; sr := 0; sp := 0; ss := 0 |}.
Definition finished (m : st) : Prop := sd m = 1 /\ (se m = 0 /\ sp m = 1 /\ ss m = 1 \/ se m <> 0 /\ sp m = 0 /\ ss m = 0).
Definition good (m : st) (cl : bool) : Prop := m = st0 /\ cl = false \/ finished m /\ cl = true.
Definition is_of (r : result) (m : st) : Prop := r_err r = se m /\ r_round r = sr m /\ r_pub r = sp m /\ r_sec r = ss m.
Definition racy (fresh : bool) (r : result) : Prop := fresh = false /\ (r_path r = PFast \/ r_path r = PIsFinished).

Inductive wtO (fresh : bool) : option st -> prog -> Prop :=
| o_stop kn : wtO fresh kn Stop
| o_lock kn k : (forall m cl, good m cl -> wtI fresh m cl k) -> wtO fresh kn (Lock k)
| o_read m l k : wtO fresh (Some m) (k (get m l)) -> wtO fresh (Some m) (Read l k)
| o_read_any l k : (forall v, wtO fresh None (k v)) -> wtO fresh None (Read l k)
| o_read_done k : fresh = true -> wtO fresh None (k 0) -> (forall m, finished m -> wtO fresh (Some m) (k 1)) -> wtO fresh None (Read LDone k)
| o_recv kn k : (forall m, finished m -> wtO fresh (Some m) k) -> wtO fresh kn (Recv k)
| o_emit m r k : is_of r m -> wtO fresh None k -> wtO fresh (Some m) (Emit r k)
| o_emit_racy r k : racy fresh r -> wtO fresh None k -> wtO fresh None (Emit r k)
with wtI (fresh : bool) : st -> bool -> prog -> Prop :=
| i_read m cl l k : wtI fresh m cl (k (get m l)) -> wtI fresh m cl (Read l k)
| i_write m cl l v k : sd m = 0 -> (l = LDone -> v = 1 /\ finished (set m LDone 1)) -> wtI fresh (set m l v) cl k -> wtI fresh m cl (Write l v k)
| i_close m k : finished m -> wtI fresh m true k -> wtI fresh m false (Close k)
| i_unlock m cl k : good m cl -> wtO fresh None k -> wtI fresh m cl (Unlock k).


Lemma observe_known fresh m p k : wtO fresh None k -> wtO fresh (Some m) (observe p k).
Proof.
  intros H. unfold observe, Err. apply o_read. cbn [get]. destruct (se m =? 0) eqn:E.
  - apply Z.eqb_eq in E. do 3 (apply o_read; cbn [get]). apply o_emit; auto. repeat split. cbn. congruence.
  - do 4 (apply o_read; cbn [get]). apply o_emit; auto. repeat split.
Qed.
Lemma observe_racy p k : (p = PFast \/ p = PIsFinished) -> wtO false None k -> wtO false None (observe p k).
Proof.
  intros P H. unfold observe, Err. apply o_read_any. intros v. destruct (v =? 0).
  - do 3 (apply o_read_any; intros ?). apply o_emit_racy; auto. now split.
  - do 4 (apply o_read_any; intros ?). apply o_emit_racy; auto. now split.
Qed.

Lemma finish_wt fresh m k : sd m = 0 -> finished (set m LDone 1) -> (forall m', finished m' -> wtI fresh m' true k) -> wtI fresh m false (finish k).
Proof.
  intros D F H. unfold finish. apply i_read. cbn [get]. rewrite D. cbn [Z.eqb].
  apply i_write; auto. apply i_close; auto.
Qed.
Lemma unlock_wt fresh k : wtO fresh None k -> forall m, finished m -> wtI fresh m true (Unlock k).
Proof. intros H m F. apply i_unlock; auto. now right. Qed.
Lemma report_wt fresh e r k m cl : good m cl -> wtO fresh None k -> wtI fresh m cl (reportError e r (Unlock k)).
Proof.
  intros G H. unfold reportError. apply i_read. cbn [get]. destruct G as [(-> & ->)|(F & ->)].
  - cbn. apply i_read. cbn. apply i_write; [reflexivity|discriminate|]. apply i_write; [reflexivity|discriminate|].
    apply finish_wt; [reflexivity| |now apply unlock_wt]. split; [reflexivity|]. right. repeat split; discriminate.
  - pose proof F as [-> _]. cbn. now apply unlock_wt.
Qed.
Lemma run_op_wt fresh o k : wtO fresh None k -> wtO fresh None (run_op o k).
Proof.
  intros H. destruct o; cbn [run_op].
  - apply o_lock. intros m cl G. apply i_read. now apply i_unlock.
  - apply o_lock. intros m cl G. apply i_read. destruct (_ =? 1); [now apply i_unlock|now apply report_wt].
  - apply o_lock. intros m cl G. apply i_read. cbn [get]. destruct G as [(-> & ->)|(F & ->)].
    + cbn. apply i_write; [reflexivity|discriminate|]. apply i_write; [reflexivity|discriminate|].
      apply finish_wt; [reflexivity| |now apply unlock_wt]. split; [reflexivity|]. left. repeat split.
    + pose proof F as [-> _]. cbn. now apply unlock_wt.
  - apply o_lock. intros m cl G. now apply report_wt.
  - apply o_recv. intros m F. now apply observe_known.
  - destruct fresh.
    + apply o_read_done; auto. intros m F. now apply observe_known.
    + apply o_read_any. intros v. destruct (v =? 1); [|auto]. apply observe_racy; auto.
  - destruct fresh.
    + apply o_read_done; auto.
      * cbn. apply o_recv. intros m F. now apply observe_known.
      * intros m F. now apply observe_known.
    + apply o_read_any. intros v. destruct (v =? 1); [apply observe_racy; auto|].
      apply o_recv. intros m F. now apply observe_known.
Qed.
Lemma run_ops_wt fresh os : wtO fresh None (run_ops os).
Proof. induction os as [|o os IH]; [apply o_stop|]. now apply run_op_wt. Qed.

(** ** The invariant *)
Definition full (c : config) (w : view) : Prop := forall l, (List.length (c_mem c l) <= S (w l))%nat.
Definition closed (c : config) : bool := match c_chan c with Some _ => true | None => false end.
Definition out_ok (fresh : bool) (c : config) (m : st) (i : nat) : Prop :=
  wtO fresh None (c_prog c i) \/ wtO fresh (Some m) (c_prog c i) /\ finished m /\ (fresh = true \/ full c (c_view c i)).
Record inv (fresh : bool) (c : config) (m : st) : Prop := {
  i_mem : forall l, newest c l = get m l /\ c_mem c l <> [];
  i_fin : sd m = 0 \/ finished m;
  i_lock : match c_lock c with
           | None => good m (closed c) /\ full c (c_lview c) /\ forall i, out_ok fresh c m i
           | Some i => wtI fresh m (closed c) (c_prog c i) /\ full c (c_view c i) /\ forall j, j <> i -> out_ok fresh c m j
           end;
  i_chan : forall w, c_chan c = Some w -> finished m /\ full c w;
  i_res : forall r, In r (c_results c) -> racy fresh r \/ finished m /\ is_of r m;
  i_panic : c_panic c = false
}.

Lemma upd_t_same {A} (f : nat -> A) i v : upd_t f i v i = v. Proof. unfold upd_t. now rewrite Nat.eqb_refl. Qed.
Lemma upd_t_other {A} (f : nat -> A) i j v : j <> i -> upd_t f i v j = f j.
Proof. intros H. unfold upd_t. destruct (Nat.eqb_spec i j); congruence. Qed.
Lemma full_join c w w' : full c w' -> full c (vjoin w w').
Proof. intros H l. specialize (H l). unfold vjoin. lia. Qed.
Lemma full_join_l c w w' : full c w -> full c (vjoin w w').
Proof. intros H l. specialize (H l). unfold vjoin. lia. Qed.
Lemma last_nth {A} (l : list A) d : l <> [] -> nth_error l (List.length l - 1) = Some (List.last l d).
Proof.
  intros H. destruct (exists_last H) as (l' & x & ->). rewrite app_length, last_last. cbn.
  replace (List.length l' + 1 - 1)%nat with (List.length l') by lia. rewrite nth_error_app2 by lia. now rewrite Nat.sub_diag.
Qed.
Lemma read_full c m w l t v : (forall l, newest c l = get m l /\ c_mem c l <> []) -> full c w -> (w l <= t)%nat -> nth_error (c_mem c l) t = Some v -> v = get m l.
Proof.
  intros HM F L E. assert (t < List.length (c_mem c l))%nat by (apply nth_error_Some; congruence).
  specialize (F l). assert (t = List.length (c_mem c l) - 1)%nat as -> by lia. destruct (HM l) as [<- N].
  rewrite (last_nth _ 0 N) in E. unfold newest. congruence.
Qed.
Lemma read_newest c m l v : (forall l, newest c l = get m l /\ c_mem c l <> []) -> nth_error (c_mem c l) (List.length (c_mem c l) - 1) = Some v -> v = get m l.
Proof. intros HM E. destruct (HM l) as [<- N]. rewrite (last_nth _ 0 N) in E. unfold newest. congruence. Qed.
Lemma fin_d m : finished m -> sd m <> 0. Proof. intros [-> _]. discriminate. Qed.

Lemma init_inv fresh ops : inv fresh (init ops) st0.
Proof.
  constructor; cbn; auto.
  - intros []; split; try reflexivity; discriminate.
  - split; [left; auto|]. split; [intros l; cbn; lia|]. intros i. left. apply run_ops_wt.
  - discriminate.
  - intros r [].
Qed.

(** Only the lock holder can be at a write, a close or an unlock. *)
Lemma out_not_in fresh c m i k : out_ok fresh c m i -> c_prog c i <> Unlock k /\ c_prog c i <> Close k /\ forall l v, c_prog c i <> Write l v k.
Proof. intros [H|(H & _)]; repeat split; intros; intros E; rewrite E in H; inversion H. Qed.
Lemma holder fresh c m i : inv fresh c m ->
  (exists k, c_prog c i = Unlock k \/ c_prog c i = Close k \/ exists l v, c_prog c i = Write l v k) ->
  c_lock c = Some i /\ wtI fresh m (closed c) (c_prog c i) /\ full c (c_view c i) /\ (forall j, j <> i -> out_ok fresh c m j).
Proof.
  intros I (k & E). assert (~ out_ok fresh c m i) as N.
  { intros O. destruct (out_not_in fresh c m i k O) as (A & B & C). destruct E as [E|[E|(l & v & E)]]; [now apply A|now apply B|now apply (C l v)]. }
  pose proof (i_lock _ _ _ I) as L. destruct (c_lock c) as [j|].
  - destruct (Nat.eq_dec i j) as [->|D]; [auto|]. destruct L as (_ & _ & L). now apply L in D.
  - destruct L as (_ & _ & L). now specialize (L i).
Qed.
(** A goroutine at a step of the unlocked kind. *)
Lemma holder_no fresh c m i : inv fresh c m -> (forall cl, ~ wtI fresh m cl (c_prog c i)) -> c_lock c <> Some i /\ out_ok fresh c m i.
Proof.
  intros I N. pose proof (i_lock _ _ _ I) as L. destruct (c_lock c) as [j|].
  - destruct L as (W & _ & L). destruct (Nat.eq_dec i j) as [->|D]; [now apply N in W|]. split; [congruence|now apply L].
  - destruct L as (_ & _ & L). split; [discriminate|apply L].
Qed.

Lemma step_inv fresh c c' m : inv fresh c m -> step fresh c c' -> exists m', inv fresh c' m' /\ (finished m -> m' = m).
Proof.
  intros I S. inversion S as [i k E L|i k E|i l k t v E HV HN HF|i l v k E|i k E|i k w E HC|i r k E]; subst c'; clear S.
  - (* lock *)
    exists m. split; [|auto]. destruct I as [HM HFin HL HC HR HP]. rewrite L in HL. destruct HL as (G & F & O).
    constructor; cbn; auto. rewrite upd_t_same. split; [|split].
    + specialize (O i). unfold out_ok in O. rewrite E in O. destruct O as [O|(O & _)]; inversion O; subst; auto.
    + rewrite upd_t_same. now apply full_join.
    + intros j D. unfold out_ok. cbn. rewrite !upd_t_other by auto. apply O.
  - (* unlock *)
    exists m. split; [|auto]. destruct (holder _ _ _ i I (ex_intro _ k (or_introl E))) as (L & W & F & O). destruct I as [HM HFin HL HC HR HP].
    rewrite E in W. inversion W; subst. constructor; cbn; auto.
    + split; [auto|]. split; [now apply full_join|]. intros j. unfold out_ok. cbn. destruct (Nat.eq_dec j i) as [->|D].
      * rewrite upd_t_same. auto.
      * rewrite !upd_t_other by auto. now apply O.
    + rewrite HP, L. reflexivity.
  - (* read *)
    exists m. split; [|auto]. destruct I as [HM HFin HL HC HR HP]. constructor; cbn; auto.
    assert (OK : out_ok fresh c m i -> wtO fresh None (k v) \/ wtO fresh (Some m) (k v) /\ finished m /\ (fresh = true \/ full c (c_view c i))).
    { unfold out_ok. rewrite E. intros [O|(O & FM & V)].
      - inversion O as [| | |? ? A|? FR A B| | |]; subst; [now left|]. specialize (HF eq_refl). subst t. apply (read_newest _ _ _ _ HM) in HN. subst v. cbn [get].
        destruct HFin as [Z0|FM].
        + rewrite Z0. now left.
        + right. pose proof FM as [-> _]. auto.
      - inversion O; subst. assert (v = get m l) as ->; [|now right]. destruct V as [FR|V].
        + specialize (HF FR). subst t. now apply (read_newest _ _ _ _ HM) in HN.
        + now apply (read_full _ _ _ _ _ _ HM V HV) in HN. }
    destruct (c_lock c) as [j|].
    + destruct HL as (W & F & O). split; [|split; [auto|]].
      * destruct (Nat.eq_dec j i) as [->|D].
        -- rewrite upd_t_same. rewrite E in W. inversion W; subst. now rewrite (read_full _ _ _ _ _ _ HM F HV HN).
        -- now rewrite upd_t_other.
      * intros j' D. unfold out_ok. cbn. destruct (Nat.eq_dec j' i) as [->|D'].
        -- rewrite upd_t_same. apply OK. now apply O.
        -- rewrite upd_t_other by auto. now apply O.
    + destruct HL as (G & F & O). split; [auto|]. split; [auto|]. intros j. unfold out_ok. cbn. destruct (Nat.eq_dec j i) as [->|D'].
      * rewrite upd_t_same. apply OK. apply O.
      * rewrite upd_t_other by auto. apply O.
  - (* write *)
    destruct (holder _ _ _ i I (ex_intro _ k (or_intror (or_intror (ex_intro _ l (ex_intro _ v E)))))) as (L & W & F & O). destruct I as [HM HFin HL HC HR HP].
    rewrite E in W. inversion W as [|? ? ? ? ? Z0 HD W'| |]; subst. exists (set m l v). split; [|intros FM; now apply fin_d in FM].
    assert (c_chan c = None) as CN. { destruct (c_chan c) as [w|] eqn:EC; [|auto]. destruct (HC w eq_refl) as [FM _]. now apply fin_d in FM. }
    constructor; cbn; auto.
    + intros l'. unfold newest. cbn. unfold upd. destruct (loc_eqb l l') eqn:EL.
      * assert (l = l') as -> by (destruct l, l'; auto; discriminate). rewrite last_last. split; [now destruct l'|]. now destruct (c_mem c l').
      * destruct (HM l') as [H1 H2]. split; [|auto]. unfold newest in H1. rewrite H1. destruct l, l'; auto; discriminate.
    + destruct l; try (left; exact Z0). destruct (HD eq_refl) as [-> FD]. now right.
    + rewrite L. unfold closed in *. cbn. rewrite !upd_t_same. split; [exact W'|]. split.
      * intros l'. cbn. unfold upd. destruct (loc_eqb l l') eqn:EL; [rewrite app_length; cbn; assert (l = l') as -> by (destruct l, l'; auto; discriminate); lia|apply F].
      * intros j D. unfold out_ok. cbn. rewrite upd_t_other by auto. destruct (O j D) as [A|(_ & FM & _)]; [now left|now apply fin_d in FM].
    + rewrite CN. discriminate.
    + intros r Hr. destruct (HR r Hr) as [A|(FM & _)]; [now left|now apply fin_d in FM].
  - (* close *)
    exists m. split; [|auto]. destruct (holder _ _ _ i I (ex_intro _ k (or_intror (or_introl E)))) as (L & W & F & O). destruct I as [HM HFin HL HC HR HP].
    rewrite E in W. inversion W as [| |? ? FM W' A1 A2|]; subst. constructor; cbn; auto.
    + rewrite L, upd_t_same. split; [exact W'|]. split; [exact F|]. intros j D. unfold out_ok. cbn. rewrite upd_t_other by auto. now apply O.
    + intros w [= <-]. split; auto.
    + unfold closed in A2. rewrite HP. destruct (c_chan c); [discriminate|reflexivity].
  - (* receive *)
    exists m. split; [|auto]. destruct (holder_no _ _ _ i I) as (L & O); [intros cl W; rewrite E in W; inversion W|].
    destruct I as [HM HFin HL HCh HR HP]. destruct (HCh w HC) as [FM FW]. constructor; cbn; auto.
    assert (K : wtO fresh (Some m) k). { unfold out_ok in O. rewrite E in O. destruct O as [O|(O & _)]; inversion O; subst; auto. }
    assert (OK : forall j, (j <> i -> out_ok fresh c m j) -> out_ok fresh {| c_mem := c_mem c; c_lock := c_lock c; c_lview := c_lview c; c_chan := c_chan c; c_prog := upd_t (c_prog c) i k;
      c_view := upd_t (c_view c) i (vjoin (c_view c i) w); c_results := c_results c; c_panic := c_panic c |} m j).
    { intros j Hj. unfold out_ok. cbn. destruct (Nat.eq_dec j i) as [->|D].
      - rewrite !upd_t_same. right. refine (conj K (conj FM (or_intror _))). now apply full_join.
      - rewrite !upd_t_other by auto. now apply Hj. }
    destruct (c_lock c) as [j|].
    + destruct HL as (W & F & O'). assert (j <> i) by congruence. rewrite !upd_t_other by auto. split; [exact W|]. split; [exact F|].
      intros j' D. apply OK. intros _. now apply O'.
    + destruct HL as (G & F & O'). split; [exact G|]. split; [exact F|]. intros j. apply OK. intros _. apply O'.
  - (* emit *)
    exists m. split; [|auto]. destruct (holder_no _ _ _ i I) as (L & O); [intros cl W; rewrite E in W; inversion W|].
    destruct I as [HM HFin HL HCh HR HP].
    assert (wtO fresh None k /\ (racy fresh r \/ finished m /\ is_of r m)) as [K R].
    { unfold out_ok in O. rewrite E in O. destruct O as [O|(O & FM & _)]; inversion O; subst; auto. }
    constructor; cbn; auto.
    + assert (OK : forall j, (j <> i -> out_ok fresh c m j) -> out_ok fresh {| c_mem := c_mem c; c_lock := c_lock c; c_lview := c_lview c; c_chan := c_chan c; c_prog := upd_t (c_prog c) i k;
        c_view := c_view c; c_results := r :: c_results c; c_panic := c_panic c |} m j).
      { intros j Hj. unfold out_ok. cbn. destruct (Nat.eq_dec j i) as [->|D].
        - rewrite !upd_t_same. now left.
        - rewrite !upd_t_other by auto. now apply Hj. }
      destruct (c_lock c) as [j|].
      * destruct HL as (W & F & O'). assert (j <> i) by congruence. rewrite !upd_t_other by auto. split; [exact W|]. split; [exact F|].
        intros j' D. apply OK. intros _. now apply O'.
      * destruct HL as (G & F & O'). split; [exact G|]. split; [exact F|]. intros j. apply OK. intros _. apply O'.
    + intros r' [<-|Hr]; auto.
Qed.
Lemma steps_inv fresh c c' : steps fresh c c' -> forall m, inv fresh c m -> exists m', inv fresh c' m' /\ (finished m -> m' = m).
Proof.
  induction 1 as [|c1 c2 _ IH S]; intros m I; [eauto|]. destruct (IH m I) as (m1 & I1 & K1).
  destruct (step_inv _ _ _ _ I1 S) as (m2 & I2 & K2). exists m2. split; auto. intros F. rewrite <- (K1 F). apply K2. now rewrite (K1 F).
Qed.
Lemma reach_inv fresh ops c : steps fresh (init ops) c -> exists m, inv fresh c m.
Proof. intros S. destruct (steps_inv _ _ _ S st0 (init_inv fresh ops)) as (m & I & _). eauto. Qed.
Lemma steps_trans fresh a b c : steps fresh a b -> steps fresh b c -> steps fresh a c.
Proof. intros H. induction 1 as [|c1 c2 _ IH S]; auto. exact (steps_step _ _ _ _ IH S). Qed.

Lemma right_of fresh c m r : inv fresh c m -> finished m -> is_of r m -> right_result c r.
Proof.
  intros I [D F] (A1 & A2 & A3 & A4). destruct I as [HM _ _ _ _ _].
  assert (H : forall l, newest c l = get m l) by (intros l; apply HM). unfold right_result. rewrite !H, A1, A2, A3, A4. cbn. auto 10.
Qed.

(** Every interleaving, sequentially consistent memory: all readers are right. *)
Theorem C39_interleavings : forall ops c r, steps true (init ops) c -> In r (c_results c) -> right_result c r.
Proof.
  intros ops c r S Hr. destruct (reach_inv _ _ _ S) as (m & I). destruct (i_res _ _ _ I r Hr) as [[A _]|(F & E)]; [discriminate|].
  exact (right_of _ _ _ _ I F E).
Qed.
(** The Go memory model: readers that received from the channel (Done, or WaitForError when it had to wait) are right. *)
Theorem C39_done : forall ops c r, steps false (init ops) c -> In r (c_results c) -> r_path r = PDone \/ r_path r = PSlow -> right_result c r.
Proof.
  intros ops c r S Hr HP. destruct (reach_inv _ _ _ S) as (m & I). destruct (i_res _ _ _ I r Hr) as [[_ A]|(F & E)].
  - destruct HP as [HP|HP], A as [A|A]; rewrite HP in A; discriminate.
  - exact (right_of _ _ _ _ I F E).
Qed.
(** Once done, nothing changes any more; so a right result stays right. *)
Theorem C39_final : forall fresh ops c c' l, steps fresh (init ops) c -> newest c LDone = 1 -> steps fresh c c' -> newest c' l = newest c l.
Proof.
  intros fresh ops c c' l S D S'. destruct (reach_inv _ _ _ S) as (m & I). destruct (steps_inv _ _ _ S' m I) as (m' & I' & K).
  assert (finished m). { destruct (i_fin _ _ _ I) as [Z0|]; [|auto]. destruct (i_mem _ _ _ I LDone) as [E _]. cbn in E. congruence. }
  rewrite (proj1 (i_mem _ _ _ I l)), (proj1 (i_mem _ _ _ I' l)), K; auto.
Qed.
(** The channel is closed once and the mutex is only released by its holder. *)
Theorem C39_no_panic : forall fresh ops c, steps fresh (init ops) c -> c_panic c = false.
Proof. intros fresh ops c S. destruct (reach_inv _ _ _ S) as (m & I). apply (i_panic _ _ _ I). Qed.
(** No reader waits for ever on a State that is done and not busy. *)
Theorem C39_wakes : forall fresh ops c, steps fresh (init ops) c -> c_lock c = None -> (newest c LDone = 1 <-> c_chan c <> None).
Proof.
  intros fresh ops c S L. destruct (reach_inv _ _ _ S) as (m & I). pose proof (i_lock _ _ _ I) as G. rewrite L in G. destruct G as (G & _).
  rewrite (proj1 (i_mem _ _ _ I LDone)). cbn. unfold closed in G. destruct G as [(-> & E)|([-> _] & E)]; destruct (c_chan c); try discriminate; split; auto; try discriminate; congruence.
Qed.

(** ** The Go memory model and the unsynchronised reads *)
Lemma steps_cons fresh a b c : step fresh a b -> steps fresh b c -> steps fresh a c.
Proof. intros H. apply steps_trans. apply (steps_step _ _ a); [apply steps_refl|exact H]. Qed.
Ltac rd i n := eapply steps_cons; [eapply (step_read _ _ i _ _ n); [reflexivity|cbn; lia|reflexivity|first [discriminate|reflexivity]]|cbn].
Ltac go i := eapply steps_cons; [first
  [ eapply (step_lock _ _ i); [reflexivity|reflexivity]
  | eapply (step_unlock _ _ i); reflexivity
  | eapply (step_write _ _ i); reflexivity
  | eapply (step_close _ _ i); reflexivity
  | eapply (step_recv _ _ i); [reflexivity|reflexivity]
  | eapply (step_emit _ _ i); reflexivity ]|cbn].

(** One goroutine runs the timeout, another one calls a reader. *)
Definition two_ops (a b : op) : nat -> list op := fun i => match i with O => [a] | 1%nat => [b] | _ => [] end.

(** WaitForError reads s.done without the mutex: the State has aborted, and WaitForError returns nil. *)
Theorem C39_wait_refuted : forall e r, exists c res, steps false (init (two_ops (OTimeout e r) OWait)) c /\ c_results c = [res] /\ c_lock c = None /\ newest c LDone = 1 /\ newest c LErr = Zpos e /\ r_path res = PFast /\ r_err res = 0 /\ ~ right_result c res.
Proof.
  intros e r. eexists _, {| r_path := PFast; r_err := 0; r_round := 0; r_pub := 0; r_sec := 0 |}. split.
  { go 0%nat. rd 0%nat 0%nat. rd 0%nat 0%nat. go 0%nat. go 0%nat. rd 0%nat 0%nat. go 0%nat. go 0%nat. go 0%nat.
    rd 1%nat 1%nat. rd 1%nat 0%nat. rd 1%nat 0%nat. rd 1%nat 0%nat. rd 1%nat 0%nat. go 1%nat. apply steps_refl. }
  repeat split. intros (_ & H & _). discriminate H.
Qed.
(** IsFinished, then Err and the output: true, nil and an empty output after a protocol that succeeded. *)
Theorem C39_is_finished_refuted : exists c res, steps false (init (two_ops OFinish OIsFinished)) c /\ c_results c = [res] /\ c_lock c = None /\ newest c LDone = 1 /\ newest c LErr = 0 /\ newest c LPub = 1 /\ r_path res = PIsFinished /\ r_err res = 0 /\ r_pub res = 0 /\ ~ right_result c res.
Proof.
  eexists _, {| r_path := PIsFinished; r_err := 0; r_round := 0; r_pub := 0; r_sec := 0 |}. split.
  { go 0%nat. rd 0%nat 0%nat. go 0%nat. go 0%nat. rd 0%nat 0%nat. go 0%nat. go 0%nat. go 0%nat.
    rd 1%nat 1%nat. rd 1%nat 0%nat. rd 1%nat 0%nat. rd 1%nat 0%nat. rd 1%nat 0%nat. go 1%nat. apply steps_refl. }
  repeat split. intros (_ & _ & _ & H & _). discriminate H.
Qed.

(** ** Concrete cases: the good runs exist. *)
Example C39_example : exists c, steps true (init (two_ops (OTimeout 7 2) OWait)) c /\ c_results c = [{| r_path := PFast; r_err := 7; r_round := 2; r_pub := 0; r_sec := 0 |}] /\ c_chan c = None.
Proof.
  eexists. split.
  { go 0%nat. rd 0%nat 0%nat. rd 0%nat 0%nat. go 0%nat. go 0%nat. rd 0%nat 0%nat. go 0%nat.
    rd 1%nat 1%nat. rd 1%nat 1%nat. rd 1%nat 1%nat. rd 1%nat 1%nat. rd 1%nat 0%nat. rd 1%nat 0%nat. go 1%nat. apply steps_refl. }
  split; reflexivity.
Qed.
Example C39_done_example : exists c, steps false (init (two_ops OFinish OWait)) c /\ c_results c = [{| r_path := PSlow; r_err := 0; r_round := 0; r_pub := 1; r_sec := 1 |}].
Proof.
  eexists. split.
  { rd 1%nat 0%nat. go 0%nat. rd 0%nat 0%nat. go 0%nat. go 0%nat. rd 0%nat 0%nat. go 0%nat. go 0%nat. go 0%nat. go 1%nat.
    rd 1%nat 0%nat. rd 1%nat 0%nat. rd 1%nat 1%nat. rd 1%nat 1%nat. go 1%nat. apply steps_refl. }
  reflexivity.
Qed.

Print Assumptions C39_interleavings.
Print Assumptions C39_done.
Print Assumptions C39_final.
Print Assumptions C39_no_panic.
Print Assumptions C39_wakes.
Print Assumptions C39_wait_refuted.
Print Assumptions C39_is_finished_refuted.
