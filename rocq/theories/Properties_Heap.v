(** C34: are the messages returned by ProcessAll, and those given to HandleMessage, left unchanged by later calls?
    Not always: the Commitments of a returned KeyGen1 message are the object into which its sender sums the commitments,
    and received messages are overwritten.  These theorems say exactly when content is stable. *)
From Coq Require Import ZArith Lia List Bool String.
From stdpp Require Import base gmap list.
From Verif Require Import ZField Primes Bytes Scalar Go Group ToyGroup Party Poly Zk Eddsa Messages State Keygen ToyRuns Heap HeapFacts HeapSim HeapFrame HeapWorld.
Import ListNotations.
Local Open Scope Z_scope.

Section PropertiesHeap.
  Context `{Gr : group_ops} `{Hf : hash_fn}.

  (** States made by NewKeygenState, numbered; only finitely many of them need to be used. *)
  Record params := mkParams { p_rng : rng; p_now : Z; p_timeout : Z; p_self : ID; p_ids : list ID; p_t : Z }.
  Definition new_world (p : nat -> params) (w : world) : Prop :=
    w_heap w = mkHeap [] [] /\ forall i, h_New (p_rng (p i)) (p_now (p i)) (p_timeout (p i)) (p_self (p i)) (p_ids (p i)) (p_t (p i)) = Ret (w_state w i).
  Definition new_value (p : params) : outcome (State kround) := NewKeygenState (p_rng p) (p_now p) (p_timeout p) (p_self p) (p_ids p) (p_t p).
  (** A world after any calls on its States; messages given by pointer exist, nothing else is asked of them. *)
  Definition w_reach (w : world) : Prop := exists p w0 es out, new_world p w0 /\ valid_run w0 es /\ w_run w0 es = Ret (w, out).

  Lemma new_wsim p w : new_world p w -> exists pw, (forall i, new_value (p i) = Ret (pw i)) /\ wsim w pw.
  Proof.
    intros [EH EN]. exists (fun i => abs_state (w_heap w) (w_state w i)).
    assert (H : forall i, new_value (p i) = Ret (abs_state (w_heap w) (w_state w i)) /\ swf (w_heap w) (w_state w i) /\ hs_done (w_state w i) = false /\ (forall q, ~ reach_e (w_state w i) q) /\ (forall q, ~ reach_s (w_state w i) q)).
    { intros i. pose proof (h_New_ok (w_heap w) (p_rng (p i)) (p_now (p i)) (p_timeout (p i)) (p_self (p i)) (p_ids (p i)) (p_t (p i))) as X. rewrite EN in X. exact X. }
    split; [apply H|]. constructor.
    - apply H.
    - intros i. unfold same_state. destruct (H i) as (_ & _ & -> & _). reflexivity.
    - intros i j q _ X. destruct (H i) as (_ & _ & _ & N & _). destruct (N q X).
    - intros i j q _ X. destruct (H i) as (_ & _ & _ & _ & N). destruct (N q X).
  Qed.
  Lemma reach_valid w : w_reach w -> wvalid w.
  Proof.
    intros (p & w0 & es & out & N & V & E). destruct (new_wsim p w0 N) as (pw & _ & S0).
    assert (W0 : wvalid w0) by (intros i; apply swf_range, (ws_wf _ _ S0)). clear N S0. revert w0 out V E W0.
    induction es as [|[i e] es IH]; intros w0 out V E W0; cbn [w_run] in E; [injection E as <- <-; exact W0|].
    destruct V as [VE VR]. destruct (w_step w0 i e) as [[w1 ms]|x|x] eqn:E1; cbn [obind fst snd] in E; [|discriminate|discriminate].
    destruct (w_run w1 es) as [[w2 out2]|x|x] eqn:E2; cbn [obind fst snd] in E; [|discriminate|discriminate]. injection E as <- <-.
    apply (IH w1 out2); auto. exact (w_step_valid _ _ _ _ _ W0 VE E1).
  Qed.
  Lemma out_content : forall es w w' out i m c, w_run w es = Ret (w', out) -> In (i, m, c) out -> exists h, c = deref h m.
  Proof.
    induction es as [|[j e] es IH]; intros w w' out i m c E Hin; cbn [w_run] in E; [injection E as <- <-; destruct Hin|].
    destruct (w_step w j e) as [[w1 ms]|x|x]; cbn [obind fst snd] in E; [|discriminate|discriminate].
    destruct (w_run w1 es) as [[w2 out2]|x|x] eqn:E2; cbn [obind fst snd] in E; [|discriminate|discriminate]. injection E as <- <-.
    apply in_app_iff in Hin as [Hin|Hin]; [|exact (IH _ _ _ _ _ _ E2 Hin)]. apply in_map_iff in Hin as (m' & [= <- <- <-] & _). eauto.
  Qed.

  (** When every message a State gets was unmarshalled for it (as over a network), sharing is invisible to the protocol:
      all States behave as in the model with values (Keygen.v, State.v), and return messages with the same contents. *)
  Theorem C34_values p w0 es : new_world p w0 ->
    match w_run w0 (map on es) with
    | Ret (w, out) => forall i, exists ps0 ps, new_value (p i) = Ret ps0 /\ run keygen_round ps0 (mine i es) = Ret (ps, said i out) /\
        hs_done (w_state w i) = st_done ps /\ hs_err (w_state w i) = st_err ps /\ hs_roundNumber (w_state w i) = st_roundNumber ps /\
        kr_out (hk_rest (hs_round (w_state w i))) = kg_output ps /\
        (* a returned KeyGen1 message has, at the end, its sender's CommitmentsSum as content *)
        (forall m c b, In (i, m, c) out -> m_KeyGen1 c = Some b ->
           exists sum, kr_CommitmentsSum (st_round ps) = Some sum /\ m_KeyGen1 (deref (w_heap w) m) = Some (mkKeyGen1 (k1_Proof b) sum))
    | Fail x => exists i n ps0, new_value (p i) = Ret ps0 /\ run keygen_round ps0 (mine i (firstn n es)) = Fail x
    | Panics x => exists i n ps0, new_value (p i) = Ret ps0 /\ run keygen_round ps0 (mine i (firstn n es)) = Panics x
    end.
  Proof.
    intros N. destruct (new_wsim p w0 N) as (pw & NV & S0). pose proof (w_run_sim es w0 pw S0) as R.
    destruct (w_run w0 (map on es)) as [[w out]|x|x] eqn:E.
    - destruct R as (pw' & S1 & R). intros i. exists (pw i), (pw' i). refine (conj (NV i) (conj (R i) _)).
      pose proof (same_strip _ _ _ (ws_same _ _ S1 i)) as ST. unfold strip_eq in ST. unfold kg_output.
      pose proof (f_equal st_done ST) as F1. pose proof (f_equal st_err ST) as F2. pose proof (f_equal st_roundNumber ST) as F3. pose proof (f_equal st_round ST) as F4. cbn in F1, F2, F3, F4.
      refine (conj F1 (conj F2 (conj F3 (conj _ _)))); [rewrite <- F4; reflexivity|]. intros m c b Hin Hb.
      destruct (out_content _ _ _ _ _ _ _ E Hin) as (h & ->). cbn in Hb. destruct (hm_K1 m) as [[pr q]|] eqn:K; [|discriminate]. cbn in Hb. injection Hb as <-.
      exists (rd_exp (w_heap w) q). rewrite <- F4. cbn. rewrite (returned_csum _ _ _ _ _ _ _ _ _ E Hin K), K. split; reflexivity.
    - destruct R as (i & n & R). exists i, n, (pw i). split; [apply NV|exact R].
    - destruct R as (i & n & R). exists i, n, (pw i). split; [apply NV|exact R].
  Qed.

  (** A message object keeps its content through any calls on any States, if the States that can reach it
      ([J]) only get HandleMessage calls and timer expiries, and it is given by pointer only to those. *)
  Theorem C34_unchanged w es w' out (J : nat -> bool) m : w_reach w -> valid_run w es -> msg_in (w_heap w) m ->
    (forall i, J i = false -> ~ reaches (w_state w i) m) ->
    (forall i e, In (i, e) es -> J i = true -> passive e) ->
    (forall i now m', In (i, HHandle now m') es -> J i = false -> ~ share_ptr m m') ->
    w_run w es = Ret (w', out) -> deref (w_heap w') m = deref (w_heap w) m.
  Proof. intros WR. exact (fun V => unchanged J m es w w' out (reach_valid w WR) V). Qed.

  (** A returned message: no State other than its sender can reach it. *)
  Lemma returned_reach w i sched w1 ms m : wvalid w -> w_step w i (HProcess sched) = Ret (w1, ms) -> In m ms ->
    wvalid w1 /\ msg_in (w_heap w1) m /\ forall j, j <> i \/ m_KeyGen1 (deref (w_heap w1) m) = None -> ~ reaches (w_state w1 j) m.
  Proof.
    intros V E Hm. assert (VE : forall now m', @HProcess Gr sched = HHandle now m' -> msg_in (w_heap w) m') by discriminate.
    pose proof (w_step_valid _ _ _ _ _ V VE E) as V1. destruct (w_step_frame _ _ _ _ _ E) as [F N]. destruct (cf_msgs _ _ _ _ _ _ F m Hm) as (M & K1 & K2).
    refine (conj V1 (conj M _)). intros j HJ [(pr & q & K & X)|(q & K & X)].
    - destruct HJ as [D|HN]; [|cbn in HN; rewrite K in HN; discriminate]. rewrite N in X by exact D. apply (V j) in X. destruct (K1 _ _ K). lia.
    - assert (Y : reach_s (w_state w j) q).
      { destruct (Nat.eq_dec j i) as [->|D]; [|now rewrite N in X by exact D]. destruct (cf_s _ _ _ _ _ _ F q X) as [Y|(g & [] & _)]. exact Y. }
      apply (V j) in Y. specialize (K2 _ K). lia.
  Qed.

  (** KeyGen2 messages: what ProcessAll returned never changes, unless the object itself is given to HandleMessage. *)
  Theorem C34_keygen2 w i sched w1 ms m es w2 out : w_reach w -> w_step w i (HProcess sched) = Ret (w1, ms) -> In m ms ->
    m_KeyGen1 (deref (w_heap w1) m) = None -> valid_run w1 es -> (forall j now m', In (j, HHandle now m') es -> ~ share_ptr m m') ->
    w_run w1 es = Ret (w2, out) -> deref (w_heap w2) m = deref (w_heap w1) m.
  Proof.
    intros WR E Hm K VR SH E2. destruct (returned_reach _ _ _ _ _ _ (reach_valid _ WR) E Hm) as (V1 & M & R).
    refine (unchanged (fun _ => false) m es w1 w2 out V1 VR M (fun j _ => R j (or_intror K)) _ _ E2); [discriminate|].
    intros j now m' Hin _. exact (SH j now m' Hin).
  Qed.
  (** KeyGen1 messages: until the next ProcessAll or timeout of the sender. *)
  Theorem C34_keygen1 w i sched w1 ms m es w2 out : w_reach w -> w_step w i (HProcess sched) = Ret (w1, ms) -> In m ms ->
    valid_run w1 es -> (forall e, In (i, e) es -> passive e) -> (forall j now m', In (j, HHandle now m') es -> j <> i -> ~ share_ptr m m') ->
    w_run w1 es = Ret (w2, out) -> deref (w_heap w2) m = deref (w_heap w1) m.
  Proof.
    intros WR E Hm VR PA SH E2. destruct (returned_reach _ _ _ _ _ _ (reach_valid _ WR) E Hm) as (V1 & M & R).
    apply (unchanged (fun j => Nat.eqb j i) m es w1 w2 out); auto.
    - intros j D. apply R. left. now apply Nat.eqb_neq.
    - intros j e Hin D. apply Nat.eqb_eq in D as ->. now apply PA.
    - intros j now m' Hin D. apply (SH j now m' Hin). now apply Nat.eqb_neq.
  Qed.
  (** A message given to HandleMessage: until that State's next ProcessAll or timeout. *)
  Theorem C34_received w i now m es w' out : w_reach w -> msg_in (w_heap w) m -> (forall j, j <> i -> ~ reaches (w_state w j) m) ->
    valid_run w ((i, HHandle now m) :: es) -> (forall e, In (i, e) es -> passive e) -> (forall j n m', In (j, HHandle n m') es -> j <> i -> ~ share_ptr m m') ->
    w_run w ((i, HHandle now m) :: es) = Ret (w', out) -> deref (w_heap w') m = deref (w_heap w) m.
  Proof.
    intros WR M R VR PA SH E. apply (unchanged (fun j => Nat.eqb j i) m _ w w' out (reach_valid _ WR) VR M); auto.
    - intros j D. apply R. now apply Nat.eqb_neq.
    - intros j e [[= <- <-]|Hin] D; [exact I|]. apply Nat.eqb_eq in D as ->. now apply PA.
    - intros j n m' [[= <- <- <-]|Hin] D; [now rewrite Nat.eqb_refl in D|]. apply (SH j n m' Hin). now apply Nat.eqb_neq.
  Qed.
  Lemma valid_deliver : forall es w, valid_run w (map on es).
  Proof.
    induction es as [|[i e] es IH]; intros w; cbn [map valid_run]; [exact I|]. unfold on at 1. cbn [fst snd]. split; [destruct e; discriminate|].
    destruct (w_step w i (lift e)) as [[w1 ms]|x|x]; [apply IH|exact I|exact I].
  Qed.
  Lemma deliver_no_handle es i now m : ~ In (i, HHandle now m) (map on es).
  Proof. intros H. apply in_map_iff in H as ([j e] & [= <- E] & _). destruct e; discriminate. Qed.
  (** Over a network, a returned message without commitments keeps its content for ever. *)
  Theorem C34_network p w0 es w out i m c : new_world p w0 -> w_run w0 (map on es) = Ret (w, out) -> In (i, m, c) out -> m_KeyGen1 c = None -> deref (w_heap w) m = c.
  Proof.
    intros N. destruct (new_wsim p w0 N) as (pw & _ & S0). assert (W0 : wvalid w0) by (intros j; apply swf_range, (ws_wf _ _ S0)). clear N S0 pw p.
    revert w0 out W0. induction es as [|[j e] es IH]; intros w0 out W0 E Hin K; cbn [map w_run] in E; [injection E as <- <-; destruct Hin|].
    unfold on at 1 in E. cbn [fst snd] in E.
    destruct (w_step w0 j (lift e)) as [[w1 ms]|x|x] eqn:E1; cbn [obind fst snd] in E; [|discriminate|discriminate].
    destruct (w_run w1 (map on es)) as [[w2 out2]|x|x] eqn:E2; cbn [obind fst snd] in E; [|discriminate|discriminate]. injection E as <- <-.
    assert (VE : forall now m', lift e = HHandle now m' -> msg_in (w_heap w0) m') by (destruct e; discriminate).
    apply in_app_iff in Hin as [Hin|Hin]; [|apply (IH w1 out2); auto; exact (w_step_valid _ _ _ _ _ W0 VE E1)].
    apply in_map_iff in Hin as (m' & [= -> -> <-] & Hm).
    assert (exists sched, lift e = HProcess sched) as (sched & EP).
    { destruct e as [now v|o o'|now|]; cbn [lift] in E1 |- *; [|exists o; reflexivity| |]; exfalso; unfold w_step in E1; cbn [h_step] in E1.
      - destruct (alloc (w_heap w0) v). cbn [obind] in E1. injection E1 as _ <-. destruct Hm.
      - cbn [obind] in E1. injection E1 as _ <-. destruct Hm.
      - destruct (h_timerCallback (w_heap w0) (w_state w0 i)) as [[h' s']|x|x]; cbn [obind] in E1; [injection E1 as _ <-; destruct Hm|discriminate|discriminate]. }
    rewrite EP in E1. destruct (returned_reach _ _ _ _ _ _ W0 E1 Hm) as (V1 & M & R).
    refine (unchanged (fun _ => false) m (map on es) w1 w2 out2 V1 (valid_deliver es w1) M (fun j _ => R j (or_intror K)) _ _ E2); [discriminate|].
    intros j now m' Hin. destruct (deliver_no_handle _ _ _ _ Hin).
  Qed.
End PropertiesHeap.

(** ** Two parties in the toy group *)
Definition th_new (i : Z) : @hstate toy_group := match @h_New toy_group (toy_rng i) 0 0 i [1; 2] 1 with Ret s => s | _ => mkHs [] ∅ [] (newTimer 0 0) 0 (mkHk (mkKround 0 0 [] 0 f0 None None ∅ false (mkKOutput None None) (toy_rng i)) None ∅) 0 false None end.
Definition th_world : @world toy_group := mkWorld (mkHeap [] []) (fun j => th_new (if Nat.eqb j 0 then 1 else 2)).
Definition th_params (j : nat) : params := let i := if Nat.eqb j 0 then 1 else 2 in mkParams (toy_rng i) 0 0 i [1; 2] 1.
Lemma th_world_new : @new_world toy_group th_params th_world.
Proof.
  split; [reflexivity|]. assert (H : forall i, (i = 1 \/ i = 2) -> @h_New toy_group (toy_rng i) 0 0 i [1; 2] 1 = Ret (th_new i)).
  { intros i Hi. assert (B : match @h_New toy_group (toy_rng i) 0 0 i [1; 2] 1 with Ret _ => true | _ => false end = true) by (destruct Hi as [->| ->]; vm_compute; reflexivity).
    unfold th_new. destruct (h_New _ _ _ _ _ _); [reflexivity|discriminate B|discriminate B]. }
  intros i. unfold th_params. cbn [th_world w_state p_rng p_now p_timeout p_self p_ids p_t]. destruct (Nat.eqb i 0); apply H; [left|right]; reflexivity.
Qed.
Definition th_run (es : list (nat * @hevent toy_group)) := @w_run toy_group toy_hash th_world es.
Definition th_msgs (es : list (nat * @hevent toy_group)) : list (@hmsg toy_group) := match th_run es with Ret (_, out) => map (fun p => snd (fst p)) out | _ => [] end.
Definition hp : @hevent toy_group := @HProcess toy_group [].
Definition hg (m : @hmsg toy_group) : @hevent toy_group := HHandle 0 m.
Definition th_view (es : list (nat * @hevent toy_group)) : list (bool * Z * option (Z * string)) :=
  match th_run es with Ret (w, out) => map (fun i => (hs_done (w_state w i), hs_roundNumber (w_state w i), option_map (fun e => (pe_PartyID e, pe_text e)) (hs_err (w_state w i)))) [0%nat; 1%nat] | _ => [] end.
Definition both (f : @hmsg toy_group -> @hevent toy_group) (l : list (@hmsg toy_group)) : list (nat * @hevent toy_group) :=
  concat (map (fun m => [(0%nat, f m); (1%nat, f m)]) l) ++ [(0%nat, hp); (1%nat, hp)].
(** Both parties start; then each message object is given to both States, as a pointer, or marshalled and unmarshalled. *)
Definition r0 : list (nat * @hevent toy_group) := [(0%nat, hp); (1%nat, hp)].
Definition r1 := r0 ++ both hg (th_msgs r0).
Definition r2 := r1 ++ both hg (skipn 2 (th_msgs r1)).
(** The returned messages with their contents when returned. *)
Definition th_out (es : list (nat * @hevent toy_group)) : list (@hmsg toy_group * @Message toy_group) := match th_run es with Ret (_, out) => map (fun p => (snd (fst p), snd p)) out | _ => [] end.
Definition both_e (l : list (@Message toy_group)) : list (nat * @event toy_group) :=
  concat (map (fun m => [(0%nat, EHandle 0 m); (1%nat, EHandle 0 m)]) l) ++ [(0%nat, prc); (1%nat, prc)].
Definition v0 : list (nat * @event toy_group) := [(0%nat, prc); (1%nat, prc)].
Definition v1 := v0 ++ both_e (map snd (th_out (map on v0))).
Definition v2 := v1 ++ both_e (skipn 2 (map snd (th_out (map on v1)))).
(** The numbers in a KeyGen1 or KeyGen2 message. *)
Definition nums (m : @Message toy_group) : list Z :=
  match m_KeyGen1 m, m_KeyGen2 m with Some b, _ => map (fun x : Fq => fz x) (k1_Commitments b) | None, Some b => [fz (k2_Share b)] | None, None => [] end.
Definition th_now (es : list (nat * @hevent toy_group)) (m : @hmsg toy_group) : list Z := match th_run es with Ret (w, _) => nums (deref (w_heap w) m) | _ => [] end.

Lemma nth_case {A B} (l : list A) n (f : A -> B) v : option_map f (nth_error l n) = Some v -> exists x, In x l /\ f x = v.
Proof. intros H. destruct (nth_error l n) as [x|] eqn:E; [|discriminate]. exists x. split; [exact (nth_error_In _ _ E)|]. cbn in H. congruence. Qed.

(** Key generation over a network, two honest parties: the KeyGen1 message that the first party's ProcessAll returned changes with
    the party's second call (to the sum of both commitments) and with the third (to zeros).  Its proof no longer belongs to it. *)
Theorem C34_keygen1_refuted : exists (p : nat -> params) m c,
  @new_world toy_group p th_world /\ In (m, c) (th_out (map on v0)) /\ nums c = [101; 102] /\ th_now (map on v1) m = [302; 304] /\ th_now (map on v2) m = [0; 0] /\
  th_view (map on v2) = [(true, 2, None); (true, 2, None)].
Proof.
  assert (X : option_map (fun x => (nums (snd x), th_now (map on v1) (fst x), th_now (map on v2) (fst x))) (nth_error (th_out (map on v0)) 0) = Some ([101; 102], [302; 304], [0; 0])) by (vm_compute; reflexivity).
  apply nth_case in X as ([m c] & X1 & X2). cbn [fst snd] in X2. apply pair_equal_spec in X2 as [X2 X4]. apply pair_equal_spec in X2 as [X2 X3]. exists th_params, m, c.
  refine (conj th_world_new (conj X1 (conj X2 (conj X3 (conj X4 _))))). vm_compute. reflexivity.
Qed.

(** The KeyGen2 messages of the same execution do not change, and the results are those of the value model. *)
Example C34_example : map (fun x => (nums (snd x), th_now (map on v2) (fst x))) (skipn 2 (th_out (map on v1))) = [([305], [305]); ([403], [403])] /\
  @new_world toy_group th_params th_world.
Proof. split; [vm_compute; reflexivity|exact th_world_new]. Qed.

(** A message object given to HandleMessage is overwritten by the next ProcessAll: the share is set to zero. *)
Theorem C34_received_refuted : exists (m : @hmsg toy_group), In m (th_msgs (map on v1)) /\
  th_now (map on v1 ++ [(0%nat, hg m)]) m = [403] /\ th_now (map on v1 ++ [(0%nat, hg m); (0%nat, hp)]) m = [0] /\
  nth_error (th_view (map on v1 ++ [(0%nat, hg m); (0%nat, hp)])) 0 = Some (true, 2, None).
Proof.
  assert (X : option_map (fun m => (th_now (map on v1 ++ [(0%nat, hg m)]) m, th_now (map on v1 ++ [(0%nat, hg m); (0%nat, hp)]) m, nth_error (th_view (map on v1 ++ [(0%nat, hg m); (0%nat, hp)])) 0)) (nth_error (th_msgs (map on v1)) 3)
    = Some ([403], [0], Some (true, 2, None))) by (vm_compute; reflexivity).
  apply nth_case in X as (m & X1 & X2). apply pair_equal_spec in X2 as [X2 X4]. apply pair_equal_spec in X2 as [X2 X3]. exists m. exact (conj X1 (conj X2 (conj X3 X4))).
Qed.

(** Two honest parties that hand each other the message objects instead of their encodings both abort, each naming the other. *)
Theorem C34_in_process_refuted :
  th_view r2 = [(true, 2, Some (2, "VSS failed to validate"%string)); (true, 2, Some (1, "VSS failed to validate"%string))] /\
  th_view (map on v2) = [(true, 2, None); (true, 2, None)].
Proof. split; vm_compute; reflexivity. Qed.
Print Assumptions C34_values.
Print Assumptions C34_unchanged.
Print Assumptions C34_keygen1.
Print Assumptions C34_keygen2.
Print Assumptions C34_network.
Print Assumptions C34_received.
Print Assumptions C34_keygen1_refuted.
Print Assumptions C34_received_refuted.
Print Assumptions C34_in_process_refuted.
