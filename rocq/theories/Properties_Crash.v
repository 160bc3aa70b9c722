(** C17, C19: exactly which reachable States crash, and on which call.  For a signing State only ProcessAll can crash, and it does
    (with some order of the map iteration) if and only if it has everybody's message for the round and one of them lacks the body of
    its type.  A key generation State crashes in ProcessAll under the same condition or on an empty commitment vector, and in the
    timer's callback if and only if the first ProcessAll has not been made yet. *)
From Coq Require Import ZArith Lia List Bool String Permutation Sorted.
From Coq.Strings Require Import Byte.
From stdpp Require Import base gmap list.
From Verif Require Import ZField Primes Bytes Scalar Go Group ToyGroup Party Poly PolyFacts Zk Eddsa Messages State StateFacts Spec_State
  Keygen Sign RoundFacts Lift Spec_Poly PolyAlg Spec_Group Spec_Wire Spec_Sign Spec_SignRun Spec_Keygen SignFacts SignRun KeygenFacts KeygenRun
  Properties_State Properties_StateRuns Properties_Algebra Properties_Codec Properties_Sign Properties_Keygen ToyRuns.
Import ListNotations.
Local Open Scope Z_scope.

(** Everybody else's message of the round is there. *)
Definition all_there {R} `{Gr : group_ops} (I : RoundI R) (s : State R) : Prop :=
  forall i, In i (r_ids I (st_round s)) -> i <> r_self I (st_round s) -> is_Some (st_received s !! i).
(** Some order of the iterations over maps makes ProcessAll crash. *)
Definition may_crash {R} `{Gr : group_ops} (I : RoundI R) (s : State R) : Prop :=
  exists sched sched' w, ProcessAll I sched sched' s = Panics w.

Section Common.
  Context `{Gr : group_ops}.
  Lemma full_iff (ids : list Z) self (rcv : gmap Z (option Message)) : List.NoDup ids -> In self ids -> Z.of_nat (List.length ids) < 65536 ->
    (forall k v, rcv !! k = Some v -> In k (others_of self ids)) ->
    Z.of_nat (size rcv) = u16 (N_ids ids - 1) <-> (forall i, In i ids -> i <> self -> is_Some (rcv !! i)).
  Proof.
    intros ND Hi Hl Hk. pose proof (others_of_length self ids ND Hi) as Ho.
    assert (u16 (N_ids ids - 1) = Z.of_nat (List.length (others_of self ids))) as ->.
    { unfold N_ids, u16. destruct ids; [contradiction|]. rewrite (Z.mod_small (Z.of_nat _)) by lia. rewrite Z.mod_small by (cbn [List.length] in *; lia). cbn [List.length] in *. lia. }
    split.
    - intros E i Hii Hne. assert (Permutation (map_keys [] rcv) (others_of self ids)) as P.
      { apply map_full; auto; [now apply others_of_NoDup|lia]. }
      assert (In i (map_keys [] rcv)) as Hin. { apply (Permutation_in _ (Permutation_sym P)). now apply others_of_In. }
      apply map_keys_In in Hin as [v Hv]. eauto.
    - intros H. assert (Permutation (map_keys [] rcv) (others_of self ids)) as P.
      { apply Permutation.NoDup_Permutation; [apply map_keys_NoDup|now apply others_of_NoDup|]. intros i. rewrite map_keys_In. split.
        - intros [v Hv]. eauto.
        - intros Hin. apply others_of_In in Hin as [A B]. destruct (H i A B) as [v Hv]. eauto. }
      apply Permutation_length in P. rewrite map_keys_length in P. lia.
  Qed.
  (** An iteration order that begins with a given key. *)
  Lemma order_from (rcv : gmap Z (option Message)) k v : rcv !! k = Some v -> exists sched tl, map_keys sched rcv = k :: tl.
  Proof.
    intros Hk. assert (In k (map_to_list rcv).*1) as Hin. { apply in_map_iff. exists (k, v). split; auto. apply elem_of_list_In, elem_of_map_to_list. exact Hk. }
    apply in_split in Hin as (l1 & l2 & E). exists (k :: l1 ++ l2), (l1 ++ l2). unfold map_keys. rewrite bool_decide_eq_true_2; auto.
    rewrite E. apply Permutation_middle.
  Qed.
  Lemma first_crashes {R} (I : RoundI R) s k v w : st_done s = false -> Z.of_nat (size (st_received s)) = u16 (N_ids (r_ids I (st_round s)) - 1) ->
    st_received s !! k = Some v -> r_process I (st_round s) v = RPanic w -> may_crash I s.
  Proof.
    intros D F Hk Hp. destruct (order_from _ k v Hk) as (sched & tl & E). exists sched, [], w. unfold ProcessAll. rewrite D, E.
    rewrite (proj2 (Z.eqb_eq _ _) F). cbn [negb process_loop]. rewrite Hk. cbn [default]. unfold id. now rewrite Hp.
  Qed.
End Common.

Section SignCrash.
  Context `{L : group_laws} `{Hf : hash_fn} (HH : hash_ok Hf).
  (** A stored message that has its round's type but not the body. *)
  Definition sign_bodyless (s : State sround) : Prop := exists k m, st_received s !! k = Some (Some m) /\
    ((m_Type m = MTSign1 /\ m_Sign1 m = None) \/ (m_Type m = MTSign2 /\ m_Sign2 m = None)).

  Theorem C19_sign_exact : forall rg now t ids secret shares message s0 es s out,
    List.NoDup ids -> Forall is_u16 ids -> NewSignState rg now t ids secret shares message = Ret s0 -> run sign_round s0 es = Ret (s, out) ->
    (may_crash sign_round s <-> st_done s = false /\ all_there sign_round s /\ sign_bodyless s).
  Proof.
    intros rg now t ids secret shares message s0 es s out ND HU NEW RUN. destruct (NewSignState_round _ _ _ _ _ _ _ _ NEW) as (r0 & E1 & ->).
    pose proof (sign_run HH (given es) rg ids secret shares message r0 E1 ND HU now t es s out (given_events es) RUN) as HL.
    pose proof (li_self _ _ _ _ _ _ _ HL) as Hs. pose proof (li_ids _ _ _ _ _ _ _ HL) as Hi.
    rewrite (r0_self (given es) rg ids secret shares message r0 E1) in Hs. rewrite (r0_ids (given es) rg ids secret shares message r0 E1) in Hi.
    pose proof (self_in (given es) rg ids secret shares message r0 E1) as Hself.
    pose proof (ids_len (given es) rg ids secret shares message r0 E1 ND HU) as Hlen.
    assert (forall k v, st_received s !! k = Some v -> In k (others_of (sh_ID secret) ids)) as Hkey.
    { intros k v Hk. destruct (inv_received sign_round s (li_inv _ _ _ _ _ _ _ HL) k v Hk) as (A & B & _). apply others_of_In. rewrite Hi in A. rewrite Hs in B. auto. }
    pose proof (full_iff ids (sh_ID secret) (st_received s) ND Hself ltac:(lia) Hkey) as HF.
    unfold all_there. rewrite Hs, Hi, <- HF. split.
    - intros (sched & sched' & w & E). pose proof E as E'. unfold ProcessAll in E. destruct (st_done s) eqn:D; [discriminate|]. split; auto. rewrite Hi in E.
      destruct (Z.eqb_spec (Z.of_nat (size (st_received s))) (u16 (N_ids ids - 1))) as [HS|HS]; cbn [negb] in E; [|discriminate]. split; auto.
      (* no message without body: no crash *)
      match goal with |- ?P => assert (P \/ ~ P) as [HN|HN]; [|exact HN|exfalso] end.
      + (* decidable *)
        unfold sign_bodyless. clear.
        set (bad := fun m : Message => ((m_Type m =? MTSign1)%Z && match m_Sign1 m with None => true | _ => false end) || ((m_Type m =? MTSign2)%Z && match m_Sign2 m with None => true | _ => false end)).
        assert (forall m, bad m = true <-> (m_Type m = MTSign1 /\ m_Sign1 m = None) \/ (m_Type m = MTSign2 /\ m_Sign2 m = None)) as Hb.
        { intros m. unfold bad. rewrite orb_true_iff, !andb_true_iff, !Z.eqb_eq. destruct (m_Sign1 m), (m_Sign2 m); intuition congruence. }
        destruct (existsb (fun kv => match snd kv with Some m => bad m | None => false end) (map_to_list (st_received s))) eqn:Ex.
        * left. apply existsb_exists in Ex as ([k [m|]] & Hin & Hm); [|discriminate]. cbn in Hm. apply elem_of_list_In, elem_of_map_to_list in Hin. exists k, m. split; auto. now apply Hb.
        * right. intros (k & m & Hk & Hm). apply Hb in Hm. apply elem_of_map_to_list, elem_of_list_In in Hk.
          assert (existsb (fun kv => match snd kv with Some m => bad m | None => false end) (map_to_list (st_received s)) = true); [|congruence].
          apply existsb_exists. exists (k, Some m). auto.
      + destruct (safe_process sign_round (given es) r0 _ _ s out sched sched' HL) as (s' & o & E2).
        * intros n r o (_ & _ & H). destruct n as [|[|[|n]]]; cbn; try lia; contradiction.
        * intros n _ HP _ _ HR HFu. eapply (PS_safe HH (given es)); eauto; [|apply map_keys_perm].
          intros k m Hk. split; intros Ht Hb; apply HN; exists k, m; auto.
        * congruence.
    - intros (D & F & k & m & Hk & Hb). destruct (li_P _ _ _ _ _ _ _ HL D) as (n & En & Ea & HP).
      pose proof (linv_rcv_ok sign_round (given es) r0 _ _ s out n HL D En Ea) as HR. destruct (ro_val _ _ _ _ _ HR k m Hk) as (Hfr & _ & Ht & _).
      pose proof HP as (HB & Hno & HX). destruct n as [|[|[|n]]]; [| | |contradiction]; cbn [sign_round r_accepted nth_error] in Ht; apply Some_inj in Ht.
      + exfalso. destruct Hb as [[Hb _]|[Hb _]]; rewrite <- Ht in Hb; discriminate.
      + destruct Hb as [[_ Hb]|[Hb _]]; [|rewrite <- Ht in Hb; discriminate]. eapply first_crashes; eauto; [now rewrite Hi|].
        cbn [sign_round r_process]. rewrite Hno. unfold sg1_process. rewrite Hb. reflexivity.
      + destruct Hb as [[Hb _]|[_ Hb]]; [rewrite <- Ht in Hb; discriminate|]. assert (exists w, r_process sign_round (st_round s) (Some m) = RPanic w) as [w Ew].
        { cbn [sign_round r_process]. rewrite Hno. unfold sg2_process. rewrite Hb. destruct (sr_Parties (st_round s) !! m_From m); eauto. }
        eapply first_crashes; eauto. now rewrite Hi.
  Qed.
End SignCrash.

Section KeygenCrash.
  Context `{L : group_laws} `{Hf : hash_fn}.
  (** A stored message that has its round's type but not the body, or no commitment at all. *)
  Definition keygen_bodyless (s : State kround) : Prop := exists k m, st_received s !! k = Some (Some m) /\
    ((m_Type m = MTKeyGen1 /\ forall b, m_KeyGen1 m = Some b -> k1_Commitments b = []) \/ (m_Type m = MTKeyGen2 /\ m_KeyGen2 m = None)).

  Theorem C19_keygen_exact : forall rg now t self ids thr s0 es s out, valid_ids ids -> is_u16 thr ->
    NewKeygenState rg now t self ids thr = Ret s0 -> run keygen_round s0 es = Ret (s, out) ->
    (may_crash keygen_round s <-> st_done s = false /\ all_there keygen_round s /\ keygen_bodyless s).
  Proof.
    intros rg now t self ids thr s0 es s out V HT NEW RUN. destruct (NewKeygenState_round _ _ _ _ _ _ _ NEW) as (r0 & E1 & ->).
    pose proof (keygen_run (given es) rg self ids thr r0 E1 V HT now t es s out (given_events es) RUN) as HL.
    pose proof (li_self _ _ _ _ _ _ _ HL) as Hs. pose proof (li_ids _ _ _ _ _ _ _ HL) as Hi. cbn [keygen_round r_self r_ids] in Hs, Hi.
    rewrite (kr0_self (given es) rg self ids thr r0 E1 V HT) in Hs. rewrite (kr0_ids (given es) rg self ids thr r0 E1 V HT) in Hi.
    pose proof (kself_in (given es) rg self ids thr r0 E1 V HT) as Hself.
    pose proof (ids_len_lt ids V) as Hlen. pose proof V as [ND _].
    assert (forall k v, st_received s !! k = Some v -> In k (others_of self ids)) as Hkey.
    { intros k v Hk. destruct (inv_received keygen_round s (li_inv _ _ _ _ _ _ _ HL) k v Hk) as (A & B & _). cbn [keygen_round r_self r_ids] in A, B. apply others_of_In. rewrite Hi in A. rewrite Hs in B. auto. }
    pose proof (full_iff ids self (st_received s) ND Hself ltac:(lia) Hkey) as HF.
    unfold all_there. cbn [keygen_round r_self r_ids]. rewrite Hs, Hi, <- HF. split.
    - intros (sched & sched' & w & E). pose proof E as E'. unfold ProcessAll in E. cbn [keygen_round r_ids] in E. destruct (st_done s) eqn:D; [discriminate|]. split; auto. rewrite Hi in E.
      destruct (Z.eqb_spec (Z.of_nat (size (st_received s))) (u16 (N_ids ids - 1))) as [HS|HS]; cbn [negb] in E; [|discriminate]. split; auto.
      match goal with |- ?P => assert (P \/ ~ P) as [HN|HN]; [|exact HN|exfalso] end.
      + unfold keygen_bodyless. clear.
        set (bad := fun m : Message => ((m_Type m =? MTKeyGen1)%Z && match m_KeyGen1 m with None => true | Some b => match k1_Commitments b with [] => true | _ => false end end)
                    || ((m_Type m =? MTKeyGen2)%Z && match m_KeyGen2 m with None => true | _ => false end)).
        assert (forall m, bad m = true <-> (m_Type m = MTKeyGen1 /\ forall b, m_KeyGen1 m = Some b -> k1_Commitments b = []) \/ (m_Type m = MTKeyGen2 /\ m_KeyGen2 m = None)) as Hb.
        { intros m. unfold bad. rewrite orb_true_iff, !andb_true_iff, !Z.eqb_eq.
          assert (match m_KeyGen1 m with None => true | Some b => match k1_Commitments b with [] => true | _ => false end end = true <-> forall b, m_KeyGen1 m = Some b -> k1_Commitments b = []) as ->.
          { destruct (m_KeyGen1 m) as [b|]; [|intuition discriminate]. split.
            - intros H b' [= <-]. now destruct (k1_Commitments b).
            - intros H. now rewrite (H b eq_refl). }
          destruct (m_KeyGen2 m); intuition congruence. }
        destruct (existsb (fun kv => match snd kv with Some m => bad m | None => false end) (map_to_list (st_received s))) eqn:Ex.
        * left. apply existsb_exists in Ex as ([k [m|]] & Hin & Hm); [|discriminate]. cbn in Hm. apply elem_of_list_In, elem_of_map_to_list in Hin. exists k, m. split; auto. now apply Hb.
        * right. intros (k & m & Hk & Hm). apply Hb in Hm. apply elem_of_map_to_list, elem_of_list_In in Hk.
          assert (existsb (fun kv => match snd kv with Some m => bad m | None => false end) (map_to_list (st_received s)) = true); [|congruence].
          apply existsb_exists. exists (k, Some m). auto.
      + destruct (safe_process keygen_round (given es) r0 _ _ s out sched sched' HL) as (s' & o & E2).
        * intros n r o HP. eapply PK_types; eauto.
        * intros n _ HP _ _ HR HFu. eapply (PK_safe (given es)); eauto; [|apply map_keys_perm].
          intros k m Hk. split; intros Ht.
          -- destruct (m_KeyGen1 m) as [b|] eqn:Eb; [|exfalso; apply HN; exists k, m; split; auto; left; split; auto; congruence].
             exists b. split; auto. intros Hc. apply HN. exists k, m. split; auto. left. split; auto. intros b'. rewrite Eb. now intros [= <-].
          -- destruct (m_KeyGen2 m) as [b|] eqn:Eb; eauto. exfalso. apply HN. exists k, m. auto.
        * congruence.
    - intros (D & F & k & m & Hk & Hb). destruct (li_P _ _ _ _ _ _ _ HL D) as (n & En & Ea & HP).
      pose proof (linv_rcv_ok keygen_round (given es) r0 _ _ s out n HL D En Ea) as HR. destruct (ro_val _ _ _ _ _ HR k m Hk) as (Hfr & _ & Ht & _).
      pose proof HP as (HB & Hno & HX). destruct n as [|[|[|n]]]; [| | |contradiction]; cbn [keygen_round r_accepted nth_error] in Ht; apply Some_inj in Ht.
      + exfalso. destruct Hb as [[Hb _]|[Hb _]]; rewrite <- Ht in Hb; discriminate.
      + destruct Hb as [[_ Hb]|[Hb _]]; [|rewrite <- Ht in Hb; discriminate]. assert (exists w, r_process keygen_round (st_round s) (Some m) = RPanic w) as [w Ew].
        { cbn [keygen_round r_process]. rewrite Hno. unfold kg1_process. destruct (m_KeyGen1 m) as [b|]; eauto. rewrite (Hb b eq_refl). cbn. eauto. }
        eapply first_crashes; eauto. cbn [keygen_round r_ids]. now rewrite Hi.
      + destruct Hb as [[Hb _]|[_ Hb]]; [rewrite <- Ht in Hb; discriminate|]. eapply first_crashes; eauto; [cbn [keygen_round r_ids]; now rewrite Hi|].
        cbn [keygen_round r_process]. rewrite Hno. unfold kg2_process. rewrite Hb. reflexivity.
  Qed.

  (** The timer's callback crashes a key generation State if and only if it runs before the first ProcessAll: until then there is no
      polynomial, and Reset dereferences it (keygen/base.go:70-78). *)
  Theorem C17_keygen_exact : forall rg now t self ids thr s0 es s out, valid_ids ids -> is_u16 thr ->
    NewKeygenState rg now t self ids thr = Ret s0 -> run keygen_round s0 es = Ret (s, out) ->
    ((exists w, timerCallback keygen_round s = Panics w) <-> tm_pending (st_timer s) <> 0%nat /\ st_done s = false /\ st_roundNumber s = 0).
  Proof.
    intros rg now t self ids thr s0 es s out V HT NEW RUN. destruct (NewKeygenState_round _ _ _ _ _ _ _ NEW) as (r0 & E1 & ->).
    pose proof (keygen_run (given es) rg self ids thr r0 E1 V HT now t es s out (given_events es) RUN) as HL.
    unfold timerCallback. destruct (tm_pending (st_timer s)) as [|p]. { split; [intros [w X]; discriminate|intros [X _]; congruence]. }
    unfold reportError, finish. cbn [st_done st_round st_closed]. destruct (st_done s) eqn:D. { split; [intros [w X]; discriminate|intros (_ & X & _); discriminate]. }
    destruct (li_P _ _ _ _ _ _ _ HL D) as (n & En & _ & HP). rewrite En. pose proof (inv_closed keygen_round s (li_inv _ _ _ _ _ _ _ HL)) as HC. rewrite D in HC. rewrite HC. cbn [keygen_round r_reset].
    destruct n as [|n].
    - split; [auto|]. intros _. destruct HP as (_ & _ & _ & _ & Hp). unfold kg_Reset. rewrite Hp. cbn [obind]. eauto.
    - destruct (PK_reset (given es) rg self ids thr (S n) (st_round s) out HP ltac:(lia)) as [r3 E3]. rewrite E3. cbn [obind]. split; [intros [w X]; discriminate|intros (_ & _ & X); lia].
  Qed.
End KeygenCrash.

(** Concrete States.  Signer 1 of {1, 3} with a Sign1 message of 3 that has no body: it crashes, and so does signer 1 with a Sign2 without
    body.  In key generation, when 2's message has no body and 3's proof is wrong, the order decides: 2 first is a crash, 3 first an abort
    that blames 3. *)
Definition bare (t from : Z) : tmsg := @mkMessage toy_group (mkHeader t from 0) None None None None.
Definition bad_proof3 : tmsg := @NewKeyGen1 toy_group 3 (mkSchnorr (qof 3) (qof 7)) [qof 5; qof 6].
Definition pview {A} (r : outcome (tkstate * A)) : option (Z * string) + string :=
  match r with
  | Ret (s, _) => inl (option_map (fun e => (pe_PartyID e, pe_text e)) (st_err s))
  | Fail e => inr e
  | Panics w => inr w
  end.
Example C19_sign_crash_example :
  match ts_run (ts_new s13 1 0) (prc :: hnd [bare 3 3] ++ [prc]) with Panics w => w | _ => ""%string end = "nil Sign1"%string /\
  match ts_run (ts_new s13 1 0) (prc :: hnd (concat (map sg1_of s13)) ++ prc :: hnd [bare 4 3] ++ [prc]) with Panics w => w | _ => ""%string end = "nil Sign2"%string.
Proof. vm_compute. repeat split. Qed.
Example C19_keygen_crash_example :
  pview (tk_run (tk_new k3 1 1 0) (prc :: hnd [bare 1 2; bad_proof3] ++ [@EProcess toy_group [2; 3] []])) = inr "nil KeyGen1"%string /\
  pview (tk_run (tk_new k3 1 1 0) (prc :: hnd [bare 1 2; bad_proof3] ++ [@EProcess toy_group [3; 2] []])) = inl (Some (3, "ZK Schnorr failed"%string)).
Proof. vm_compute. repeat split. Qed.

Print Assumptions C19_sign_exact.
Print Assumptions C19_keygen_exact.
Print Assumptions C17_keygen_exact.
