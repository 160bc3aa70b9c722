(** C60: the whole test of test/frosted.go.  C69: how the UDP communicators are connected and what Send delivers. *)
From Coq Require Import ZArith Lia List Bool String Permutation Sorted.
From Coq.Strings Require Import Byte.
From stdpp Require Import base gmap list fin_maps.
From Verif Require Import ZField Primes Bytes Scalar Go Group ToyGroup Spec_Poly PolyAlg Party Poly PolyFacts Zk Eddsa Messages State StateFacts Spec_State Keygen Sign Helpers Cmd
  Spec_Group Properties_Algebra Spec_Wire CodecFacts Properties_Codec Lift Net ToyRuns Spec_Sign Spec_SignRun KeygenRun Spec_Keygen Properties_Keygen Properties_HonestKeygen Properties_Sign
  Loops Properties_Loops Properties_State Properties_NoTimer Harness Properties_Harness Frosted.
Import ListNotations.
Local Open Scope Z_scope.

(** * C60: from key generation to the verdict *)
Section Whole.
  Context `{L : group_laws} `{Hf : hash_fn} (HH : hash_ok Hf).
  Context (N T : Z) (HT : 0 < T < N) (HN : N <= 65494).
  Notation kids := (test_ids N).
  Notation sids := (test_ids (T + 1)).
  Notation hello := (list_byte_of_string "hello").
  Context (edv : list byte -> list byte -> list byte -> bool)
    (EDV : forall Y sig, Verify Y hello sig = true -> edv (pk_ToEd25519 Y) hello (sig_ToEd25519 sig) = true).
  Context (timeout : Z) (rg rg' : Z -> rng) (now now' : Z -> Z)
    (NZ : forall i, In i sids -> SetScalarRandom (rg' i) 0 <> f0 /\ SetScalarRandom (rg' i) 1 <> f0).
  Context (korder sorder : list Z) (KO : Permutation korder kids) (SO : Permutation sorder sids).
  Context (kfin : Z -> State kround) (sfin : Z -> State sround).
  Notation test := (FROSTest edv timeout rg rg' now now' korder sorder kfin sfin N T).

  (** [sts] are the States of the Handlers when they are made, [fin] what [reach] makes of them. *)
  Definition comes_from {R} (ids : list Z) (sts : gmap Z (State R)) (reach : (Z -> State R) -> (Z -> State R) -> Prop) (fin : Z -> State R) : Prop :=
    exists s0, (forall i, In i ids -> sts !! i = Some (s0 i)) /\ reach s0 fin.

  Section Any.
    (** The States at the end come from the Handlers' over a network that loses, repeats and reorders. *)
    Context (KRAN : forall sts, keygen_handlers rg now timeout T kids = Ret sts ->
      comes_from kids sts (fun s0 fin => exists cf, net_reach keygen_round kids (mkConfig s0 []) cf /\ fin = cf_state cf) kfin).
    Context (SRAN : forall public secrets sts, collect_keygen korder kfin None ∅ = Some (Ret (Some public, secrets)) ->
      sign_handlers rg' now' timeout sids (Some public) secrets hello = Ret sts ->
      comes_from sids sts (fun s0 fin => exists cf, net_reach sign_round sids (mkConfig s0 []) cf /\ fin = cf_state cf) sfin).
    (** The test waits for ever only for a State that does not end, fails only if somebody timed out, never crashes, and succeeds with the right
        key and a valid signature of every signer. *)
    Theorem C60_test :
      match test with
      | None => (exists i, In i kids /\ st_done (kfin i) = false) \/ (exists i, In i sids /\ st_done (sfin i) = false)
      | Some (Fail _) => (exists i err, In i kids /\ st_err (kfin i) = Some err /\ pe_PartyID err = 0 /\ pe_text err = "message timeout"%string) \/
          (exists i err, In i sids /\ st_err (sfin i) = Some err /\ pe_PartyID err = 0 /\ pe_text err = "message timeout"%string)
      | Some (Panics _) => False
      | Some (Ret _) => exists public secrets, key_right N T rg public secrets /\
          forall i, In i sids -> exists sig, sg_output (sfin i) = Some sig /\ Verify (pub_GroupKey public) hello sig = true
      end.
    Proof.
      unfold FROSTest. rewrite (proj1 (C60_setup N T ltac:(lia) HN)).
      destruct (C60_keygen_handlers N T HT HN rg now timeout) as (sts & EK & HK). rewrite EK.
      destruct (KRAN sts EK) as (s0 & H0 & cf & HR & Ek).
      assert (forall i, In i kids -> NewKeygenState (rg i) (now i) timeout i kids T = Ret (s0 i)) as NEW.
      { intros i Hi. destruct (HK i Hi) as (s & E1 & E2). rewrite (H0 i Hi) in E1. now injection E1 as <-. }
      pose proof (C60_keygen N T HT HN rg now timeout s0 NEW cf korder HR KO) as X. rewrite <- Ek in X.
      destruct (collect_keygen korder kfin None ∅) as [[ [ [public|] secrets]|e|w]|] eqn:EC; [|destruct X|now left|destruct X|now left].
      destruct (C60_sign_handlers N T HT HN rg public secrets X hello rg' now' timeout) as (sts' & ES & HS). rewrite ES.
      destruct (SRAN public secrets sts' eq_refl ES) as (s0' & H0' & cf' & HR' & Es).
      assert (forall i, In i sids -> exists sk, secrets !! i = Some (Some sk) /\ NewSignState (rg' i) (now' i) timeout sids sk public hello = Ret (s0' i)) as NEW'.
      { intros i Hi. destruct (HS i Hi) as (s & sk & E1 & E2 & E3). exists sk. rewrite (H0' i Hi) in E1. injection E1 as <-. auto. }
      pose proof (C60_sign HH N T HT HN rg public secrets X hello rg' now' timeout s0' NEW' NZ edv EDV cf' sorder HR' SO) as Y. rewrite <- Es in Y.
      destruct (collect_sign _ _ _ _ _) as [[ []|e|w]|]; [|now right|destruct Y|now right]. exists public, secrets. auto.
    Qed.
    (** The Channel transport has no timeout (channel.go:79-81): the test never fails, whatever is lost; it succeeds or waits for ever. *)
    Theorem C60_test_no_timeout : timeout = channel_Timeout -> test = Some (Ret tt) \/
      test = None /\ ((exists i, In i kids /\ st_done (kfin i) = false) \/ (exists i, In i sids /\ st_done (sfin i) = false)).
    Proof.
      intros Ht. assert (timeout <= 0) as Ht' by (rewrite Ht; unfold channel_Timeout; lia). pose proof C60_test as X.
      destruct test as [[ []|e|w]|] eqn:ET; [now left| |destruct X|now right]. exfalso. revert X ET.
      unfold FROSTest. rewrite (proj1 (C60_setup N T ltac:(lia) HN)).
      destruct (C60_keygen_handlers N T HT HN rg now timeout) as (sts & EK & HK). rewrite EK.
      destruct (KRAN sts EK) as (s0 & H0 & cf & HR & Ek).
      assert (forall i, In i kids -> NewKeygenState (rg i) (now i) timeout i kids T = Ret (s0 i)) as NEW.
      { intros i Hi. destruct (HK i Hi) as (s & E1 & E2). rewrite (H0 i Hi) in E1. now injection E1 as <-. }
      assert (forall i err, In i kids -> st_err (kfin i) = Some err -> pe_text err <> "message timeout"%string) as NOK.
      { intros i err Hi Er. destruct (net_local _ _ _ _ HR) as [_ HL]. destruct (HL i) as (es & out & E & _). rewrite Ek in Er.
        exact (C17_disabled_keygen _ _ _ _ _ _ _ _ _ _ _ Ht' (NEW i Hi) E Er). }
      pose proof (C60_keygen N T HT HN rg now timeout s0 NEW cf korder HR KO) as X. rewrite <- Ek in X.
      destruct (collect_keygen korder kfin None ∅) as [[ [ [public|] secrets]|e'|w]|] eqn:EC; [|destruct X| |destruct X|].
      2:{ intros _ _. destruct X as (i & err & A & B & _ & C). exact (NOK i err A B C). }
      2:{ intros _ D. discriminate D. }
      destruct (C60_sign_handlers N T HT HN rg public secrets X hello rg' now' timeout) as (sts' & ES & HS). rewrite ES.
      destruct (SRAN public secrets sts' eq_refl ES) as (s0' & H0' & cf' & HR' & Es). intros [Y|Y] _.
      - destruct Y as (i & err & A & B & _ & C). exact (NOK i err A B C).
      - destruct Y as (i & err & A & B & _ & C). destruct (HS i A) as (s & sk & E1 & E2 & E3). rewrite (H0' i A) in E1. injection E1 as <-.
        destruct (net_local _ _ _ _ HR') as [_ HL]. destruct (HL i) as (es & out & E & _). rewrite Es in B.
        exact (C17_disabled_sign _ _ _ _ _ _ _ _ _ _ _ _ Ht' E3 E B C).
    Qed.
  End Any.

  (** Over the Channel transport, unless a Handler refuses a message of a party that is ahead (C47), the test succeeds. *)
  Theorem C60_test_channel :
    (forall sts, keygen_handlers rg now timeout T kids = Ret sts ->
      comes_from kids sts (fun s0 fin => exists ls c, h_trace keygen_round true kids (h_init s0) ls c /\ (none_lost ls \/ N = 2) /\ h_rests kids c /\ fin = hc_state c) kfin) ->
    (forall public secrets sts, collect_keygen korder kfin None ∅ = Some (Ret (Some public, secrets)) ->
      sign_handlers rg' now' timeout sids (Some public) secrets hello = Ret sts ->
      comes_from sids sts (fun s0 fin => exists ls c, h_trace sign_round true sids (h_init s0) ls c /\ (none_lost ls \/ T = 1) /\ h_rests sids c /\ fin = hc_state c) sfin) ->
    test = Some (Ret tt).
  Proof.
    intros KRAN SRAN. unfold FROSTest. rewrite (proj1 (C60_setup N T ltac:(lia) HN)).
    destruct (C60_keygen_handlers N T HT HN rg now timeout) as (sts & EK & HK). rewrite EK.
    destruct (KRAN sts EK) as (s0 & H0 & ls & c & HTr & HL & HR & Ek).
    assert (forall i, In i kids -> NewKeygenState (rg i) (now i) timeout i kids T = Ret (s0 i)) as NEW.
    { intros i Hi. destruct (HK i Hi) as (s & E1 & E2). rewrite (H0 i Hi) in E1. now injection E1 as <-. }
    destruct (C60_channel_keygen N T HT HN rg now timeout s0 NEW ls c korder HTr HL HR KO) as (public & secrets & EC & X). rewrite <- Ek in EC. rewrite EC.
    destruct (C60_sign_handlers N T HT HN rg public secrets X hello rg' now' timeout) as (sts' & ES & HS). rewrite ES.
    destruct (SRAN public secrets sts' EC ES) as (s0' & H0' & ls' & c' & HTr' & HL' & HR' & Es).
    assert (forall i, In i sids -> exists sk, secrets !! i = Some (Some sk) /\ NewSignState (rg' i) (now' i) timeout sids sk public hello = Ret (s0' i)) as NEW'.
    { intros i Hi. destruct (HS i Hi) as (s & sk & E1 & E2 & E3). exists sk. rewrite (H0' i Hi) in E1. injection E1 as <-. auto. }
    rewrite Es. exact (C60_channel_sign HH N T HT HN rg public secrets X hello rg' now' timeout s0' NEW' NZ edv EDV ls' c' sorder HTr' HL' HR' SO).
  Qed.
End Whole.

Section Main.
  Context `{Gr : group_ops} `{Hf : hash_fn}.
  Lemma setup_keygen N T : 0 <= N <= 65494 -> snd (fst (Setup N T)) = test_ids N.
  Proof. intros H. cbn. apply map_ext_in. intros k Hk. apply in_seq in Hk. unfold u16. rewrite Z.mod_small; lia. Qed.
  (** "What should NOT work, but should not panic": the test fails, whatever the network does. *)
  Theorem C60_test_rejects : forall edv timeout rg rg' now now' korder sorder kfin sfin N T, 0 < N <= 65494 -> T = 0 \/ N <= T < 65536 ->
    exists e, FROSTest edv timeout rg rg' now now' korder sorder kfin sfin N T = Some (Fail e).
  Proof.
    intros edv timeout rg rg' now now' korder sorder kfin sfin N T HN HT. unfold FROSTest.
    pose proof (setup_keygen N T ltac:(lia)) as E. destruct (Setup N T) as [ [message kids] sids]. cbn in E. subst kids.
    destruct (C60_rejects rg now timeout N T HN HT) as [e ->]. eauto.
  Qed.
  (** The lines of main.  If every call returns what some run of the test returns, and the calls that should work return at all, 21 lines are
      printed, the last nine are "ok (failed)", and "ok" is printed for exactly the calls that returned nil. *)
  Theorem C60_main : forall run, (forall udp n t, exists edv timeout rg rg' now now' korder sorder kfin sfin,
      run udp n t = FROSTest edv timeout rg rg' now now' korder sorder kfin sfin n t) ->
    (forall udp n t, In (true, udp, n, t) calls_of_main -> exists r, run udp n t = Some r /\ (forall w, r <> Panics w)) ->
    calls_of_main = [(true, true, 5, 2); (true, true, 5, 4); (true, false, 5, 2); (true, false, 5, 4); (true, true, 10, 5); (true, true, 10, 9); (true, false, 10, 5); (true, false, 10, 9);
      (true, true, 50, 25); (true, true, 50, 49); (true, false, 50, 25); (true, false, 50, 49); (false, true, 5, 5); (false, true, 5, 0); (false, true, 5, 50);
      (false, true, 10, 10); (false, true, 10, 0); (false, true, 10, 100); (false, true, 50, 50); (false, true, 50, 0); (false, true, 50, 500)] /\
    main_lines run calls_of_main =
      (map (fun c => let '(_, udp, n, t) := c in match run udp n t with Some (Ret _) => LOk | _ => LError end) (firstn 12 calls_of_main) ++ repeat LOkFailed 9, true).
  Proof.
    intros run HR HP. split; [reflexivity|].
    assert (forall good udp n t l, In (good, udp, n, t) calls_of_main ->
      main_lines run ((good, udp, n, t) :: l) = (((if good then match run udp n t with Some (Ret _) => LOk | _ => LError end else LOkFailed) :: fst (main_lines run l)), snd (main_lines run l))) as S1.
    { intros good udp n t l Hin. cbn [main_lines]. destruct good.
      - destruct (HP udp n t Hin) as (r & E & HW). rewrite E. destruct r as [u|e|w]; [| |destruct (HW w eq_refl)]; destruct (main_lines run l); reflexivity.
      - destruct (HR udp n t) as (edv & timeout & rg & rg' & now & now' & korder & sorder & kfin & sfin & E).
        destruct (C60_test_rejects edv timeout rg rg' now now' korder sorder kfin sfin n t) as [e E'].
        + cbn in Hin. repeat (destruct Hin as [Hin|Hin]; [try discriminate; injection Hin as <- <- <-; lia|]). destruct Hin.
        + cbn in Hin. repeat (destruct Hin as [Hin|Hin]; [try discriminate; injection Hin as <- <- <-; vm_compute; intuition congruence|]). destruct Hin.
        + rewrite E, E'. destruct (main_lines run l); reflexivity. }
    assert (forall l, incl l calls_of_main -> main_lines run l =
      (map (fun c : bool * bool * Z * Z => let '(good, udp, n, t) := c in if good then match run udp n t with Some (Ret _) => LOk | _ => LError end else LOkFailed) l, true)) as S2.
    { induction l as [|[ [ [good udp] n] t] l IH]; intros Hl; [reflexivity|]. rewrite S1 by (apply Hl; left; auto). rewrite IH by (intros x Hx; apply Hl; right; auto). reflexivity. }
    rewrite S2 by apply incl_refl. reflexivity.
  Qed.
End Main.

(** * C69: the UDP communicators *)
Section Udp.
  Context `{Gr : group_ops} {A : Type} (resolve : A -> option Z) (listen : nat -> Z * A).
  Context (RES : forall k, resolve (snd (listen k)) = Some (fst (listen k))).

  (** The last position at which an ID occurs: its socket is the one in use. *)
  Definition last_of (IDs : list Z) (i : Z) (k : nat) : Prop := nth_error IDs k = Some i /\ forall k', (k < k')%nat -> nth_error IDs k' <> Some i.
  Lemma last_of_exists IDs i : In i IDs -> exists k, last_of IDs i k.
  Proof.
    induction IDs as [|j l IH] using rev_ind; [intros []|]. intros Hin. destruct (Z.eq_dec i j) as [->|Hne].
    - exists (List.length l). split; [rewrite nth_error_app2, Nat.sub_diag; auto|]. intros k' Hk. rewrite (proj2 (nth_error_None _ _)); [discriminate|]. rewrite app_length. cbn. lia.
    - apply in_app_or in Hin as [Hin|[Hin|[] ] ]; [|congruence]. destruct (IH Hin) as (k & H1 & H2). exists k.
      assert (k < List.length l)%nat as Hk by (apply nth_error_Some; congruence). split; [now rewrite nth_error_app1|].
      intros k' Hk'. destruct (Nat.lt_ge_cases k' (List.length l)) as [Hl|Hl]; [rewrite nth_error_app1; auto|].
      rewrite nth_error_app2 by auto. destruct (k' - List.length l)%nat as [|[|n] ]; cbn; [congruence|discriminate|discriminate].
  Qed.
  Lemma last_of_unique IDs i k k' : last_of IDs i k -> last_of IDs i k' -> k = k'.
  Proof. intros [H1 H2] [H3 H4]. destruct (Nat.lt_trichotomy k k') as [H|[H|H] ]; auto; [destruct (H2 _ H H3)|destruct (H4 _ H H1)]. Qed.

  Lemma udp_open_snoc IDs j : forall k comms addresses, udp_open listen (IDs ++ [j]) k comms addresses =
    let '(c, a) := udp_open listen IDs k comms addresses in
    (<[j := mkUdp j (fst (listen (k + List.length IDs)%nat)) ∅ None]> c, <[j := snd (listen (k + List.length IDs)%nat)]> a).
  Proof.
    induction IDs as [|i l IH]; intros k comms addresses; cbn [app udp_open NewUDPCommunicator List.length].
    - now rewrite Nat.add_0_r.
    - rewrite IH. now rewrite Nat.add_succ_r.
  Qed.
  Lemma udp_open_spec IDs : forall i,
    (forall c, fst (udp_open listen IDs 0 ∅ ∅) !! i = Some c <-> exists k, last_of IDs i k /\ c = mkUdp i (fst (listen k)) ∅ None) /\
    (forall a, snd (udp_open listen IDs 0 ∅ ∅) !! i = Some a <-> exists k, last_of IDs i k /\ a = snd (listen k)).
  Proof.
    induction IDs as [|j l IH] using rev_ind; intros i.
    - cbn. split; intros x; rewrite lookup_empty; (split; [discriminate|]); intros (k & [H _] & _); destruct k; discriminate.
    - rewrite udp_open_snoc. destruct (udp_open listen l 0 ∅ ∅) as [cs ads]. cbn [fst snd] in *. rewrite Nat.add_0_l.
      assert (last_of (l ++ [j]) j (List.length l)) as HLast.
      { split; [rewrite nth_error_app2, Nat.sub_diag; auto|]. intros k' Hk. rewrite (proj2 (nth_error_None _ _)); [discriminate|]. rewrite app_length. cbn. lia. }
      destruct (Z.eq_dec j i) as [->|Hne].
      + rewrite !lookup_insert. split; intros x; split; [intros [= <-]; eauto| |intros [= <-]; eauto|]; intros (k & Hk & ->); now rewrite (last_of_unique _ _ _ _ Hk HLast).
      + rewrite !lookup_insert_ne by auto. assert (forall k, last_of (l ++ [j]) i k <-> last_of l i k) as HE.
        { intros k. split; intros [H1 H2].
          - assert (k < List.length l)%nat as Hk. { destruct (Nat.lt_ge_cases k (List.length l)); auto. rewrite nth_error_app2 in H1 by auto. destruct (k - List.length l)%nat as [|[|n] ]; cbn in H1; congruence. }
            rewrite nth_error_app1 in H1 by auto. split; auto. intros k' Hk' HX. apply (H2 k' Hk'). rewrite nth_error_app1; auto. apply nth_error_Some. congruence.
          - assert (k < List.length l)%nat as Hk by (apply nth_error_Some; congruence). split; [now rewrite nth_error_app1|].
            intros k' Hk'. destruct (Nat.lt_ge_cases k' (List.length l)) as [Hl|Hl]; [rewrite nth_error_app1; auto|].
            rewrite nth_error_app2 by auto. destruct (k' - List.length l)%nat as [|[|n] ]; cbn; [congruence|discriminate|discriminate]. }
        destruct (IH i) as [I1 I2]. split; intros x; [rewrite I1|rewrite I2]; setoid_rewrite HE; reflexivity.
  Qed.

  Lemma connect_spec (addresses : gmap Z A) order id1 c :
    let c' := udp_connect resolve addresses order id1 c in
    ud_id c' = ud_id c /\ ud_addr c' = ud_addr c /\ ud_buffer c' = Some (udp_buffer (size (ud_peers c'))) /\
    forall j, ud_peers c' !! j = match addresses !! j with Some a => if id1 =? j then ud_peers c !! j else Some (resolve a) | None => ud_peers c !! j end.
  Proof.
    cbv zeta. unfold udp_connect. cbn [udp_Start ud_id ud_addr ud_buffer ud_peers].
    assert (forall l c0, let c' := fold_left (fun c id2 => match addresses !! id2 with Some addr => if id1 =? id2 then c else AddPeer resolve c id2 addr | None => c end) l c0 in
      ud_id c' = ud_id c0 /\ ud_addr c' = ud_addr c0 /\
      forall j, ud_peers c' !! j = if existsb (Z.eqb j) l then match addresses !! j with Some a => if id1 =? j then ud_peers c0 !! j else Some (resolve a) | None => ud_peers c0 !! j end else ud_peers c0 !! j) as X.
    { induction l as [|i l IH]; intros c0; cbn [fold_left existsb]; [auto|]. destruct (IH (match addresses !! i with Some addr => if id1 =? i then c0 else AddPeer resolve c0 i addr | None => c0 end)) as (H1 & H2 & H3).
      cbv zeta in *. rewrite H1, H2. split; [destruct (addresses !! i); [destruct (id1 =? i)|]; reflexivity|]. split; [destruct (addresses !! i); [destruct (id1 =? i)|]; reflexivity|].
      intros j. rewrite H3. destruct (Z.eqb_spec j i) as [->|Hne]; cbn [orb].
      - destruct (existsb (Z.eqb i) l); destruct (addresses !! i); auto; destruct (id1 =? i); auto. cbn [AddPeer ud_peers]. now rewrite lookup_insert.
      - assert (ud_peers (match addresses !! i with Some addr => if id1 =? i then c0 else AddPeer resolve c0 i addr | None => c0 end) !! j = ud_peers c0 !! j) as ->; [|reflexivity].
        destruct (addresses !! i); auto. destruct (id1 =? i); auto. cbn [AddPeer ud_peers]. now rewrite lookup_insert_ne by congruence. }
    destruct (X (map_keys order addresses) c) as (H1 & H2 & H3). cbv zeta in *. split; auto. split; auto. split; [reflexivity|]. intros j. rewrite H3.
    destruct (existsb (Z.eqb j) (map_keys order addresses)) eqn:E; [reflexivity|]. destruct (addresses !! j) as [a|] eqn:EA; [|reflexivity]. exfalso.
    assert (existsb (Z.eqb j) (map_keys order addresses) = true) as E'; [|congruence]. apply existsb_exists. exists j. rewrite Z.eqb_refl. split; auto. apply map_keys_In. eauto.
  Qed.

  (** NewUDPCommunicatorMap, for every list of IDs (repeated ones have sockets that nobody uses) and all iteration orders: there is a
      communicator for every ID; it has its ID and a socket of its own, its peers are exactly all other IDs with the addresses of their sockets,
      and its reader has been started with a buffer for all of them. *)
  Theorem C69_map : forall IDs o1 o2 i c, NewUDPCommunicatorMap resolve listen IDs o1 o2 !! i = Some c <->
    exists k, last_of IDs i k /\ ud_id c = i /\ ud_addr c = fst (listen k) /\ ud_buffer c = Some (udp_buffer (size (ud_peers c))) /\
      forall j x, ud_peers c !! j = Some x <-> j <> i /\ exists k', last_of IDs j k' /\ x = Some (fst (listen k')).
  Proof.
    intros IDs o1 o2 i c. unfold NewUDPCommunicatorMap. pose proof (udp_open_spec IDs) as HO. destruct (udp_open listen IDs 0 ∅ ∅) as [comms addresses]. cbn [fst snd] in HO.
    assert (forall l (m : gmap Z udp), List.NoDup l -> fold_left (fun (m : gmap Z udp) id1 => match m !! id1 with Some c => <[id1 := udp_connect resolve addresses (o2 id1) id1 c]> m | None => m end) l m !! i =
      if existsb (Z.eqb i) l then udp_connect resolve addresses (o2 i) i <$> (m !! i) else (m !! i : option udp)) as X.
    { induction l as [|j l IH]; intros m HND; cbn [fold_left existsb]; [reflexivity|]. inversion HND; subst. rewrite IH by auto. destruct (Z.eqb_spec i j) as [->|Hne]; cbn [orb].
      - assert (existsb (Z.eqb j) l = false) as ->. { destruct (existsb (Z.eqb j) l) eqn:E; auto. apply existsb_exists in E as (y & Hy & E). apply Z.eqb_eq in E. subst. contradiction. }
        destruct (m !! j) eqn:E; cbn; [now rewrite lookup_insert|now rewrite E].
      - assert ((match m !! j with Some c => <[j := udp_connect resolve addresses (o2 j) j c]> m | None => m end) !! i = m !! i) as ->; [|reflexivity].
        destruct (m !! j); auto. now rewrite lookup_insert_ne by congruence. }
    rewrite X by apply map_keys_NoDup. clear X.
    assert (comms !! i <> None -> existsb (Z.eqb i) (map_keys o1 comms) = true) as HK.
    { intros H. destruct (comms !! i) eqn:E; [|congruence]. apply existsb_exists. exists i. rewrite Z.eqb_refl. split; auto. apply map_keys_In. eauto. }
    assert (forall k c1, last_of IDs i k -> c1 = udp_connect resolve addresses (o2 i) i (mkUdp i (fst (listen k)) ∅ None) ->
      ud_id c1 = i /\ ud_addr c1 = fst (listen k) /\ ud_buffer c1 = Some (udp_buffer (size (ud_peers c1))) /\
      forall j x, ud_peers c1 !! j = Some x <-> j <> i /\ exists k', last_of IDs j k' /\ x = Some (fst (listen k'))) as HC.
    { intros k c1 Hk ->. destruct (connect_spec addresses (o2 i) i (mkUdp i (fst (listen k)) ∅ None)) as (H1 & H2 & H3 & H4). split; auto. split; auto. split; auto.
      intros j x. rewrite H4. cbn [ud_peers]. rewrite lookup_empty. pose proof (proj2 (HO j)) as HA. destruct (addresses !! j) as [a|].
      - destruct (proj1 (HA a) eq_refl) as (k' & Hk' & ->). destruct (Z.eqb_spec i j) as [->|Hne].
        + split; [discriminate|intros [? _]; congruence].
        + rewrite RES. split; [intros [= <-]; split; eauto|]. intros (_ & k2 & H & ->). now rewrite (last_of_unique _ _ _ _ Hk' H).
      - split; [discriminate|]. intros (_ & k' & Hk' & _). pose proof (proj2 (HA (snd (listen k'))) (ex_intro _ k' (conj Hk' eq_refl))). discriminate. }
    pose proof (proj1 (HO i)) as HI. destruct (comms !! i) as [c0|].
    - rewrite HK by discriminate. destruct (proj1 (HI c0) eq_refl) as (k & Hk & ->). cbn [fmap option_fmap option_map]. destruct (HC k _ Hk eq_refl) as (H1 & H2 & H3 & H4). split.
      + intros [= <-]. exists k. auto.
      + intros (k' & Hk' & E1 & E2 & E3 & E4). rewrite (last_of_unique _ _ _ _ Hk' Hk) in E2. f_equal.
        destruct (udp_connect resolve addresses (o2 i) i (mkUdp i (fst (listen k)) ∅ None)) as [a1 a2 a3 a4], c as [b1 b2 b3 b4]. cbn in *.
        assert (a3 = b3) as ->. { apply map_eq. intros j. apply option_eq. intros x. now rewrite H4, E4. }
        congruence.
    - split; [destruct (existsb _ _); discriminate|]. intros (k & Hk & _). pose proof (proj2 (HI _) (ex_intro _ k (conj Hk eq_refl))). discriminate.
  Qed.

  Lemma last_of_comm IDs o1 o2 j k : last_of IDs j k -> exists cj, NewUDPCommunicatorMap resolve listen IDs o1 o2 !! j = Some cj /\ ud_addr cj = fst (listen k).
  Proof.
    intros Hk. destruct (NewUDPCommunicatorMap resolve listen IDs o1 o2 !! j) as [cj|] eqn:E.
    - exists cj. split; auto. apply C69_map in E as (k' & Hk' & _ & Ea & _). now rewrite (last_of_unique _ _ _ _ Hk Hk').
    - exfalso. revert E. unfold NewUDPCommunicatorMap. pose proof (proj1 (udp_open_spec IDs j) (mkUdp j (fst (listen k)) ∅ None)) as HO. destruct (udp_open listen IDs 0 ∅ ∅) as [comms addresses]. cbn [fst] in HO.
      assert (comms !! j <> None) as HN by (rewrite (proj2 HO) by eauto; discriminate). clear HO. revert HN. generalize (map_keys o1 comms) as l. intros l. revert comms.
      induction l as [|a l IH]; intros m Hm; cbn [fold_left]; [exact Hm|]. apply IH. destruct (m !! a) eqn:Ea; auto. destruct (Z.eq_dec a j) as [->|Hne]; [rewrite lookup_insert; discriminate|now rewrite lookup_insert_ne].
  Qed.

  Notation all_ok := (fun _ : nat => true).
  Lemma broadcast_ok b (addrs : list Z) : forall k, udp_broadcast all_ok k b (map Some addrs) = (map (fun a => (a, b)) addrs, Ret tt).
  Proof. induction addrs as [|a l IH]; intros k; cbn; [reflexivity|]. now rewrite IH. Qed.
  Lemma peers_spec IDs o1 o2 i c : NewUDPCommunicatorMap resolve listen IDs o1 o2 !! i = Some c ->
    forall j, ud_peers c !! j = (fun cj => Some (ud_addr cj)) <$> (delete i (NewUDPCommunicatorMap resolve listen IDs o1 o2) !! j).
  Proof.
    intros E j. apply C69_map in E as (k & Hk & _ & _ & _ & HP). apply option_eq. intros x. rewrite HP. destruct (Z.eq_dec i j) as [->|Hne].
    - rewrite lookup_delete. cbn. split; [intros [? _]; congruence|discriminate].
    - rewrite lookup_delete_ne by auto. split.
      + intros (_ & k' & Hk' & ->). destruct (last_of_comm IDs o1 o2 j k' Hk') as (cj & -> & Ea). cbn. congruence.
      + intros H. destruct (NewUDPCommunicatorMap resolve listen IDs o1 o2 !! j) as [cj|] eqn:E; [|discriminate]. cbn in H. apply C69_map in E as (k' & Hk' & _ & Ea & _). split; [congruence|]. exists k'. split; auto. congruence.
  Qed.

  (** What Send writes when no write fails, for every communicator of the map: a broadcast goes once to everybody else; another message goes to the
      party it names, to nobody if that is the sender itself, and is an error if it is nobody's. *)
  Theorem C69_send : forall IDs o1 o2 i c order m b, let comms := NewUDPCommunicatorMap resolve listen IDs o1 o2 in
    comms !! i = Some c -> msg_MarshalBinary m = Ret b ->
    let '(l, r) := udp_Send all_ok order c m in
    if m_To m =? 0 then Permutation l (map (fun p => (ud_addr (snd p), b)) (map_to_list (delete i comms))) /\ r = Ret tt
    else match comms !! m_To m with
         | Some cj => r = Ret tt /\ l = if m_To m =? i then [] else [(ud_addr cj, b)]
         | None => l = [] /\ r = Fail "missing address"
         end.
  Proof.
    intros IDs o1 o2 i c order m b comms E EB. pose proof (peers_spec IDs o1 o2 i c E) as HP. fold comms in HP. assert (ud_id c = i) as Eid by (apply C69_map in E; destruct E as (k & _ & E & _); auto).
    unfold udp_Send. rewrite EB. unfold IsBroadcast. change (h_To (m_Header m)) with (m_To m). destruct (Z.eqb_spec (m_To m) 0) as [H0|H0].
    - assert (map (fun id => default None (ud_peers c !! id)) (map_keys order (ud_peers c)) =
              map Some (map (fun id => match delete i comms !! id with Some cj => ud_addr cj | None => 0 end) (map_keys order (ud_peers c)))) as ->.
      { rewrite map_map. apply map_ext_in. intros j Hj. apply map_keys_In in Hj as [v Hv]. rewrite Hv. rewrite HP in Hv. destruct (delete i comms !! j); [|discriminate]. cbn in Hv. injection Hv as <-. reflexivity. }
      rewrite broadcast_ok. split; [|reflexivity]. rewrite map_map.
      assert (Permutation (map_keys order (ud_peers c)) (map fst (map_to_list (delete i comms)))) as HPm.
      { rewrite <- (map_keys_perm []). apply Permutation.NoDup_Permutation; [apply map_keys_NoDup|apply map_keys_NoDup|]. intros j. rewrite !map_keys_In. rewrite HP. destruct (delete i comms !! j); cbn; split; intros [v Hv]; eauto; discriminate. }
      rewrite HPm, map_map. erewrite map_ext_in; [reflexivity|]. intros [j cj] Hin. cbn. apply elem_of_list_In, elem_of_map_to_list in Hin. now rewrite Hin.
    - rewrite Eid. destruct (Z.eqb_spec (m_To m) i) as [Hi|Hi].
      + rewrite Hi. fold comms in E. rewrite E. auto.
      + rewrite HP, lookup_delete_ne by auto. destruct (comms !! m_To m); cbn; auto.
  Qed.

  (** When writes fail: what is written is the beginning of what would have been, up to the first write that fails, and the error is returned. *)
  Theorem C69_write_error : forall wr order c m, let full := udp_Send all_ok order c m in let got := udp_Send wr order c m in
    exists k, fst got = firstn k (fst full) /\ (forall n, (n < k)%nat -> wr n = true) /\
      ((k = List.length (fst full) /\ snd got = snd full) \/ ((k < List.length (fst full))%nat /\ wr k = false /\ snd got = Fail "write")).
  Proof.
    intros wr order c m. cbv zeta. unfold udp_Send.
    assert (forall b addrs s, exists k, fst (udp_broadcast wr s b addrs) = firstn k (fst (udp_broadcast all_ok s b addrs)) /\ (forall n, (n < k)%nat -> wr (s + n)%nat = true) /\
      ((k = List.length (fst (udp_broadcast all_ok s b addrs)) /\ snd (udp_broadcast wr s b addrs) = snd (udp_broadcast all_ok s b addrs)) \/
       ((k < List.length (fst (udp_broadcast all_ok s b addrs)))%nat /\ wr (s + k)%nat = false /\ snd (udp_broadcast wr s b addrs) = Fail "write"))) as X.
    { intros b. induction addrs as [|[a|] l IH]; intros s.
      - exists 0%nat. cbn. split; auto. split; [intros; lia|auto].
      - cbn [udp_broadcast]. destruct (IH (S s)) as (k & H1 & H2 & H3). destruct (udp_broadcast all_ok (S s) b l) as [lf rf]. destruct (udp_broadcast wr (S s) b l) as [lw rw]. cbn [fst snd] in *.
        destruct (wr s) eqn:Ew.
        + exists (S k). cbn. split; [congruence|]. split.
          * intros [|n] Hn; [now rewrite Nat.add_0_r|]. rewrite Nat.add_succ_r. apply H2. lia.
          * destruct H3 as [ [-> H3]|(Hk & H3 & H4)]; [left; auto|right]. rewrite Nat.add_succ_r. split; [lia|auto].
        + exists 0%nat. cbn. split; auto. split; [intros; lia|]. right. rewrite Nat.add_0_r. split; [lia|auto].
      - exists 0%nat. cbn. split; auto. split; [intros; lia|auto]. }
    assert (forall r : outcome unit, exists k, [] = firstn k ([] : list (Z * list byte)) /\ (forall n, (n < k)%nat -> wr n = true) /\
      ((k = 0%nat /\ r = r) \/ ((k < 0)%nat /\ wr k = false /\ r = Fail "write"))) as Y by (intros r; exists 0%nat; split; auto; split; [intros; lia|auto]).
    destruct (msg_MarshalBinary m) as [b|e|w]; [|apply Y|apply Y]. destruct (IsBroadcast (m_Header m)); [apply (X b _ 0%nat)|]. destruct (_ =? _); [apply Y|apply (X b _ 0%nat)].
  Qed.
End Udp.

(** Together with C60_udp_keygen and C60_udp_sign: everything that a party of a key generation or a signature sends is decoded by those it is
    meant for, and by nobody else, as the message sent. *)
Section Deliver.
  Context `{L : group_laws} `{Hf : hash_fn} (HH : hash_ok Hf) {A : Type} (resolve : A -> option Z) (listen : nat -> Z * A).
  Context (RES : forall k, resolve (snd (listen k)) = Some (fst (listen k))).
  Definition arrives (comms : gmap Z udp) (i : Z) (m : Message) (d : Z * list byte) : Prop :=
    exists j cj m', j <> i /\ (m_To m = 0 \/ m_To m = j) /\ comms !! j = Some cj /\ fst d = ud_addr cj /\
      udp_receive (size (ud_peers cj)) (snd d) = Ret m' /\ msg_Equal m m' = true /\ m_Header m' = m_Header m.
  Lemma map_size IDs o1 o2 j cj : List.NoDup IDs -> NewUDPCommunicatorMap resolve listen IDs o1 o2 !! j = Some cj -> size (ud_peers cj) = (List.length IDs - 1)%nat.
  Proof.
    intros ND E. apply (C69_map resolve listen RES) in E as (k & Hk & _ & _ & _ & HP). rewrite <- (map_keys_length []).
    assert (In j IDs) as Hj by (destruct Hk as [Hk _]; eapply nth_error_In; eauto).
    assert (Permutation (j :: map_keys [] (ud_peers cj)) IDs) as HPm; [|apply Permutation_length in HPm; cbn in HPm; lia].
    apply Permutation.NoDup_Permutation; auto.
    - constructor; [|apply map_keys_NoDup]. intros Hin. apply map_keys_In in Hin as [v Hv]. apply HP in Hv. tauto.
    - intros x. cbn [In]. rewrite map_keys_In. split.
      + intros [<-|[v Hv] ]; auto. apply HP in Hv as (_ & k' & [Hk' _] & _). eapply nth_error_In; eauto.
      + intros Hx. destruct (Z.eq_dec j x) as [->|Hne]; [now left|right]. destruct (last_of_exists IDs x Hx) as [k' Hk']. exists (Some (fst (listen k'))). apply HP. split; eauto.
  Qed.
  Lemma send_arrives ids o1 o2 order i ci m b m' : List.NoDup ids -> NewUDPCommunicatorMap resolve listen ids o1 o2 !! i = Some ci ->
    msg_MarshalBinary m = Ret b -> udp_receive (List.length ids - 1) b = Ret m' -> msg_Equal m m' = true -> m_Header m' = m_Header m ->
    Forall (arrives (NewUDPCommunicatorMap resolve listen ids o1 o2) i m) (fst (udp_Send (fun _ => true) order ci m)) /\
    (m_To m = 0 -> List.length (fst (udp_Send (fun _ => true) order ci m)) = (List.length ids - 1)%nat).
  Proof.
    intros ND E EB ER EQ EH. pose proof (C69_send resolve listen RES ids o1 o2 i ci order m b E EB) as X. cbv zeta in X. destruct (udp_Send (fun _ => true) order ci m) as [l r]. cbn [fst].
    set (comms := NewUDPCommunicatorMap resolve listen ids o1 o2) in *.
    assert (forall j cj, j <> i -> (m_To m = 0 \/ m_To m = j) -> comms !! j = Some cj -> arrives comms i m (ud_addr cj, b)) as HA.
    { intros j cj H1 H2 H3. exists j, cj, m'. cbn [fst snd]. rewrite (map_size ids o1 o2 j cj ND H3). auto 10. }
    destruct (Z.eqb_spec (m_To m) 0) as [H0|H0].
    - destruct X as [X _]. split.
      + apply List.Forall_forall. intros d Hd. apply (Permutation_in _ X) in Hd. apply in_map_iff in Hd as ([j cj] & <- & Hin). apply elem_of_list_In, elem_of_map_to_list in Hin.
        apply lookup_delete_Some in Hin as [Hne Hin]. apply (HA j cj); auto.
      + intros _. apply Permutation_length in X. rewrite X, map_length. rewrite <- (map_size ids o1 o2 i ci ND E). rewrite <- (map_length fst), <- (map_keys_length []).
        apply Permutation_length. rewrite <- (map_keys_perm []). apply Permutation.NoDup_Permutation; [apply map_keys_NoDup|apply map_keys_NoDup|]. intros j. rewrite !map_keys_In.
        rewrite (peers_spec resolve listen RES ids o1 o2 i ci E). fold comms. destruct (delete i comms !! j); cbn; split; intros [v Hv]; eauto; discriminate.
    - split; [|congruence]. destruct (comms !! m_To m) as [cj|] eqn:EC; [|destruct X as [-> _]; constructor]. destruct X as [_ ->]. destruct (Z.eqb_spec (m_To m) i); constructor; [|constructor]. apply (HA (m_To m) cj); auto.
  Qed.
  Definition delivered (ids o1 : list Z) (o2 : Z -> list Z) (order : list Z) (self : Z) (m : Message) : Prop :=
    exists c, NewUDPCommunicatorMap resolve listen ids o1 o2 !! self = Some c /\
      Forall (arrives (NewUDPCommunicatorMap resolve listen ids o1 o2) self m) (fst (udp_Send (fun _ => true) order c m)) /\
      List.length (fst (udp_Send (fun _ => true) order c m)) = (if m_To m =? 0 then (List.length ids - 1)%nat else 1%nat) /\
      snd (udp_Send (fun _ => true) order c m) = Ret tt.
  Lemma delivers ids o1 o2 order self m b m' : List.NoDup ids -> In self ids -> (m_To m = 0 \/ In (m_To m) ids /\ m_To m <> self) ->
    msg_MarshalBinary m = Ret b -> udp_receive (List.length ids - 1) b = Ret m' -> msg_Equal m m' = true -> m_Header m' = m_Header m -> delivered ids o1 o2 order self m.
  Proof.
    intros ND Hin HTo EB ER EQ EH. destruct (last_of_exists ids self Hin) as [k Hk]. destruct (last_of_comm resolve listen RES ids o1 o2 self k Hk) as (c & E & _). exists c. split; auto.
    destruct (send_arrives ids o1 o2 order self c m b m' ND E EB ER EQ EH) as [H1 H2]. split; auto.
    pose proof (C69_send resolve listen RES ids o1 o2 self c order m b E EB) as X. cbv zeta in X. destruct (udp_Send (fun _ => true) order c m) as [l r]. cbn [fst snd] in *.
    destruct (Z.eqb_spec (m_To m) 0) as [H0|H0]; [split; [auto|apply X]|]. destruct HTo as [HTo|[HTo Hne] ]; [congruence|].
    destruct (last_of_exists ids (m_To m) HTo) as [k' Hk']. destruct (last_of_comm resolve listen RES ids o1 o2 _ k' Hk') as (cj & Ej & _). rewrite Ej in X. destruct X as [-> ->].
    apply Z.eqb_neq in Hne. rewrite Hne. auto.
  Qed.
  Theorem C69_keygen : forall rg now t self ids thr s0 es s out m o1 o2 order, sorted ids -> valid_ids ids -> is_u16 thr ->
    NewKeygenState rg now t self ids thr = Ret s0 -> run keygen_round s0 es = Ret (s, out) -> In m out -> delivered ids o1 o2 order self m.
  Proof.
    intros rg now t self ids thr s0 es s out m o1 o2 order HS V HT NEW RUN Hm.
    destruct (C60_udp_keygen rg now t self ids thr s0 es s out m HS V HT NEW RUN Hm) as (b & m' & E1 & E2 & E3 & E4).
    destruct (proj1 (C35_accepts_iff rg now t self ids thr HS V HT) (ex_intro _ s0 NEW)) as [Hin _].
    apply (delivers ids o1 o2 order self m b m'); auto; [apply V|].
    destruct (C08_sent rg now t self ids thr s0 NEW V HT es s out RUN) as [->|(pr & _ & [->| ->])]; [destruct Hm|destruct Hm as [<-|[] ]; now left|].
    destruct Hm as [<-|Hm]; [now left|]. apply in_map_iff in Hm as (i & <- & Hi). right. apply others_of_In in Hi. exact Hi.
  Qed.
  Theorem C69_sign : forall rg now t ids secret shares message s0 es s out m o1 o2 order, List.NoDup ids -> Forall is_u16 ids -> 1 <= sh_ID secret < 65536 ->
    NewSignState rg now t ids secret shares message = Ret s0 -> run sign_round s0 es = Ret (s, out) -> In m out -> delivered ids o1 o2 order (sh_ID secret) m.
  Proof.
    intros rg now t ids secret shares message s0 es s out m o1 o2 order ND HU HI NEW RUN Hm.
    destruct (C60_udp_sign HH rg now t ids secret shares message s0 es s out m ND HU HI NEW RUN Hm) as (b & m' & E1 & E2 & E3 & E4).
    destruct (C36_rejects_partial _ _ _ _ _ _ _ _ NEW) as (Hin & _).
    apply (delivers ids o1 o2 order _ m b m'); auto. left.
    destruct (C14_same_nonces HH rg now t ids secret shares message s0 NEW ND HU es s out RUN) as [->|[->|(cl & _ & ->)] ]; [destruct Hm|destruct Hm as [<-|[] ]; reflexivity|].
    destruct Hm as [<-|[<-|[] ] ]; reflexivity.
  Qed.
End Deliver.

(** * Concrete cases *)
(** Three sockets with ports 100, 101, 102; the text of an address is the port.  A broadcast of 2, a message from 2 to 5, one to nobody; and
    a broadcast whose second write fails. *)
Definition t_listen (k : nat) : Z * Z := (100 + Z.of_nat k, 100 + Z.of_nat k).
Definition t_comms : gmap Z udp := NewUDPCommunicatorMap (fun a => Some a) t_listen [2; 5; 9] [9; 2] (fun _ => []).
Definition t_sent (wr : nat -> bool) (m : @Message toy_group) : list Z * bool :=
  match t_comms !! 2 with
  | Some c => let '(l, r) := udp_Send wr [9; 5] c m in (map fst l, match r with Ret _ => true | _ => false end)
  | None => ([], false)
  end.
Example C69_example : (forall k, Some (snd (t_listen k)) = Some (fst (t_listen k))) /\
  t_sent (fun _ => true) (@NewSign2 toy_group 2 (qof 7)) = ([102; 101], true) /\
  t_sent (fun _ => true) (@NewKeyGen2 toy_group 2 5 (qof 7)) = ([101], true) /\
  t_sent (fun _ => true) (@NewKeyGen2 toy_group 2 4 (qof 7)) = ([], false) /\
  t_sent (fun k => Nat.eqb k 0) (@NewSign2 toy_group 2 (qof 7)) = ([102], false) /\
  option_map ud_buffer (t_comms !! 2) = Some (Some 256%nat) /\
  (* a repeated ID: the socket opened last is the one the others know *)
  option_map ud_peers (NewUDPCommunicatorMap (fun a => Some a) t_listen [2; 5; 5] [] (fun _ => []) !! 2) = Some (<[5 := Some 102]> ∅).
Proof. split; [reflexivity|]. repeat split; vm_compute; reflexivity. Qed.
(** The whole test with two parties over the Channel transport: the States at the end come from the Handlers' as C60_test_channel asks. *)
Definition t_test (acts_k acts_s : list hact) : option (option (outcome unit)) :=
  let kids := [42; 43] in
  match @keygen_handlers toy_group toy_hash toy_rng (fun _ => 0) 0 1 kids with
  | Ret sts =>
    match head (map snd (map_to_list sts)) with
    | Some d =>
      match @h_exec toy_group tkround tkg kids (h_init (get_state sts d)) acts_k with
      | Some c =>
        match @collect_keygen toy_group [43; 42] (hc_state c) None ∅ with
        | Some (Ret (shares, secrets)) =>
          match @sign_handlers toy_group toy_hash (fun i => toy_rng (i + 7)) (fun _ => 0) 0 kids shares secrets (list_byte_of_string "hello") with
          | Ret sts' =>
            match head (map snd (map_to_list sts')) with
            | Some d' =>
              match @h_exec toy_group tsround tsg kids (h_init (get_state sts' d')) acts_s with
              | Some c' => Some (@FROSTest toy_group toy_hash (fun _ _ _ => true) 0 toy_rng (fun i => toy_rng (i + 7)) (fun _ => 0) (fun _ => 0) [43; 42] [42; 43] (hc_state c) (hc_state c') 2 1)
              | None => None
              end
            | None => None
            end
          | _ => None
          end
        | _ => None
        end
      | None => None
      end
    | None => None
    end
  | _ => None
  end.
Example C60_test_example : t_test acts2 acts2 = Some (Some (Ret tt)) /\ t_test acts2 (firstn 5 acts2) = Some None /\
  SetScalarRandom (toy_rng 49) 0 <> f0 /\ SetScalarRandom (toy_rng 49) 1 <> f0.
Proof. split; [vm_compute; reflexivity|]. split; [vm_compute; reflexivity|]. split; intros H; apply (f_equal fz) in H; vm_compute in H; discriminate. Qed.
(** A line of main for each call; one that blocks ends the output. *)
Example C60_main_example :
  main_lines (fun _ n t => if (t =? 0) || (n <=? t) then Some (Fail "threshold") else Some (Ret tt)) calls_of_main = (repeat LOk 12 ++ repeat LOkFailed 9, true) /\
  main_lines (fun udp n t => if udp then Some (Ret tt) else None) calls_of_main = ([LOk; LOk], false).
Proof. split; vm_compute; reflexivity. Qed.

(** Over UDP a Handler gives up 1.5 seconds after the last message it accepted (or its start), neither earlier nor later, if the timer's callback
    gets the mutex at once; a signer's callback never crashes, a keygen Handler's only before its first ProcessAll (C17_refuted). *)
Section GivesUp.
  Context `{Gr : group_ops} {R : Type} (I : RoundI R) (ROK : round_ok I).
  Theorem C69_gives_up : forall s c l now s', timed I udp_Timeout s c l -> c <= now -> st_done s = false ->
    (timerExpire now s <> s -> l + 1500 <= now) /\
    (l + 1500 <= now -> timerCallback I (timerExpire now s) = Ret s' -> st_done s' = true /\ st_err s' = Some (mkPError 0 (st_roundNumber s) "message timeout")).
  Proof.
    intros s c l now s' HT Hc D. split.
    - intros H. destruct (C17_not_early I ROK _ _ _ _ _ HT H) as [_ X]. exact X.
    - intros Hl E. apply (C17_aborts I ROK udp_Timeout s c l now s' HT ltac:(unfold udp_Timeout; lia) Hc Hl D E).
  Qed.
End GivesUp.
Example C69_gives_up_example :
  match tk_run (tk_new k3 1 1 udp_Timeout) [prc; @EExpire toy_group 1499; @ECallback toy_group] with Ret (s, _) => st_done s | _ => true end = false /\
  match tk_run (tk_new k3 1 1 udp_Timeout) [prc; @EExpire toy_group 1500; @ECallback toy_group] with Ret (s, _) => option_map pe_text (st_err s) | _ => None end = Some "message timeout"%string.
Proof. split; vm_compute; reflexivity. Qed.

Print Assumptions C60_test.
Print Assumptions C60_test_channel.
Print Assumptions C60_test_no_timeout.
Print Assumptions C60_test_rejects.
Print Assumptions C60_main.
Print Assumptions C69_map.
Print Assumptions C69_send.
Print Assumptions C69_write_error.
Print Assumptions C69_keygen.
Print Assumptions C69_sign.
Print Assumptions C69_gives_up.
