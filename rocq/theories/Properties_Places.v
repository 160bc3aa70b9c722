(** C31: the signer command signs whichever way the shares are filed, as long as every party has one (the other direction of Properties_Owners.v). *)
From Coq Require Import ZArith Lia List Bool String Permutation.
From Coq.Strings Require Import Byte.
From stdpp Require Import base gmap list fin_maps.
From Verif Require Import ZField Primes Bytes Scalar Go Group ToyGroup Party Poly PolyFacts Eddsa Messages State StateFacts Spec_State Sign RoundFacts Helpers Cmd
  Spec_Poly PolyAlg Spec_Group Spec_Wire CodecFacts Properties_Algebra Properties_Helpers Spec_Sign SignFacts SignRun Spec_SignRun NetProgress Lockstep
  Properties_Sign Properties_HonestSign Properties_Cmd Properties_Owners.
Import ListNotations.
Local Open Scope Z_scope.

Local Opaque SetScalarRandom.

Lemma map_NoDup_in {A B} (f : A -> B) l : (forall a b, In a l -> In b l -> f a = f b -> a = b) -> List.NoDup l -> List.NoDup (map f l).
Proof.
  intros H ND. induction ND as [|x l Hx ND IH]; cbn [map]; constructor.
  - intros Y. apply in_map_iff in Y as (y & E & Hy). apply Hx. rewrite <- (H y x); auto; [now right|now left].
  - apply IH. intros a b Ha Hb. apply H; now right.
Qed.

(** The three loops do not look at the keys of the map of States. *)
Section Relabel.
  Context `{Gr : group_ops} {R : Type} (I : RoundI R).
  Context (ids : list Z) (p q : Z -> Z).
  Context (Pin : forall k, In k ids -> In (p k) ids) (Qin : forall k, In k ids -> In (q k) ids).
  Context (QP : forall k, In k ids -> q (p k) = k) (PQ : forall k, In k ids -> p (q k) = k).
  Notation keyed := (over ids).

  Definition relabel (v : loop_env) (order : list Z) : loop_env :=
    mkLoopEnv (map p order) (fun j => le_now v (q j)) (fun j => le_sched v (q j)) (fun j => le_sched' v (q j)).
  Definition rel (m1 m2 : gmap Z (option (State R))) : Prop := keyed m1 /\ keyed m2 /\ forall k, In k ids -> m2 !! p k = m1 !! k.

  Lemma keyed_insert (m : gmap Z (option (State R))) k x : keyed m -> In k ids -> keyed (<[k := x]> m).
  Proof.
    intros HO Hk i. destruct (Z.eq_dec i k) as [->|Hne]; [rewrite lookup_insert; split; [auto|discriminate]|]. rewrite lookup_insert_ne by congruence. apply HO.
  Qed.
  Lemma drive_loop_relabel v order ins ks : incl ks ids -> forall m1 m2 acc m2' out, rel m1 m2 ->
    drive_loop I (relabel v order) ins (map p ks) m2 acc = Ret (m2', out) -> exists m1', drive_loop I v ins ks m1 acc = Ret (m1', out) /\ rel m1' m2'.
  Proof.
    induction ks as [|k ks IH]; intros HI m1 m2 acc m2' out HR E; cbn [map drive_loop] in *.
    - apply Ret_inj in E. inversion E; subst. eauto.
    - assert (In k ids) as Hk by (apply HI; now left). destruct HR as (A & B & C). rewrite (C k Hk) in E. destruct (m1 !! k) as [ [s|]|] eqn:Ek; try discriminate.
      cbn [relabel le_now le_sched le_sched'] in E. rewrite (QP k Hk) in E. destruct (PartyRoutine _ _ _ _ ins s) as [s' [o|e|w] ]; try discriminate.
      eapply IH; [intros x Hx; apply HI; now right| |exact E]. split; [now apply keyed_insert|]. split; [apply keyed_insert; auto|].
      intros j Hj. destruct (Z.eq_dec j k) as [->|Hne]; [now rewrite !lookup_insert|].
      rewrite !lookup_insert_ne; auto. intros Y. apply Hne. rewrite <- (QP j Hj), <- (QP k Hk). now rewrite Y.
  Qed.
  Lemma keyed_keys o (m : gmap Z (option (State R))) : keyed m -> forall k, In k (map_keys o m) <-> In k ids.
  Proof.
    intros HO k. rewrite map_keys_In. rewrite <- (HO k). destruct (m !! k) as [x|]; split; try congruence; eauto. intros [x Hx]. discriminate.
  Qed.
  Lemma drive_relabel v ins m1 m2 m2' out : rel m1 m2 -> drive I (relabel v (map_keys (le_order v) m1)) ins m2 = Ret (m2', out) ->
    exists m1', drive I v ins m1 = Ret (m1', out) /\ rel m1' m2'.
  Proof.
    intros HR E. destruct HR as (A & B & C). set (ks := map_keys (le_order v) m1) in *. pose proof (keyed_keys (le_order v) m1 A) as HK. fold ks in HK.
    assert (map_keys (map p ks) m2 = map p ks) as X.
    { unfold map_keys. rewrite bool_decide_true; auto. change ((map_to_list m2).*1) with (map fst (map_to_list m2)).
      etransitivity; [|apply (map_keys_perm [] m2)]. apply Permutation.NoDup_Permutation.
      - apply map_NoDup_in; [|apply map_keys_NoDup]. intros a b Ha Hb Y. apply HK in Ha, Hb. rewrite <- (QP a Ha), <- (QP b Hb). now rewrite Y.
      - apply map_keys_NoDup.
      - intros j. rewrite (keyed_keys [] m2 B). rewrite in_map_iff. split; [intros (k & <- & Hk); apply Pin; now apply HK|].
        intros Hj. exists (q j). split; [now apply PQ|]. apply HK. now apply Qin. }
    unfold drive in E. cbn [relabel le_order] in E. rewrite X in E. eapply drive_loop_relabel in E; [exact E| |split; auto]. intros k Hk. now apply HK.
  Qed.
  Lemma drive3_relabel v m1 m2 (Fin : gmap Z (option (State R)) -> Prop) : rel m1 m2 -> (forall v', exists m2', drive3 I v' m2 = Ret m2' /\ Fin m2') ->
    exists m1' m2', drive3 I v m1 = Ret m1' /\ rel m1' m2' /\ Fin m2'.
  Proof.
    intros HR HD. set (w0 := relabel (v 0%nat) (map_keys (le_order (v 0%nat)) m1)).
    destruct (HD (fun _ => w0)) as (x & E & _). unfold drive3 in E. apply obind_ret in E as ([a1 b1] & E1 & _).
    destruct (drive_relabel _ _ _ _ _ _ HR E1) as (c1 & F1 & R1). clear x.
    set (w1 := relabel (v 1%nat) (map_keys (le_order (v 1%nat)) c1)).
    destruct (HD (fun i => match i with 0%nat => w0 | _ => w1 end)) as (x & E & _). unfold drive3 in E. rewrite E1 in E. cbn [obind fst snd] in E.
    apply obind_ret in E as ([a2 b2] & E2 & _). destruct (drive_relabel _ _ _ _ _ _ R1 E2) as (c2 & F2 & R2). clear x.
    set (w2 := relabel (v 2%nat) (map_keys (le_order (v 2%nat)) c2)).
    destruct (HD (fun i => match i with 0%nat => w0 | 1%nat => w1 | _ => w2 end)) as (x & E & HF). unfold drive3 in E. rewrite E1 in E. cbn [obind fst snd] in E.
    rewrite E2 in E. cbn [obind fst snd] in E. apply obind_ret in E as ([a3 b3] & E3 & E). apply Ret_inj in E. cbn [fst] in E. subst x.
    destruct (drive_relabel _ _ _ _ _ _ R2 E3) as (c3 & F3 & R3).
    exists c3, a3. split; auto. unfold drive3. rewrite F1. cbn [obind fst snd]. rewrite F2. cbn [obind fst snd]. rewrite F3. reflexivity.
  Qed.
End Relabel.

Section Places.
  Context `{L : group_laws} `{Hf : hash_fn} (HH : hash_ok Hf).

  (** The file's Public is that of [F], and every share in it is true to the ID it carries; nothing is said about the place where it is filed. *)
  Definition true_shares (n t : Z) (F : Fq -> Fq) (secrets : gmap Z (option SecretShare)) (public : Public) : Prop :=
    (forall k, 1 <= k <= n -> exists sk, secrets !! k = Some (Some sk) /\ 1 <= sh_ID sk <= n /\ sh_Secret sk = F (qof (sh_ID sk))) /\
    pub_PartyIDs public = upto n /\ pub_Threshold public = t /\ geq (pub_GroupKey public) (gbmul (F f0)) /\
    (forall i, 1 <= i <= n -> exists A, pub_Shares public !! i = Some A /\ geq A (gbmul (F (qof i)))).
  Definition all_filed (n : Z) (secrets : gmap Z (option SecretShare)) : Prop :=
    forall i, 1 <= i <= n -> exists k sk, 1 <= k <= n /\ secrets !! k = Some (Some sk) /\ sh_ID sk = i.

  Theorem C31_places : forall edv fuel rg now v n t f secrets public message, 0 <= t < n -> n < 65535 -> (Z.to_nat n < fuel)%nat -> degree_le (Z.to_nat t) f ->
    true_shares n t (spoly f) secrets public -> all_filed n secrets ->
    (forall i, 1 <= i <= n -> SetScalarRandom (rg i) 0 <> f0 /\ SetScalarRandom (rg i) 1 <> f0) ->
    (forall Y sig, Verify Y message sig = true -> edv (pk_ToEd25519 Y) message (sig_ToEd25519 sig) = true) ->
    exists sig, signer_run edv fuel rg now v (Ret (secrets, Some public)) message = Some (Ret sig) /\ Verify (gbmul (spoly f f0)) message sig = true.
  Proof.
    intros edv fuel rg now v n t f secrets public message Ht Hn Hfuel Hdeg HF HA NZ ED. unfold signer_run.
    destruct HF as (K1 & K3 & K4 & K6 & K5). rewrite K3.
    pose proof (upto_sorted n) as HS. pose proof (upto_valid n ltac:(lia)) as V. pose proof (upto_length n ltac:(lia)) as Hlen.
    assert (N_ids (upto n) = n) as -> by (unfold N_ids, u16; rewrite Hlen; apply Z.mod_small; lia). rewrite C30_set by lia.
    assert (List.NoDup (upto n)) as ND. { unfold upto. apply FinFun.Injective_map_NoDup; [intros a b; lia|apply seq_NoDup]. }
    assert (forall i, In i (upto n) <-> 1 <= i <= n) as HIn by (intros i; apply upto_In). set (ids := upto n) in *.
    set (p := fun k => match secrets !! k with Some (Some sk) => sh_ID sk | _ => 0 end).
    destruct (choice_ids (fun i k => In k ids /\ p k = i) ids 0) as [q Hq].
    { intros i Hi. destruct (HA i) as (k & sk & Hk & E & Ei); [now apply HIn|]. exists k. split; [now apply HIn|]. unfold p. now rewrite E. }
    assert (forall k, In k ids -> In (q k) ids) as Qin by (intros k Hk; apply (Hq k Hk)).
    assert (forall k, In k ids -> p (q k) = k) as PQ by (intros k Hk; apply (Hq k Hk)).
    assert (forall k, In k ids -> In (p k) ids) as Pin.
    { intros k Hk. destruct (K1 k) as (sk & E & H & _); [now apply HIn|]. unfold p. rewrite E. now apply HIn. }
    assert (forall k, In k ids -> q (p k) = k) as QP.
    { intros k Hk. assert (In k (map q ids)) as Hm.
      { apply (NoDup_length_incl (l := map q ids) (l' := ids)); [|now rewrite map_length| |exact Hk].
        - apply map_NoDup_in; auto. intros a b Ha Hb Y. rewrite <- (PQ a Ha), <- (PQ b Hb). now rewrite Y.
        - intros x Hx. apply in_map_iff in Hx as (y & <- & Hy). auto. }
      apply in_map_iff in Hm as (i & <- & Hi). now rewrite (PQ i Hi). }
    destruct (choice_ids (fun i sk => secrets !! q i = Some (Some sk) /\ sh_ID sk = i /\ sh_Secret sk = spoly f (qof i)) ids (mkSecretShare 0 f0 gid)) as [sh Hsh].
    { intros i Hi. destruct (K1 (q i)) as (sk & E & H1 & H2); [apply HIn; auto|]. exists sk. pose proof (PQ i Hi) as Y. unfold p in Y. rewrite E in Y. rewrite Y in H2. auto. }
    destruct (choice_ids (fun i s => NewSignState (rg (q i)) (now (q i)) 0 ids (sh i) public message = Ret s) ids
      (NewBaseState sign_round 0 0 (mkSround 0 0 [] [] ∅ gid f0 f0 f0 f0 gid true None (rg 0)))) as [s0 Hs0].
    { intros i Hi. destruct (Hsh i Hi) as (_ & Hid & _). apply C36_accepts; auto.
      - now rewrite K3.
      - now apply valid_u16.
      - now rewrite Hid.
      - intros j Hj. rewrite K3. apply HIn in Hj as Hj'. split; auto. split; [lia|]. destruct (K5 j Hj') as (A & EA & _). eauto. }
    assert (forall l (acc : gmap Z (option (State sround))), incl l ids -> exists sts, ofold (fun (acc : gmap Z (option (State sround))) id =>
            match secrets !! id with
            | Some (Some sk) => match NewSignState (rg id) (now id) 0 ids sk public message with
              | Ret s => Ret (<[id := Some s]> acc) | Fail _ => Ret (<[id := None]> acc) | Panics w => Panics w end
            | _ => Panics "nil SecretShare" end) acc l = Ret sts /\
        (forall i, In i l -> sts !! i = Some (Some (s0 (p i)))) /\ (forall i, ~ In i l -> sts !! i = acc !! i)) as X.
    { induction l as [|i l IH]; intros acc Hl; cbn [ofold].
      - exists acc. split; auto. split; [intros i []|auto].
      - pose proof (Hl i (or_introl eq_refl)) as Hi. destruct (Hsh (p i) (Pin i Hi)) as (Es & _). rewrite (QP i Hi) in Es. rewrite Es.
        pose proof (Hs0 (p i) (Pin i Hi)) as En. rewrite (QP i Hi) in En. rewrite En.
        destruct (IH (<[i := Some (s0 (p i))]> acc)) as (sts & Ex & A & B); [intros j Hj; apply Hl; now right|].
        exists sts. split; auto. split.
        + intros j [<-|Hj]; auto. destruct (in_dec Z.eq_dec i l) as [Hi'|Hi']; auto. rewrite B by auto. apply lookup_insert.
        + intros j Hj. rewrite B by (intros Y; apply Hj; now right). apply lookup_insert_ne. intros ->. apply Hj. now left. }
    destruct (X ids ∅ ltac:(intros x; auto)) as (sts & X1 & A & B). setoid_rewrite X1. clear X X1. cbn [obind].
    assert (forall l, exists m2 : gmap Z (option (State sround)), (forall i, In i l -> m2 !! i = Some (Some (s0 i))) /\ (forall i, ~ In i l -> m2 !! i = None)) as X.
    { induction l as [|i l (m2 & M1 & M2)]; [exists ∅; split; [intros i []|intros; apply lookup_empty]|]. exists (<[i := Some (s0 i)]> m2). split.
      - intros j Hj. destruct (Z.eq_dec j i) as [->|Hne]; [apply lookup_insert|]. rewrite lookup_insert_ne by congruence. destruct Hj as [->|Hj]; [congruence|auto].
      - intros j Hj. rewrite lookup_insert_ne by (intros ->; apply Hj; now left). apply M2. intros Y. apply Hj. now right. }
    destruct (X ids) as (m2 & M1 & M2). clear X.
    assert (over ids sts) as HO. { intros i. split; [|intros Hi; rewrite A by auto; discriminate]. intros Hi. destruct (in_dec Z.eq_dec i ids) as [|Hx]; auto. rewrite B in Hi by auto. now rewrite lookup_empty in Hi. }
    assert (over ids m2) as HO2. { intros i. split; [|intros Hi; rewrite M1 by auto; discriminate]. intros Hi. destruct (in_dec Z.eq_dec i ids) as [|Hx]; auto. now rewrite M2 in Hi. }
    assert (rel ids p sts m2) as HR. { split; auto. split; auto. intros k Hk. rewrite (M1 _ (Pin k Hk)). now rewrite A. }
    assert (forall i, In i ids -> sh_ID (sh i) = i /\ sh_Secret (sh i) = spoly f (qof i)) as SH by (intros i Hi; apply (Hsh i Hi)).
    assert (forall i j, In i ids -> In j ids -> exists A, pub_Shares public !! j = Some A /\ geq A (gbmul (spoly f (qof j)))) as PUB.
    { intros i j _ Hj. apply K5. now apply HIn. }
    assert (forall i, In i ids -> SetScalarRandom (rg (q i)) 0 <> f0 /\ SetScalarRandom (rg (q i)) 1 <> f0) as NZ' by (intros i Hi; apply NZ; apply HIn; auto).
    assert (Z.to_nat t + 1 <= List.length ids)%nat as Hnum by lia.
    destruct (drive3_relabel sign_round ids p q Pin Qin QP PQ v sts m2 _ HR
      (fun v' => match sign_drive3 HH (Z.to_nat t) f ids HS Hdeg V Hnum message (fun i => rg (q i)) (fun _ => public) sh (fun i => now (q i)) (fun _ => 0) s0 SH PUB (fun _ _ => K6) Hs0 NZ' v' m2 HO2 M1
        with ex_intro _ m (conj E (conj _ H)) => ex_intro _ m (conj E H) end)) as (sts' & m2' & E3 & (_ & _ & HR') & HFin).
    rewrite E3. cbn [obind]. assert (exists l, ids = 1 :: l) as [l El]. { unfold ids, upto. destruct (Z.to_nat n) eqn:En; [lia|]. cbn. eauto. }
    assert (In 1 ids) as H1 by (rewrite El; now left). rewrite El. pose proof (Pin 1 H1) as HP1.
    destruct (HFin (p 1) HP1) as (s & es & out & Es & [Erun HE _ _] & D & Er). rewrite (HR' 1 H1) in Es. setoid_rewrite Es.
    pose proof (honest_final HH (Z.to_nat t) f ids Hdeg V Hnum message (fun i => rg (q i)) (fun _ => public) sh (fun i => now (q i)) (fun _ => 0) s0 SH PUB (fun _ _ => K6) Hs0 NZ' (p 1) es s out HP1 HE Erun D) as Y.
    rewrite Er in Y. destruct Y as (sig & -> & Y1 & Y2 & Y3).
    assert (Verify (pub_GroupKey public) message sig = true) as YV.
    { apply Verify_iff; auto. apply Verify_iff in Y3; auto. eapply schnorr_valid_proper; [|reflexivity|exact Y3]. exact K6. }
    rewrite (ED _ _ YV), YV. cbn [negb]. exists sig. auto.
  Qed.

  (** With shares that are true to the ID they carry, the command prints a signature exactly when every party's share is there. *)
  Theorem C31_places_iff : forall edv fuel rg now v n t f secrets public message, 0 <= t < n -> n < 65535 -> (Z.to_nat n < fuel)%nat -> degree_le (Z.to_nat t) f ->
    true_shares n t (spoly f) secrets public ->
    (forall i, 1 <= i <= n -> SetScalarRandom (rg i) 0 <> f0 /\ SetScalarRandom (rg i) 1 <> f0) ->
    (forall Y sig, Verify Y message sig = true -> edv (pk_ToEd25519 Y) message (sig_ToEd25519 sig) = true) ->
    (exists sig, signer_run edv fuel rg now v (Ret (secrets, Some public)) message = Some (Ret sig)) <-> all_filed n secrets.
  Proof.
    intros edv fuel rg now v n t f secrets public message Ht Hn Hfuel Hdeg HF NZ ED. split.
    - intros [sig E] i Hi. destruct HF as (_ & K3 & _). assert (N_ids (pub_PartyIDs public) = n) as EN.
      { rewrite K3. unfold N_ids, u16. rewrite (upto_length n) by lia. apply Z.mod_small; lia. }
      destruct (C31_owners HH edv fuel rg now v secrets public message sig) with (i := i) as (k & sk & H); try rewrite EN in *; eauto; lia.
    - intros HA. destruct (C31_places edv fuel rg now v n t f secrets public message Ht Hn Hfuel Hdeg HF HA NZ ED) as (sig & E & _). eauto.
  Qed.
End Places.

(** A case: the two shares of C31_owners_example filed the other way round. *)
Example C31_places_example : exists secrets public sk1 sk2 sig, two_keys = Some (Ret (secrets, public)) /\ secrets !! 1 = Some sk1 /\ secrets !! 2 = Some sk2 /\
  sh_ID sk1 = 1 /\ sh_ID sk2 = 2 /\ sign_with sk2 sk1 public = Some (Ret sig).
Proof.
  assert (match two_keys with
    | Some (Ret (secrets, public)) =>
      match secrets !! 1, secrets !! 2 with
      | Some sk1, Some sk2 => (sh_ID sk1 =? 1) && (sh_ID sk2 =? 2) && match sign_with sk2 sk1 public with Some (Ret _) => true | _ => false end
      | _, _ => false end
    | _ => false end = true) as H by (vm_compute; reflexivity).
  revert H. generalize two_keys. intros k. destruct k as [[[secrets public]|e|w]|]; try discriminate.
  destruct (secrets !! 1) as [sk1|] eqn:E1; try discriminate. destruct (secrets !! 2) as [sk2|] eqn:E2; try discriminate.
  intros H. apply andb_prop in H as [H H3]. apply andb_prop in H as [H1 H2]. apply Z.eqb_eq in H1, H2. revert H3.
  destruct (sign_with sk2 sk1 public) as [[sig|e|w]|] eqn:E3; try discriminate. intros _. exists secrets, public, sk1, sk2, sig. auto 10.
Qed.

Print Assumptions C31_places.
Print Assumptions C31_places_iff.
