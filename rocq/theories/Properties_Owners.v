(** C31: the signer command needs a share of every party (cmd/signer does not look whose share is filed under an ID). *)
From Coq Require Import ZArith Lia List Bool String Permutation.
From Coq.Strings Require Import Byte.
From stdpp Require Import base gmap list fin_maps.
From Verif Require Import ZField Primes Bytes Scalar Go Group ToyGroup Party Poly PolyFacts Eddsa Messages State StateFacts Spec_State Sign RoundFacts Helpers Cmd
  Spec_Poly PolyAlg Spec_Group Spec_Wire CodecFacts Properties_Algebra Properties_Helpers Spec_Sign SignFacts SignRun Spec_SignRun Properties_Sign Properties_Cmd.
Import ListNotations.
Local Open Scope Z_scope.

Local Opaque SetScalarRandom.

Section From.
  Context `{Gr : group_ops} `{Hf : hash_fn}.
  Lemma sent_from s0 es s out : run sign_round s0 es = Ret (s, out) -> Forall (fun m => m_From m = sr_self (st_round s0)) out.
  Proof.
    intros E. apply (run_ind sign_round (fun s o => sr_self (st_round s) = sr_self (st_round s0) /\ Forall (fun m => m_From m = sr_self (st_round s0)) o) s0) in E; [apply E|auto|].
    intros s1 o1 e s2 o [A B] ES. pose proof (step_ids sign_round sign_round_ok _ _ _ _ ES) as [C _]. cbn [sign_round r_self] in C.
    split; [congruence|]. apply Forall_app. split; [exact B|]. destruct e as [nw m|sc sc'|nw|]; cbn [step] in ES.
    - destruct (HandleMessage sign_round nw s1 m) as [s3 er]. apply Ret_inj in ES. inversion ES; subst. constructor.
    - apply process_cases in ES. destruct ES as [_ -> _|r c t D HS EP ER ->|r r' c t D HS EP EG ER ->|r r' ct tl rcv q D HS EP EG EA EQ EN]; try constructor.
      destruct (process_loop_ids sign_round sign_round_ok _ _ (st_round s1) r (or_introl (ex_intro _ tt EP))) as [X _]. cbn [sign_round r_self] in X.
      rewrite <- A, <- X. clear -EG. cbn [sign_round r_generate] in EG. destruct (sr_no r) as [|[|n]].
      + unfold sg0_generate in EG. destruct (sr_Parties r !! sr_self r); [|discriminate]. inversion EG; subst. repeat constructor.
      + unfold sg1_generate in EG. destruct (computeRhos r); try discriminate. cbv zeta in EG. destruct (_ !! sr_self r); [|discriminate]. inversion EG; subst. repeat constructor.
      + unfold sg2_generate in EG. destruct (negb _); [discriminate|]. destruct (sr_outp r); inversion EG; subst. constructor.
    - apply Ret_inj in ES. inversion ES; subst. constructor.
    - apply obind_ret in ES as (s3 & _ & ES). apply Ret_inj in ES. inversion ES; subst. constructor.
  Qed.

  Lemma wire_from m b m' : is_u16 (m_From m) -> msg_MarshalBinary m = Ret b -> msg_UnmarshalBinary zero_message b = Ret m' -> m_From m' = m_From m.
  Proof.
    intros HU EM EU. unfold msg_MarshalBinary in EM. apply obind_ret in EM as (h & EH & EM). unfold header_bytes in EH. apply obind_ret in EH as (u & _ & EH). apply Ret_inj in EH. subst h.
    match type of EM with match ?X with _ => _ end = _ => destruct X as [body|]; [|discriminate] end. apply Ret_inj in EM. subst b.
    unfold msg_UnmarshalBinary in EU. apply obind_ret in EU as (h & EH & EU).
    assert (h_From h = m_From m) as HF.
    { unfold id_bytes, be16 in EH. cbn [app header_unmarshal] in EH. apply obind_ret in EH as (u2 & _ & EH). apply Ret_inj in EH. subst h. cbn [h_From]. apply be16_val_be16. exact HU. }
    unfold zero_message in EU. rewrite <- HF.
    destruct (h_Type h =? MTKeyGen1); [|destruct (h_Type h =? MTKeyGen2); [|destruct (h_Type h =? MTSign1); [|destruct (h_Type h =? MTSign2); [|discriminate] ] ] ];
      apply obind_ret in EU as (k & _ & EU); apply Ret_inj in EU; subst m'; reflexivity.
  Qed.
End From.

Section Owners.
  Context `{L : group_laws} `{Hf : hash_fn} (HH : hash_ok Hf).
  Context (rg : Z -> rng) (now : Z -> Z) (secrets : gmap Z (option SecretShare)) (public : Public) (message : list byte) (ids : list Z).
  Context (ND : List.NoDup ids) (HU : Forall is_u16 ids).

  (** Somebody's share is in the file under one of the IDs. *)
  Definition owned (i : Z) : Prop := exists k sk, In k ids /\ secrets !! k = Some (Some sk) /\ sh_ID sk = i.
  Definition good_bytes (b : list byte) : Prop := forall m, msg_UnmarshalBinary zero_message b = Ret m -> owned (m_From m).
  (** A State of the command: made from the share filed under [k], and fed with messages of owners only. *)
  Definition made (k : Z) (s : State sround) : Prop := exists sk s0 es out, In k ids /\ secrets !! k = Some (Some sk) /\
    NewSignState (rg k) (now k) 0 ids sk public message = Ret s0 /\ run sign_round s0 es = Ret (s, out) /\ forall m, given es m -> owned (m_From m).
  Definition all_made (sts : gmap Z (option (State sround))) : Prop := forall k s, sts !! k = Some (Some s) -> made k s.

  Lemma made_routine k s nw sc sc' ins s' out : made k s -> Forall good_bytes ins -> PartyRoutine sign_round nw sc sc' ins s = (s', Ret out) ->
    made k s' /\ Forall good_bytes out.
  Proof.
    intros (sk & s0 & es & o & Hk & Hsk & NEW & RUN & HG) HI EP. destruct (C31_routine sign_round _ _ _ _ _ _ _ EP) as (ms & outs & F1 & R2 & F2 & _).
    assert (run sign_round s0 (es ++ map (EHandle nw) ms ++ [EProcess sc sc']) = Ret (s', o ++ outs)) as RUN'.
    { rewrite run_app, RUN. cbn [obind fst snd]. rewrite R2. reflexivity. }
    split.
    - exists sk, s0, (es ++ map (EHandle nw) ms ++ [EProcess sc sc']), (o ++ outs). split; [exact Hk|]. split; [exact Hsk|]. split; [exact NEW|]. split; [exact RUN'|].
      intros m [n Hm]. apply in_app_or in Hm as [Hm|Hm]; [apply HG; now exists n|]. apply in_app_or in Hm as [Hm|[Hm|[] ] ]; [|discriminate].
      apply in_map_iff in Hm as (m1 & E1 & Hm). injection E1 as _ ->.
      clear -F1 HI Hm. induction F1 as [|b m2 bs ms0 E F IH]; [contradiction|]. apply Forall_cons in HI as [H1 H2]. destruct Hm as [->|Hm]; [now apply H1|now apply IH].
    - destruct (NewSignState_round _ _ _ _ _ _ _ _ NEW) as (r0 & E1 & E0). destruct (NewRound_fields _ _ _ _ _ _ E1) as (_ & _ & _ & _ & _ & Hs & _).
      pose proof (sent_from _ _ _ _ RUN') as HF. apply Forall_app in HF as [_ HF]. rewrite E0 in HF. cbn [NewBaseState st_round] in HF. rewrite Hs in HF.
      assert (is_u16 (sh_ID sk)) as Hu.
      { rewrite List.Forall_forall in HU. apply HU. exact (proj1 (new_round (given es) _ _ _ _ _ _ E1)). }
      clear -HF F2 Hu Hk Hsk. induction F2 as [|m b ms bs E F IH]; [constructor|]. apply Forall_cons in HF as [H1 H2]. constructor; [|now apply IH].
      intros m' EU. rewrite (wire_from m b m'); auto; [|now rewrite H1]. rewrite H1. exists k, sk. auto.
  Qed.

  Lemma drive_loop_made v ins ks : Forall good_bytes ins -> forall sts acc sts' out, all_made sts -> Forall good_bytes acc ->
    drive_loop sign_round v ins ks sts acc = Ret (sts', out) -> all_made sts' /\ Forall good_bytes out.
  Proof.
    intros HI. induction ks as [|k ks IH]; intros sts acc sts' out HS HA E; cbn [drive_loop] in E.
    - apply Ret_inj in E. inversion E; subst. auto.
    - destruct (sts !! k) as [ [s|]|] eqn:Ek; try discriminate.
      destruct (PartyRoutine sign_round (le_now v k) (le_sched v k) (le_sched' v k) ins s) as [s1 [o1|e|w] ] eqn:EP; try discriminate.
      destruct (made_routine _ _ _ _ _ _ _ _ (HS k s Ek) HI EP) as [M1 M2]. apply IH in E; auto.
      + intros k' s' Hk'. destruct (Z.eq_dec k' k) as [->|Hne]; [rewrite lookup_insert in Hk'; injection Hk' as <-; exact M1|].
        rewrite lookup_insert_ne in Hk' by congruence. now apply HS.
      + apply Forall_app. auto.
  Qed.
  Lemma drive3_made v sts sts' : all_made sts -> drive3 sign_round v sts = Ret sts' -> all_made sts'.
  Proof.
    intros HS E. unfold drive3 in E. apply obind_ret in E as ([a1 b1] & E1 & E). apply obind_ret in E as ([a2 b2] & E2 & E). apply obind_ret in E as ([a3 b3] & E3 & E).
    cbn [fst snd] in *. apply Ret_inj in E. subst sts'. unfold drive in *.
    apply drive_loop_made in E1 as [A1 B1]; auto. apply drive_loop_made in E2 as [A2 B2]; auto. apply drive_loop_made in E3 as [A3 _]; auto.
  Qed.

  Lemma made_finished k s : made k s -> sg_output s <> None -> forall i, In i ids -> owned i.
  Proof.
    intros (sk & s0 & es & o & Hk & Hsk & NEW & RUN & HG) HO i Hi.
    assert (st_done s = true /\ st_err s = None) as [D Er].
    { destruct (st_done s) eqn:D; [destruct (st_err s) eqn:Er; auto|]; exfalso; apply HO; eapply (C01_no_output_otherwise _ _ _ _ _ _ _ _ NEW); try (exists es; exact RUN); [right; congruence|left; auto]. }
    destruct (C01_signature HH _ _ _ _ _ _ _ _ NEW ND HU _ _ _ RUN D Er) as (sig & cl & zs & _ & HC & _).
    destruct (Z.eq_dec i (sh_ID sk)) as [->|Hne]; [exists k, sk; auto|].
    rewrite <- (co_ids _ _ _ _ _ _ HC) in Hi. apply in_map_iff in Hi as ([j [D' E'] ] & Ej & Hi). cbn in Ej. subst j.
    destruct (co_other _ _ _ _ _ _ HC i D' E' Hi Hne) as (m & Hm & <- & _). now apply HG.
  Qed.
End Owners.

Section Signer.
  Context `{L : group_laws} `{Hf : hash_fn} (HH : hash_ok Hf).
  (** Whatever the file, the randomness and the map orders: if the signer command prints a signature, then every party 1..n has its own share among
      those filed under 1..n. *)
  Theorem C31_owners : forall edv fuel rg now v secrets public message sig, N_ids (pub_PartyIDs public) < 65535 -> (Z.to_nat (N_ids (pub_PartyIDs public)) < fuel)%nat ->
    signer_run edv fuel rg now v (Ret (secrets, Some public)) message = Some (Ret sig) ->
    forall i, 1 <= i <= N_ids (pub_PartyIDs public) -> exists k sk, 1 <= k <= N_ids (pub_PartyIDs public) /\ secrets !! k = Some (Some sk) /\ sh_ID sk = i.
  Proof.
    intros edv fuel rg now v secrets public message sig Hlt Hfuel E i Hi. unfold signer_run in E. rewrite C30_set in E by lia.
    set (n := N_ids (pub_PartyIDs public)) in *. injection E as E. apply obind_ret in E as (sts & ES & E). cbv zeta in E. apply obind_ret in E as (sts' & ED & E).
    assert (List.NoDup (upto n)) as ND. { unfold upto. apply FinFun.Injective_map_NoDup; [intros a b; lia|apply seq_NoDup]. }
    assert (Forall is_u16 (upto n)) as HU. { apply List.Forall_forall. intros x Hx. apply upto_In in Hx. unfold is_u16. lia. }
    assert (all_made rg now secrets public message (upto n) sts) as HM.
    { assert (forall l acc, incl l (upto n) -> all_made rg now secrets public message (upto n) acc -> ofold (fun (acc : gmap Z (option (State sround))) id =>
            match secrets !! id with
            | Some (Some sk) => match NewSignState (rg id) (now id) 0 (upto n) sk public message with
              | Ret s => Ret (<[id := Some s]> acc) | Fail _ => Ret (<[id := None]> acc) | Panics w => Panics w end
            | _ => Panics "nil SecretShare" end) acc l = Ret sts -> all_made rg now secrets public message (upto n) sts) as X.
      { induction l as [|j l IH]; intros acc HI HA EO; cbn [ofold] in EO; [apply Ret_inj in EO; now subst|].
        destruct (secrets !! j) as [ [sk|]|] eqn:Ej; try discriminate. 
        destruct (NewSignState (rg j) (now j) 0 (upto n) sk public message) as [s0|e|w] eqn:NEW; try discriminate;
          cbn [obind] in EO; apply IH in EO; auto; try (intros x Hx; apply HI; now right);
          intros k s Hk; (destruct (Z.eq_dec k j) as [->|Hne]; [rewrite lookup_insert in Hk|rewrite lookup_insert_ne in Hk by congruence; now apply HA]); [|discriminate].
        injection Hk as <-. exists sk, s0, [], []. split; [apply HI; now left|]. split; [exact Ej|]. split; [exact NEW|]. split; [reflexivity|]. intros m [t [] ]. }
      eapply X; [apply incl_refl| |exact ES]. intros k s Hk. rewrite lookup_empty in Hk. discriminate. }
    apply (drive3_made rg now secrets public message (upto n) HU) in ED; [|exact HM].
    destruct (upto n) as [|id0 l] eqn:EI; [discriminate|]. rewrite <- EI in *. destruct (sts' !! id0) as [ [s|]|] eqn:Es; try discriminate.
    destruct (sg_output s) as [sg|] eqn:EO; [|discriminate].
    destruct (made_finished HH rg now secrets public message (upto n) ND HU id0 s (ED id0 s Es)) with (i := i) as (k & sk & Hk & A & B).
    - congruence.
    - now apply upto_In.
    - exists k, sk. apply upto_In in Hk. auto.
  Qed.
  (** Hence no party's share is filed twice. *)
  Theorem C31_owners_once : forall edv fuel rg now v secrets public message sig, N_ids (pub_PartyIDs public) < 65535 -> (Z.to_nat (N_ids (pub_PartyIDs public)) < fuel)%nat ->
    signer_run edv fuel rg now v (Ret (secrets, Some public)) message = Some (Ret sig) ->
    forall k k' sk sk', 1 <= k <= N_ids (pub_PartyIDs public) -> 1 <= k' <= N_ids (pub_PartyIDs public) ->
      secrets !! k = Some (Some sk) -> secrets !! k' = Some (Some sk') -> sh_ID sk = sh_ID sk' -> k = k'.
  Proof.
    intros edv fuel rg now v secrets public message sig Hlt Hfuel E k k' sk sk' Hk Hk' Ek Ek' Heq.
    pose proof (C31_owners edv fuel rg now v secrets public message sig Hlt Hfuel E) as HO. set (n := N_ids (pub_PartyIDs public)) in *.
    set (f := fun k => match secrets !! k with Some (Some sk) => sh_ID sk | _ => 0 end).
    assert (List.NoDup (map f (upto n))) as N.
    { apply (NoDup_incl_NoDup (l := upto n)); [|now rewrite map_length|].
      - unfold upto. apply FinFun.Injective_map_NoDup; [intros a b; lia|apply seq_NoDup].
      - intros i Hi. apply upto_In in Hi. destruct (HO i Hi) as (j & sj & Hj & Ej & <-). apply in_map_iff. exists j. split; [|now apply upto_In]. unfold f. now rewrite Ej. }
    assert (forall l a b, List.NoDup (map f l) -> In a l -> In b l -> f a = f b -> a = b) as X.
    { clear. induction l as [|x l IH]; intros a b ND Ha Hb Hf; [contradiction|]. cbn [map] in ND. inversion ND as [|? ? H1 H2]; subst.
      destruct Ha as [->|Ha], Hb as [->|Hb]; auto; exfalso; apply H1; [rewrite Hf|rewrite <- Hf]; now apply in_map. }
    apply (X (upto n)); auto; try now apply upto_In. unfold f. now rewrite Ek, Ek'.
  Qed.
End Signer.

(** A case of both: the command of C31_wrong_owner_refuted with the shares in their places prints a signature. *)
Example C31_owners_example : exists secrets public sk1 sk2 sig, two_keys = Some (Ret (secrets, public)) /\ secrets !! 1 = Some sk1 /\ secrets !! 2 = Some sk2 /\
  sign_with sk1 sk2 public = Some (Ret sig).
Proof. destruct C31_wrong_owner_refuted as (a & b & c & d & H1 & H2 & H3 & _ & _ & _ & sig & H). exists a, b, c, d, sig. auto. Qed.

Print Assumptions C31_owners.
Print Assumptions C31_owners_once.
