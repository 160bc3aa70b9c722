(** C44: the error of an aborted run. *)
From Coq Require Import ZArith Lia List Bool String Permutation.
From Coq.Strings Require Import Byte.
From stdpp Require Import base gmap list fin_maps.
From Verif Require Import ZField Primes Bytes Scalar Go Group ToyGroup Spec_Poly Party Poly PolyFacts Zk Eddsa Messages State StateFacts Keygen Sign
  Spec_State Lift RoundFacts ToyRuns Spec_Sign SignFacts SignRun Spec_SignRun Properties_Sign KeygenFacts KeygenRun Spec_Keygen Properties_Keygen Properties_Cmd
  Text Spec_Text Properties_Text ErrText.
Import ListNotations.
Local Open Scope Z_scope.

(** * The round recorded in the error *)
Section Any.
  Context `{Gr : group_ops} {R : Type} (I : RoundI R) (ROK : round_ok I).

  Definition err_round (s : State R) : Prop := forall e, st_err s = Some e -> pe_RoundNumber e = st_roundNumber s.
  Lemma reportError_round s c t s' : st_err s = None -> reportError I s c t = Ret s' -> err_round s'.
  Proof.
    unfold reportError. intros He. destruct (st_done s) eqn:D. { intros E. apply Ret_inj in E. subst. intros e X. congruence. }
    rewrite He. unfold finish. cbn [st_done st_round st_closed]. intros E. apply obind_ret in E as (r & _ & E).
    destruct (st_closed s); [|discriminate]. apply Ret_inj in E. subst s'. intros e [= <-]. reflexivity.
  Qed.
  Lemma step_err_round s ev s' o : inv I s -> err_round s -> step I s ev = Ret (s', o) -> err_round s'.
  Proof.
    intros HI H. destruct ev as [now m|a b|now|]; cbn [step].
    - intros E. apply Ret_inj in E. inversion E; subst.
      destruct (handle_cases I now s m) as [->|(_ & D & _ & _ & _ & _ & ct & tl & _ & [[_ ->]|(_ & _ & ->)])]; auto; exact H.
    - intros E. apply (process_cases I) in E. destruct E as [-> -> _|r c t D HS EP ER ->|r r' c t D HS EP EG ER ->|r r' ct tl rcv q D HS EP EG EA EQ EN].
      + auto.
      + eapply reportError_round; [|exact ER]. cbn. now apply inv_err with (I := I).
      + eapply reportError_round; [|exact ER]. cbn. now apply inv_err with (I := I).
      + pose proof (inv_err I s HI D) as He. destruct (r_next I r') as [nr|].
        * subst s'. intros e. cbn. congruence.
        * unfold finish in EN. cbn [st_done st_round st_closed] in EN. rewrite ?D in EN. apply obind_ret in EN as (r3 & _ & EN). destruct (st_closed s); [|discriminate].
          apply Ret_inj in EN. subst s'. intros e. cbn. congruence.
    - intros E. apply Ret_inj in E. inversion E; subst. unfold timerExpire. destruct (tm_deadline _); auto. destruct (_ <=? _); auto.
    - intros E. apply obind_ret in E as (s1 & E & E'). apply Ret_inj in E'. inversion E'; subst. unfold timerCallback in E. destruct (tm_pending (st_timer s)).
      + apply Ret_inj in E. now subst.
      + destruct (st_done s) eqn:D.
        * unfold reportError in E. cbn [st_done] in E. rewrite ?D in E. apply Ret_inj in E. subst s'. exact H.
        * eapply reportError_round; [|exact E]. cbn. now apply inv_err with (I := I).
  Qed.
  Lemma run_err_round es : forall s s' o, inv I s -> err_round s -> run I s es = Ret (s', o) -> err_round s'.
  Proof.
    induction es as [|ev es IH]; intros s s' o HI H E; cbn [run] in E.
    - apply Ret_inj in E. inversion E; subst. auto.
    - apply obind_ret in E as ([s1 o1] & E1 & E2). cbn [fst snd] in E2. apply obind_ret in E2 as ([s2 o2] & E2 & E3). apply Ret_inj in E3. inversion E3; subst.
      eapply IH; [|eapply step_err_round; eauto|exact E2]. eapply inv_step; eauto.
  Qed.
  (** Whatever the history, the error names the round in which the State stopped. *)
  Theorem C44_round : forall now t r0 s out e, reaches I (NewBaseState I now t r0) s out -> st_err s = Some e -> pe_RoundNumber e = st_roundNumber s.
  Proof.
    intros now t r0 s out e [es E] He. eapply run_err_round; [| |exact E|exact He]; [apply inv_init|]. intros x X. discriminate.
  Qed.
End Any.

(** * The reasons for which a run aborts *)
Definition keygen_reason (self : Z) (ids : list Z) (e : PError) : Prop :=
  (pe_text e = "message timeout"%string /\ pe_PartyID e = 0 /\ 0 <= pe_RoundNumber e <= 2) \/
  (pe_text e = "ZK Schnorr failed"%string /\ pe_RoundNumber e = 1 /\ In (pe_PartyID e) ids /\ pe_PartyID e <> self) \/
  (pe_text e = "VSS failed to validate"%string /\ pe_RoundNumber e = 2 /\ In (pe_PartyID e) ids /\ pe_PartyID e <> self).
Definition sign_reason (self : Z) (ids : list Z) (e : PError) : Prop :=
  (pe_text e = "message timeout"%string /\ pe_PartyID e = 0 /\ 0 <= pe_RoundNumber e <= 2) \/
  (pe_text e = "commitment Ei or Di was the identity"%string /\ pe_RoundNumber e = 1 /\ In (pe_PartyID e) ids /\ pe_PartyID e <> self) \/
  (pe_text e = "signature share is invalid"%string /\ pe_RoundNumber e = 2 /\ In (pe_PartyID e) ids /\ pe_PartyID e <> self) \/
  (pe_text e = "full signature is invalid"%string /\ pe_RoundNumber e = 2 /\ pe_PartyID e = 0).

Section Reasons.
  Context `{L : group_laws} `{Hf : hash_fn}.

  Lemma kg_process_round r m r' c t : r_process keygen_round r m = RErr r' c t ->
    (kr_no r = 1%nat /\ t = "ZK Schnorr failed"%string) \/ ((2 <= kr_no r)%nat /\ t = "VSS failed to validate"%string).
  Proof.
    cbn [keygen_round r_process]. destruct (kr_no r) as [|[|n]]; [discriminate| |].
    - unfold kg1_process. destruct m as [m|]; [|discriminate]. destruct (m_KeyGen1 m); [|discriminate]. cbv zeta.
      destruct (exp_constant _); cbn [lift_r]; try discriminate. destruct (zk_Verify _ _ _ _) as [[]| |]; cbn [lift_r negb]; try discriminate.
      + destruct (kr_CommitmentsSum r); discriminate.
      + intros E. inversion E; subst. auto.
    - unfold kg2_process. destruct m as [m|]; [|discriminate]. destruct (m_KeyGen2 m); [|discriminate]. cbv zeta.
      destruct (kr_Commitments r !! _); [|discriminate]. destruct (id_scalar _); cbn [lift_r]; try discriminate. destruct (exp_eval _ _); cbn [lift_r]; try discriminate.
      destruct (negb _); [|discriminate]. intros E. inversion E; subst. right. split; auto. lia.
  Qed.
  Lemma kg_loop_err rcv ks : forall r r' c t, process_loop keygen_round r rcv ks = RErr r' c t ->
    (kr_no r = 1%nat /\ t = "ZK Schnorr failed"%string) \/ ((2 <= kr_no r)%nat /\ t = "VSS failed to validate"%string).
  Proof.
    induction ks as [|k ks IH]; intros r r' c t; cbn [process_loop]; [discriminate|].
    destruct (r_process keygen_round r _) as [r1 []|r1 c1 t1|w] eqn:E; [|intros [= <- <- <-]; eapply kg_process_round; exact E|discriminate].
    intros X. apply IH in X. rewrite (kg_loop_no rcv [k] r r1) in X; auto. cbn [process_loop]. now rewrite E.
  Qed.
  Definition kround_of (e : PError) : Prop :=
    (pe_text e = "message timeout"%string -> 0 <= pe_RoundNumber e <= 2) /\
    (pe_text e = "ZK Schnorr failed"%string -> pe_RoundNumber e = 1) /\ (pe_text e = "VSS failed to validate"%string -> pe_RoundNumber e = 2).
  Lemma keygen_rounds rg self ids thr r0 now t es s out : kg_NewRound rg self ids thr = Ret r0 -> run keygen_round (NewBaseState keygen_round now t r0) es = Ret (s, out) ->
    forall e, st_err s = Some e -> kround_of e.
  Proof.
    intros E0 ER.
    assert (linv keygen_round (fun _ => True) r0 (fun n r _ => kr_no r = n /\ (n <= 2)%nat) (fun _ err _ => forall e, err = Some e -> kround_of e) s out) as HL.
    { eapply linv_run; [exact keygen_round_ok| | | |apply List.Forall_forall; intros [] _; exact Logic.I|exact ER].
      - split; [|lia]. unfold kg_NewRound in E0. destruct (thr =? 0); [discriminate|]. destruct (_ <? _); [discriminate|]. destruct (NewBaseRound self ids); try discriminate. cbn [obind] in E0. apply Ret_inj in E0. now subst.
      - intros n r o rcv ks sched [Hn Hle] _ _ _ _ _. unfold step_post. destruct (process_loop _ _ _ _) as [r1 []|r1 c x|w] eqn:EL; auto.
        + apply kg_loop_no in EL. destruct (r_generate keygen_round sched r1) as [r2 l|r2 c x|w] eqn:EG; auto.
          * apply kg_gen_no in EG. cbn [keygen_round r_next]. destruct (kr_no r2) as [|[|k]] eqn:E2.
            -- cbn. split; [congruence|lia].
            -- cbn. split; [congruence|lia].
            -- intros r3 _ e X. discriminate.
          * exfalso. eapply Properties_HonestKeygen.kg_generate_text; exact EG.
        + intros r3 _ e [= <-]. apply kg_loop_err in EL. unfold kround_of. cbn [pe_text pe_RoundNumber].
          destruct EL as [[En ->]|[En ->]]; repeat (apply conj; [intros X; try discriminate X; try lia|]); intros X; try discriminate X; try lia.
      - intros n r o r3 [Hn Hle] _ _ _ e [= <-]. unfold kround_of. cbn [pe_text pe_RoundNumber]. repeat (apply conj; [intros X; try discriminate X; try lia|]); intros X; try discriminate X; try lia. }
    intros e He. destruct (st_done s) eqn:D; [exact (li_F _ _ _ _ _ _ _ HL D e He)|].
    rewrite (inv_err _ s (li_inv _ _ _ _ _ _ _ HL) D) in He. discriminate.
  Qed.

  (** Every abort of key generation: the reason, the round it belongs to, and who is named. *)
  Theorem C44_keygen : forall rg now t self ids thr s0 s out e, NewKeygenState rg now t self ids thr = Ret s0 -> valid_ids ids -> is_u16 thr ->
    reaches keygen_round s0 s out -> st_err s = Some e -> keygen_reason self ids e.
  Proof.
    intros rg now t self ids thr s0 s out e NEW V HT [es ER] He. destruct (kthe_run rg now t self ids thr s0 NEW V HT es s out ER) as (r0 & E0 & HL).
    assert (kround_of e) as (A1 & A2 & A3).
    { destruct (NewKeygenState_round _ _ _ _ _ _ _ NEW) as (r & E1 & ->). eapply keygen_rounds; eauto. }
    assert (st_done s = true) as D. { destruct (st_done s) eqn:D; auto. rewrite (inv_err _ s (li_inv _ _ _ _ _ _ _ HL) D) in He. discriminate. }
    pose proof (li_F _ _ _ _ _ _ _ HL D) as [_ HF]. rewrite He in HF. destruct HF as [_ [[H1 H2]|[(H1 & H2 & _)|(H1 & H2 & _)]]].
    - left. auto.
    - right. left. apply others_of_In in H2 as [? ?]. auto.
    - right. right. apply others_of_In in H2 as [? ?]. auto.
  Qed.

  Lemma sg_process_round r m r' c t : r_process sign_round r m = RErr r' c t ->
    (sr_no r = 1%nat /\ t = "commitment Ei or Di was the identity"%string) \/ ((2 <= sr_no r)%nat /\ t = "signature share is invalid"%string).
  Proof.
    cbn [sign_round r_process]. destruct (sr_no r) as [|[|n]]; [discriminate| |].
    - unfold sg1_process. destruct m as [m|]; [|discriminate]. destruct (m_Sign1 m); [|discriminate]. cbv zeta.
      destruct (_ || _); [intros E; inversion E; subst; auto|]. destruct (sr_Parties r !! _); discriminate.
    - unfold sg2_process. destruct m as [m|]; [|discriminate]. cbv zeta. destruct (sr_Parties r !! _); [|discriminate]. destruct (m_Sign2 m); [|discriminate].
      destruct (negb _); [|discriminate]. intros E. inversion E; subst. right. split; auto. lia.
  Qed.
  Lemma sg_loop_err rcv ks : forall r r' c t, process_loop sign_round r rcv ks = RErr r' c t ->
    (sr_no r = 1%nat /\ t = "commitment Ei or Di was the identity"%string) \/ ((2 <= sr_no r)%nat /\ t = "signature share is invalid"%string).
  Proof.
    induction ks as [|k ks IH]; intros r r' c t; cbn [process_loop]; [discriminate|].
    destruct (r_process sign_round r _) as [r1 []|r1 c1 t1|w] eqn:E; [|intros [= <- <- <-]; eapply sg_process_round; exact E|discriminate].
    intros X. apply IH in X. rewrite (sg_loop_no rcv [k] r r1) in X; auto. cbn [process_loop]. now rewrite E.
  Qed.
  Lemma sg_gen_err sched r r' c t : r_generate sign_round sched r = RErr r' c t -> (2 <= sr_no r)%nat /\ t = "full signature is invalid"%string.
  Proof.
    cbn [sign_round r_generate]. destruct (sr_no r) as [|[|n]].
    - unfold sg0_generate. cbv zeta. destruct (sr_Parties r !! _); discriminate.
    - unfold sg1_generate. destruct (computeRhos r); try discriminate. cbv zeta. destruct (_ !! _); discriminate.
    - unfold sg2_generate. cbv zeta. destruct (negb _); [|destruct (sr_outp r); discriminate]. intros E. inversion E; subst. split; auto. lia.
  Qed.
  Definition sround_of (e : PError) : Prop :=
    (pe_text e = "message timeout"%string -> 0 <= pe_RoundNumber e <= 2) /\
    (pe_text e = "commitment Ei or Di was the identity"%string -> pe_RoundNumber e = 1) /\ (pe_text e = "signature share is invalid"%string -> pe_RoundNumber e = 2) /\
    (pe_text e = "full signature is invalid"%string -> pe_RoundNumber e = 2).
  Lemma sign_rounds r0 now t es s out : sr_no r0 = 0%nat -> run sign_round (NewBaseState sign_round now t r0) es = Ret (s, out) ->
    forall e, st_err s = Some e -> sround_of e.
  Proof.
    intros E0 ER.
    assert (linv sign_round (fun _ => True) r0 (fun n r _ => sr_no r = n /\ (n <= 2)%nat) (fun _ err _ => forall e, err = Some e -> sround_of e) s out) as HL.
    { eapply linv_run; [exact sign_round_ok| | | |apply List.Forall_forall; intros [] _; exact Logic.I|exact ER].
      - split; [auto|lia].
      - intros n r o rcv ks sched [Hn Hle] _ _ _ _ _. unfold step_post. destruct (process_loop _ _ _ _) as [r1 []|r1 c x|w] eqn:EL; auto.
        + apply sg_loop_no in EL. destruct (r_generate sign_round sched r1) as [r2 l|r2 c x|w] eqn:EG; auto.
          * apply sg_gen_no in EG. cbn [sign_round r_next]. destruct (sr_no r2) as [|[|k]] eqn:E2.
            -- cbn. split; [congruence|lia].
            -- cbn. split; [congruence|lia].
            -- intros r3 _ e X. discriminate.
          * apply sg_gen_err in EG as [En ->]. intros r3 _ e [= <-]. unfold sround_of. cbn [pe_text pe_RoundNumber]. repeat (apply conj; [intros X; try discriminate X; try lia|]); intros X; try discriminate X; try lia.
        + intros r3 _ e [= <-]. apply sg_loop_err in EL. unfold sround_of. cbn [pe_text pe_RoundNumber].
          destruct EL as [[En ->]|[En ->]]; repeat (apply conj; [intros X; try discriminate X; try lia|]); intros X; try discriminate X; try lia.
      - intros n r o r3 [Hn Hle] _ _ _ e [= <-]. unfold sround_of. cbn [pe_text pe_RoundNumber]. repeat (apply conj; [intros X; try discriminate X; try lia|]); intros X; try discriminate X; try lia. }
    intros e He. destruct (st_done s) eqn:D; [exact (li_F _ _ _ _ _ _ _ HL D e He)|].
    rewrite (inv_err _ s (li_inv _ _ _ _ _ _ _ HL) D) in He. discriminate.
  Qed.
End Reasons.

Section SignReasons.
  Context `{L : group_laws} `{Hf : hash_fn} (HH : hash_ok Hf).
  (** Every abort of signing. *)
  Theorem C44_sign : forall rg now t ids secret shares message s0 s out e, NewSignState rg now t ids secret shares message = Ret s0 -> List.NoDup ids -> Forall is_u16 ids ->
    reaches sign_round s0 s out -> st_err s = Some e -> sign_reason (sh_ID secret) ids e.
  Proof.
    intros rg now t ids secret shares message s0 s out e NEW ND HU [es ER] He.
    destruct (the_run HH rg now t ids secret shares message s0 NEW ND HU es s out ER) as (r0 & E0 & HL).
    assert (sround_of e) as (A1 & A2 & A3 & A4).
    { destruct (NewSignState_round _ _ _ _ _ _ _ _ NEW) as (r & E1 & ->). eapply sign_rounds; [|exact ER|exact He]. apply (NewRound_fields _ _ _ _ _ _ E1). }
    assert (st_done s = true) as D. { destruct (st_done s) eqn:D; auto. rewrite (inv_err _ s (li_inv _ _ _ _ _ _ _ HL) D) in He. discriminate. }
    pose proof (li_F _ _ _ _ _ _ _ HL D) as [_ HF]. rewrite He in HF. destruct HF as [_ [[H1 H2]|[(H1 & H2 & H3 & _)|[(H1 & H2 & H3 & _)|(H1 & H2 & _)]]]].
    - left. auto.
    - right. left. auto.
    - right. right. left. auto.
    - right. right. right. auto.
  Qed.
End SignReasons.

(** * Reading the text *)
(** "party C: round R: why" determines C and R (and why): digits are not colons. *)
Lemma digits_then a b x y c d : Forall digit a -> Forall digit b -> ~ digit c -> ~ digit d -> a ++ c :: x = b ++ d :: y -> a = b /\ c :: x = d :: y.
Proof.
  revert b. induction a as [|u a IH]; intros [|v b] Ha Hb Hc Hd E; cbn in E.
  - auto.
  - injection E as -> _. inversion Hb; subst. contradiction.
  - injection E as <- _. inversion Ha; subst. contradiction.
  - injection E as -> E. inversion Ha; inversion Hb; subst. destruct (IH b) as [-> ->]; auto.
Qed.
Lemma colon_digit : ~ digit ":"%byte. Proof. unfold digit. cbn. lia. Qed.
Lemma FormatUint_inj i j : 0 <= i < 2 ^ 64 -> 0 <= j < 2 ^ 64 -> FormatUint i = FormatUint j -> i = j.
Proof. intros Hi Hj E. apply FormatUint_ok in Hi as (_ & <- & _). apply FormatUint_ok in Hj as (_ & <- & _). now rewrite E. Qed.
Definition printable (e : PError) : Prop := 0 <= pe_PartyID e < 2 ^ 16 /\ 0 <= pe_RoundNumber e < 2 ^ 63.
Theorem C44_text : forall e1 e2, printable e1 -> printable e2 -> Error_text e1 = Error_text e2 -> e1 = e2.
Proof.
  intros [p1 r1 t1] [p2 r2 t2] [H1 H2] [H3 H4]. unfold Error_text. cbn [pe_PartyID pe_RoundNumber pe_text] in *. intros E.
  apply app_inv_head in E. change (str ": round ") with (":"%byte :: str " round ") in E. cbn [app] in E.
  destruct (FormatUint_ok p1) as (D1 & _); [lia|]. destruct (FormatUint_ok p2) as (D2 & _); [lia|]. destruct (FormatUint_ok r1) as (D3 & _); [lia|]. destruct (FormatUint_ok r2) as (D4 & _); [lia|].
  apply digits_then in E as [E1 E]; auto using colon_digit. injection E as E.
  apply digits_then in E as [E2 E]; auto using colon_digit. injection E as E.
  assert (t1 = t2) as ->. { rewrite <- (string_of_list_byte_of_string t1), <- (string_of_list_byte_of_string t2). now f_equal. }
  rewrite (FormatUint_inj p1 p2), (FormatUint_inj r1 r2); auto; lia.
Qed.

(** ** Concrete cases: signer 1 of the toy key is sent a wrong share, or an identity commitment, by 3; party 1 of a key generation a wrong share by 2 *)
Definition sign_text (x : outcome (tsstate * list (@Message toy_group))) : list byte :=
  match x with Ret (s, _) => match st_err s with Some e => Error_text e | None => [] end | _ => [] end.
Definition keygen_text (x : outcome (tkstate * list (@Message toy_group))) : list byte :=
  match x with Ret (s, _) => match st_err s with Some e => Error_text e | None => [] end | _ => [] end.
Example C44_example :
  sign_text (ts_run (ts_new s13 1 0) (prc :: hnd (sg1_of 3) ++ prc :: hnd [@NewSign2 toy_group 3 (qof 7)] ++ [prc])) = str "party 3: round 2: signature share is invalid" /\
  sign_text (ts_run (ts_new s13 1 0) (prc :: hnd [@NewSign1 toy_group 3 (qof 7) (qof 0)] ++ [prc])) = str "party 3: round 1: commitment Ei or Di was the identity" /\
  keygen_text (tk_run (tk_new k3 1 1 0) (prc :: hnd (@NewKeyGen1 toy_group 2 (mkSchnorr f0 f0) [qof 5; qof 6] :: kg1_of 3) ++ prc :: hnd (@NewKeyGen2 toy_group 2 1 (qof 12) :: to_ 1 (kg2_of 3)) ++ [prc]))
    = str "party 2: round 2: VSS failed to validate" /\
  valid_ids k3 /\ is_u16 1 /\ List.NoDup s13 /\ Forall is_u16 s13.
Proof.
  split; [vm_compute; reflexivity|]. split; [vm_compute; reflexivity|]. split; [vm_compute; reflexivity|].
  split; [split; repeat constructor; cbn; lia|]. split; [unfold is_u16; lia|]. split; [repeat constructor; cbn; lia|repeat constructor; unfold is_u16; lia].
Qed.

(** What the reader of a HandleMessage error sees (C37): party 1, in round 1, is given a second message by party 2. *)
Example C37_text_example : match tk_run (tk_new k3 1 1 0) (prc :: hnd (kg1_of 2)) with
  | Ret (s, _) => match kg1_of 2 with m :: _ => option_map wrapError_text (snd (HandleMessage tkg 0 s m)) | [] => None end | _ => None end =
  Some (str "party 1, round 2, culprit 1: message from this party was already received").
Proof. vm_compute. reflexivity. Qed.

Print Assumptions C44_round.
Print Assumptions C44_keygen.
Print Assumptions C44_sign.
Print Assumptions C44_text.
