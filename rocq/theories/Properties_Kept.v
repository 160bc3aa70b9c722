(** C50: which received messages a finished State still holds. *)
From Coq Require Import ZArith Lia List Bool String Permutation.
From stdpp Require Import base gmap list fin_maps.
From Verif Require Import ZField Primes Bytes Scalar Go Group ToyGroup Party Poly PolyFacts Zk Eddsa Messages State StateFacts Spec_State
  Keygen Sign RoundFacts Lift Properties_State ToyRuns Properties_StateRuns.
Import ListNotations.
Local Open Scope Z_scope.

(** A protocol of three rounds, numbered by [no]. *)
Section Kept.
  Context `{Gr : group_ops} {R : Type} (I : RoundI R) (ROK : round_ok I) (no : R -> nat) (r0 : R) (now timeout : Z).
  Context (N0 : no r0 = 0%nat) (NT : List.length (r_accepted I r0) = 3%nat)
    (NP : forall r m r', (exists u, r_process I r m = ROk r' u) -> no r' = no r)
    (NG : forall sched r r', (exists l, r_generate I sched r = ROk r' l) -> no r' = no r)
    (NN : forall r, match r_next I r with Some r' => no r' = S (no r) /\ (no r < 2)%nat | None => (2 <= no r)%nat end).

  Lemma loop_no rcv l : forall r r' u, process_loop I r rcv l = ROk r' u -> no r' = no r.
  Proof.
    induction l as [|i l IH]; intros r r' u E; cbn [process_loop] in E; [inversion E; reflexivity|].
    destruct (r_process I r (default None (rcv !! i))) as [r1 u1| |] eqn:E1; [|discriminate|discriminate]. rewrite (IH _ _ _ E). apply (NP r (default None (rcv !! i))). eauto.
  Qed.
  Lemma no_inv es s out : run I (NewBaseState I now timeout r0) es = Ret (s, out) ->
    linv I (fun _ => True) r0 (fun n r _ => no r = n /\ (n <= 2)%nat) (fun _ _ _ => True) s out.
  Proof.
    intros ER. eapply linv_run; [exact ROK|split; [exact N0|lia]| | |apply List.Forall_forall; intros [] _; exact Logic.I|exact ER].
    - intros n r o rcv ks sched [Hn Hle] _ _ _ _ _. unfold step_post. destruct (process_loop I r rcv ks) as [r1 u|r1 c t|w] eqn:EP; auto.
      destruct (r_generate I sched r1) as [r2 l|r2 c t|w] eqn:EG; auto. pose proof (NN r2) as X. destruct (r_next I r2); auto.
      apply loop_no in EP. assert (no r2 = no r1) as E2 by (apply (NG sched); eauto). destruct X as [X Y]. split; lia.
    - auto.
  Qed.
  (** After a success nothing received is kept. *)
  Lemma success_empty es s out : run I (NewBaseState I now timeout r0) es = Ret (s, out) -> st_done s = true -> st_err s = None -> st_received s = ∅ /\ st_queue s = [].
  Proof.
    revert s out. induction es as [|e es IH] using rev_ind; intros s out E D HE; [cbn in E; apply Ret_inj in E; inversion E; subst; discriminate|].
    apply run_snoc in E as (s1 & o1 & o2 & E1 & E2 & ->).
    destruct (st_done s1) eqn:D1.
    - destruct (C13_final I s1 [e] D1) as (s2 & X1 & _ & X3 & _ & _ & X4 & X5 & _). cbn [run] in X1. rewrite E2 in X1. cbn [obind fst snd] in X1. apply Ret_inj in X1.
      apply (f_equal fst) in X1. cbn [fst] in X1. subst s2. rewrite X4, X5. apply (IH s1 o1 E1 D1). now rewrite <- X3.
    - pose proof (no_inv es s1 o1 E1) as HL. destruct (li_P _ _ _ _ _ _ _ HL D1) as (n & Hn & Ha & Hno & Hle). pose proof (li_inv _ _ _ _ _ _ _ HL) as HI.
      destruct e as [t m|a b|t|]; cbn [step] in E2.
      + apply Ret_inj in E2. inversion E2; subst. destruct (handle_cases I t s1 m) as [X|(_ & _ & _ & _ & _ & _ & ct & tl & _ & [[_ X]|(_ & _ & X)])]; rewrite X in D; cbn in D; congruence.
      + apply (process_cases I) in E2. destruct E2 as [-> _ _|r1 c e D' HS EP ER _|r1 r' c e D' HS EP EG ER _|r1 r' ct tl rcv q D' HS EP EG EA EQ EN]; [congruence| | |].
        * unfold reportError in ER. cbn [set_round st_done] in ER. rewrite D1 in ER. apply finish_ret in ER as (r2 & _ & _ & ->); [|reflexivity]. cbn in HE. rewrite (inv_err I s1 HI D1) in HE. discriminate.
        * unfold reportError in ER. cbn [st_done] in ER. rewrite D1 in ER. apply finish_ret in ER as (r2 & _ & _ & ->); [|reflexivity]. cbn in HE. rewrite (inv_err I s1 HI D1) in HE. discriminate.
        * pose proof (NN r') as X. destruct (r_next I r'); [subst s; cbn in D; congruence|].
          apply loop_no in EP. assert (no r' = no r1) as E3 by (apply (NG b); eauto). assert (n = 2%nat) as -> by lia.
          apply finish_ret in EN as (r2 & _ & _ & ->); [|exact D1]. cbn [st_received st_queue].
          assert (tl = []) as ->. { rewrite EA in Ha. pose proof (f_equal (@List.length Z) Ha) as Y. rewrite skipn_length, NT in Y. cbn in Y. destruct tl; [reflexivity|discriminate]. }
          inversion EQ; subst. split; [reflexivity|]. destruct (st_queue s1) as [|m qq] eqn:Eq; [reflexivity|].
          destruct (inv_queue I s1 HI m ltac:(rewrite Eq; now left)) as (_ & _ & _ & ct' & tl & X1 & X2). rewrite EA in X1. inversion X1; subst. destruct (X2 D1).
      + apply Ret_inj in E2. inversion E2; subst. unfold timerExpire in D. destruct (tm_deadline _); [destruct (_ <=? _)|]; cbn in D; congruence.
      + apply obind_ret in E2 as (s3 & E3 & E4). apply Ret_inj in E4. inversion E4; subst. unfold timerCallback in E3. destruct (tm_pending _); [apply Ret_inj in E3; subst; congruence|].
        unfold reportError in E3. cbn [st_done] in E3. rewrite D1 in E3. apply finish_ret in E3 as (r2 & _ & _ & ->); [|reflexivity]. cbn in HE. rewrite (inv_err I s1 HI D1) in HE. discriminate.
  Qed.
  (** What an abort keeps: everything the call that aborted found, unless generating the messages is what failed. *)
  Lemma abort_keeps es s out err : run I (NewBaseState I now timeout r0) es = Ret (s, out) -> st_done s = true -> st_err s = Some err ->
    exists es1 e es2 s1 o1, es = es1 ++ e :: es2 /\ run I (NewBaseState I now timeout r0) es1 = Ret (s1, o1) /\ st_done s1 = false /\ st_queue s = st_queue s1 /\
      (st_received s = st_received s1 \/
       (st_received s = ∅ /\ exists a b r r' c, e = EProcess a b /\ process_loop I (st_round s1) (st_received s1) (map_keys a (st_received s1)) = ROk r tt /\ r_generate I b r = RErr r' c (pe_text err))).
  Proof.
    revert s out. induction es as [|e es IH] using rev_ind; intros s out E D HE; [cbn in E; apply Ret_inj in E; inversion E; subst; discriminate|].
    apply run_snoc in E as (s1 & o1 & o2 & E1 & E2 & ->).
    destruct (st_done s1) eqn:D1.
    - destruct (C13_final I s1 [e] D1) as (s2 & X1 & _ & X3 & _ & _ & X4 & X5 & _). cbn [run] in X1. rewrite E2 in X1. cbn [obind fst snd] in X1. apply Ret_inj in X1.
      apply (f_equal fst) in X1. cbn [fst] in X1. subst s2. rewrite X4, X5. destruct (IH s1 o1 E1 D1) as (es1 & e1 & es2 & s2 & o3 & -> & Y); [now rewrite <- X3|].
      exists es1, e1, (es2 ++ [e]), s2, o3. split; [now rewrite <- app_assoc|exact Y].
    - exists es, e, [], s1, o1. split; [reflexivity|]. split; [exact E1|]. split; [exact D1|].
      pose proof (no_inv es s1 o1 E1) as HL. pose proof (li_inv _ _ _ _ _ _ _ HL) as HI.
      destruct e as [t m|a b|t|]; cbn [step] in E2.
      + apply Ret_inj in E2. inversion E2; subst. destruct (handle_cases I t s1 m) as [X|(_ & _ & _ & _ & _ & _ & ct & tl & _ & [[_ X]|(_ & _ & X)])]; rewrite X in D; cbn in D; congruence.
      + apply (process_cases I) in E2. destruct E2 as [-> _ _|r1 c e D' HS EP ER _|r1 r' c e D' HS EP EG ER _|r1 r' ct tl rcv q D' HS EP EG EA EQ EN]; [congruence| | |].
        * unfold reportError in ER. cbn [set_round st_done] in ER. rewrite D1 in ER. apply finish_ret in ER as (r2 & _ & _ & ->); [|reflexivity]. cbn. auto.
        * unfold reportError in ER. cbn [st_done] in ER. rewrite D1 in ER. apply finish_ret in ER as (r2 & _ & _ & ->); [|reflexivity]. cbn in HE |- *. rewrite (inv_err I s1 HI D1) in HE. injection HE as <-.
          split; [reflexivity|]. right. split; [reflexivity|]. exists a, b, r1, r', c. auto.
        * destruct (r_next I r'); [subst s; cbn in D; congruence|]. apply finish_ret in EN as (r2 & _ & _ & ->); [|exact D1]. cbn in HE. rewrite (inv_err I s1 HI D1) in HE. discriminate.
      + apply Ret_inj in E2. inversion E2; subst. unfold timerExpire in D. destruct (tm_deadline _); [destruct (_ <=? _)|]; cbn in D; congruence.
      + apply obind_ret in E2 as (s3 & E3 & E4). apply Ret_inj in E4. inversion E4; subst. unfold timerCallback in E3. destruct (tm_pending _); [apply Ret_inj in E3; subst; congruence|].
        unfold reportError in E3. cbn [st_done] in E3. rewrite D1 in E3. apply finish_ret in E3 as (r2 & _ & _ & ->); [|reflexivity]. cbn. auto.
  Qed.
End Kept.

Section Protocols.
  Context `{Gr : group_ops} `{Hf : hash_fn}.
  Lemma keygen_three rg now t self ids thr s0 : NewKeygenState rg now t self ids thr = Ret s0 ->
    exists r0, s0 = NewBaseState keygen_round now t r0 /\ kr_no r0 = 0%nat /\
      (forall r m r', (exists u, r_process keygen_round r m = ROk r' u) -> kr_no r' = kr_no r) /\
      (forall sched r r', (exists l, r_generate keygen_round sched r = ROk r' l) -> kr_no r' = kr_no r) /\
      (forall r, match r_next keygen_round r with Some r' => kr_no r' = S (kr_no r) /\ (kr_no r < 2)%nat | None => (2 <= kr_no r)%nat end).
  Proof.
    intros E. unfold NewKeygenState in E. apply obind_ret in E as (r0 & E0 & E). apply Ret_inj in E. exists r0. split; [auto|]. clear E.
    split; [|split; [|split] ].
    - unfold kg_NewRound in E0. cbv zeta in E0. destruct (thr =? 0); [discriminate|]. destruct (_ <? _); [discriminate|]. apply obind_ret in E0 as (b & _ & E0). apply Ret_inj in E0. now subst.
    - intros r m r' [u E]. cbn [keygen_round r_process] in E. destruct (kr_no r) as [|[|n]] eqn:En.
      + inversion E; subst. exact En.
      + unfold kg1_process in E. destruct m as [m|]; [|discriminate]. destruct (m_KeyGen1 m); [|discriminate].
        revert E. do 2 (apply lift_r_ok; [intros ? _|discriminate]). destruct (negb _); [discriminate|]. destruct (kr_CommitmentsSum r); [|discriminate]. intros E; inversion E; exact En.
      + unfold kg2_process in E. destruct m as [m|]; [|discriminate]. destruct (m_KeyGen2 m); [|discriminate]. destruct (kr_Commitments r !! m_From m); [|discriminate].
        revert E. do 2 (apply lift_r_ok; [intros ? _|discriminate]). destruct (negb _); [discriminate|]. intros E; inversion E; exact En.
    - intros sched r r' [l E]. cbn [keygen_round r_generate] in E. destruct (kr_no r) as [|[|n]] eqn:En.
      + unfold kg0_generate in E. cbv zeta in E. revert E. do 5 (apply lift_r_ok; [intros ? _|discriminate]). intros E; inversion E; exact En.
      + unfold kg1_generate in E. destruct (kr_Polynomial r); [|discriminate]. revert E. apply lift_r_ok; [intros ? _|discriminate]. intros E; inversion E; exact En.
      + unfold kg2_generate in E. destruct (kr_CommitmentsSum r); [|discriminate]. revert E. do 2 (apply lift_r_ok; [intros ? _|discriminate]). destruct (kr_outp r); [|discriminate]. intros E; inversion E; exact En.
    - intros r. cbn [keygen_round r_next]. destruct (kr_no r) as [|[|n]] eqn:En; cbn; lia.
  Qed.
  Theorem C50_keygen : forall rg now t self ids thr s0 s out, NewKeygenState rg now t self ids thr = Ret s0 -> reaches keygen_round s0 s out ->
    st_done s = true -> st_err s = None -> st_received s = ∅ /\ st_queue s = [].
  Proof.
    intros rg now t self ids thr s0 s out E [es ER] D HE. destruct (keygen_three _ _ _ _ _ _ _ E) as (r0 & -> & N0 & HP & HG & HN).
    exact (success_empty keygen_round keygen_round_ok kr_no r0 now t N0 eq_refl HP HG HN es s out ER D HE).
  Qed.
  Lemma sign_three rg now t ids secret public message s0 : NewSignState rg now t ids secret public message = Ret s0 ->
    exists r0, s0 = NewBaseState sign_round now t r0 /\ sr_no r0 = 0%nat /\
      (forall r m r', (exists u, r_process sign_round r m = ROk r' u) -> sr_no r' = sr_no r) /\
      (forall sched r r', (exists l, r_generate sign_round sched r = ROk r' l) -> sr_no r' = sr_no r) /\
      (forall r, match r_next sign_round r with Some r' => sr_no r' = S (sr_no r) /\ (sr_no r < 2)%nat | None => (2 <= sr_no r)%nat end).
  Proof.
    intros E. unfold NewSignState in E. apply obind_ret in E as (r0 & E0 & E). apply Ret_inj in E. exists r0. split; [auto|]. clear E.
    split; [|split; [|split] ].
    - unfold sg_NewRound in E0. do 2 (destruct (negb _); [discriminate|]). apply obind_ret in E0 as (b & _ & E0). apply obind_ret in E0 as (b' & _ & E0). apply Ret_inj in E0. now subst.
    - intros r m r' [u E]. cbn [sign_round r_process] in E. destruct (sr_no r) as [|[|n]] eqn:En.
      + inversion E; subst. exact En.
      + unfold sg1_process in E. destruct m as [m|]; [|discriminate]. destruct (m_Sign1 m); [|discriminate]. destruct (_ || _); [discriminate|]. destruct (sr_Parties r !! m_From m); [|discriminate]. inversion E; exact En.
      + unfold sg2_process in E. destruct m as [m|]; [|discriminate]. destruct (sr_Parties r !! m_From m); [|discriminate]. destruct (m_Sign2 m); [|discriminate]. destruct (negb _); [discriminate|]. inversion E; exact En.
    - intros sched r r' [l E]. cbn [sign_round r_generate] in E. destruct (sr_no r) as [|[|n]] eqn:En.
      + unfold sg0_generate in E. destruct (sr_Parties r !! sr_self r); [|discriminate]. inversion E; exact En.
      + unfold sg1_generate in E. destruct (computeRhos r); [|discriminate|discriminate]. destruct ((set_Ri <$> a) !! sr_self r); [|discriminate]. inversion E; exact En.
      + unfold sg2_generate in E. destruct (negb _); [discriminate|]. destruct (sr_outp r); [|discriminate]. inversion E; exact En.
    - intros r. cbn [sign_round r_next]. destruct (sr_no r) as [|[|n]] eqn:En; cbn; lia.
  Qed.
  Theorem C50_sign : forall rg now t ids secret public message s0 s out, NewSignState rg now t ids secret public message = Ret s0 -> reaches sign_round s0 s out ->
    st_done s = true -> st_err s = None -> st_received s = ∅ /\ st_queue s = [].
  Proof.
    intros rg now t ids secret public message s0 s out E [es ER] D HE. destruct (sign_three _ _ _ _ _ _ _ _ E) as (r0 & -> & N0 & HP & HG & HN).
    exact (success_empty sign_round sign_round_ok sr_no r0 now t N0 eq_refl HP HG HN es s out ER D HE).
  Qed.

  (** An abort of key generation keeps every message it finds. *)
  Theorem C50_keygen_abort : forall rg now t self ids thr s0 es s out err, NewKeygenState rg now t self ids thr = Ret s0 -> run keygen_round s0 es = Ret (s, out) ->
    st_done s = true -> st_err s = Some err ->
    exists es1 e es2 s1 o1, es = es1 ++ e :: es2 /\ run keygen_round s0 es1 = Ret (s1, o1) /\ st_done s1 = false /\
      st_received s = st_received s1 /\ st_queue s = st_queue s1.
  Proof.
    intros rg now t self ids thr s0 es s out err E ER D HE. destruct (keygen_three _ _ _ _ _ _ _ E) as (r0 & -> & N0 & HP & HG & HN).
    destruct (abort_keeps keygen_round keygen_round_ok kr_no r0 now t N0 eq_refl HP HG HN es s out err ER D HE) as (es1 & e & es2 & s1 & o1 & X1 & X2 & X3 & X4 & X5).
    exists es1, e, es2, s1, o1. repeat split; auto. destruct X5 as [X5|(_ & a & b & r & r' & c & _ & _ & EG)]; auto. exfalso. revert EG. cbn [keygen_round r_generate].
    destruct (kr_no r) as [|[|n] ].
    - unfold kg0_generate. cbv zeta. do 5 (apply lift_r_ok; [intros ? _|discriminate]). discriminate.
    - unfold kg1_generate. destruct (kr_Polynomial r); [|discriminate]. apply lift_r_ok; [intros ? _|discriminate]. discriminate.
    - unfold kg2_generate. destruct (kr_CommitmentsSum r); [|discriminate]. do 2 (apply lift_r_ok; [intros ? _|discriminate]). destruct (kr_outp r); discriminate.
  Qed.
  (** An abort of signing keeps the queue, and the stored messages unless it is the final check of the signature that fails. *)
  Theorem C50_sign_abort : forall rg now t ids secret public message s0 es s out err, NewSignState rg now t ids secret public message = Ret s0 -> run sign_round s0 es = Ret (s, out) ->
    st_done s = true -> st_err s = Some err ->
    exists es1 e es2 s1 o1, es = es1 ++ e :: es2 /\ run sign_round s0 es1 = Ret (s1, o1) /\ st_done s1 = false /\ st_queue s = st_queue s1 /\
      (st_received s = st_received s1 \/ (st_received s = ∅ /\ pe_text err = "full signature is invalid"%string)).
  Proof.
    intros rg now t ids secret public message s0 es s out err E ER D HE. destruct (sign_three _ _ _ _ _ _ _ _ E) as (r0 & -> & N0 & HP & HG & HN).
    destruct (abort_keeps sign_round sign_round_ok sr_no r0 now t N0 eq_refl HP HG HN es s out err ER D HE) as (es1 & e & es2 & s1 & o1 & X1 & X2 & X3 & X4 & X5).
    exists es1, e, es2, s1, o1. repeat split; auto. destruct X5 as [X5|(X5 & a & b & r & r' & c & _ & _ & EG)]; auto. right. split; auto. revert EG. cbn [sign_round r_generate].
    destruct (sr_no r) as [|[|n] ].
    - unfold sg0_generate. destruct (sr_Parties r !! sr_self r); discriminate.
    - unfold sg1_generate. destruct (computeRhos r) as [p| |]; try discriminate. destruct ((set_Ri <$> p) !! sr_self r); discriminate.
    - unfold sg2_generate. destruct (negb _); [intros EG; inversion EG; auto|]. destruct (sr_outp r); discriminate.
  Qed.
End Protocols.

(** After an abort the messages of the round stay: party 1 times out in the last round of a key generation that the others complete, and
    its State still holds the secret share that party 2 sent it. *)
Definition kept_share (s : tkstate) (j : Z) : option Z :=
  match st_received s !! j with Some (Some m) => option_map (fun b => fz (k2_Share b)) (m_KeyGen2 m) | _ => None end.
Definition dealt_share (i j : Z) : option Z := (* the share in the message i sends to j *)
  match List.filter (fun m => m_To m =? j) (kg2_of i) with [m] => option_map (fun b => fz (k2_Share b)) (m_KeyGen2 m) | _ => None end.
Theorem C50_abort_refuted : exists es : list (@event toy_group), match tk_run (tk_new k3 1 1 5) es with
  | Ret (s, _) => match st_err s with Some e => (st_done s, pe_PartyID e, pe_text e, kept_share s 2) | None => (false, 0, ""%string, None) end
  | _ => (false, 0, ""%string, None) end = (true, 0, "message timeout"%string, dealt_share 2 1) /\ dealt_share 2 1 <> None.
Proof.
  exists (prc :: hnd (kg1_of 2) ++ hnd (kg1_of 3) ++ prc :: hnd (to1 (kg2_of 2)) ++ [@EExpire toy_group 5; @ECallback toy_group]).
  split; [vm_compute; reflexivity|vm_compute; discriminate].
Qed.
(** A case of the theorems: a run that succeeds. *)
Example C50_example : match tk_run (tk_new k3 1 1 0) (good_history 1) with Ret (s, _) => (st_done s, match st_err s with None => true | _ => false end, size (st_received s), List.length (st_queue s)) | _ => (false, false, 9%nat, 9%nat) end = (true, true, 0%nat, 0%nat).
Proof. vm_compute. reflexivity. Qed.

(** Both kinds of abort of a signer: a refused share is kept, a refused signature leaves nothing. *)
Example C50_abort_example :
  match ts_run (ts_new s13 1 0) (prc :: hnd (sg1_of 3) ++ prc :: hnd [@NewSign2 toy_group 3 (qof 7)] ++ [prc]) with
  | Ret (s, _) => (st_done s, option_map pe_text (st_err s), size (st_received s)) | _ => (false, None, 0%nat) end = (true, Some "signature share is invalid"%string, 1%nat) /\
  match ts_run (ts_new [2] 2 0) [prc; prc; prc] with
  | Ret (s, _) => (st_done s, option_map pe_text (st_err s), size (st_received s)) | _ => (false, None, 0%nat) end = (true, Some "full signature is invalid"%string, 0%nat).
Proof. split; vm_compute; reflexivity. Qed.

Print Assumptions C50_keygen.
Print Assumptions C50_sign.
Print Assumptions C50_abort_refuted.
Print Assumptions C50_keygen_abort.
Print Assumptions C50_sign_abort.
