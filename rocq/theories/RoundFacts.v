(** The keygen and signing rounds keep their ID and party list; basic facts about their steps. *)
From Coq Require Import ZArith Lia List Bool String Permutation.
From stdpp Require Import base gmap list fin_maps.
From Verif Require Import ZField Primes Bytes Scalar Go Group Party Poly PolyFacts Zk Eddsa Messages State StateFacts Keygen Sign.
Import ListNotations.
Local Open Scope Z_scope.

Section RoundFacts.
  Context `{Gr : group_ops} `{Hf : hash_fn}.

  Lemma lift_r_ok {A B} (x : outcome A) (f : A -> rres kround B) (P : rres kround B -> Prop) :
    (forall a, x = Ret a -> P (f a)) -> (forall w, P (RPanic w)) -> P (lift_r x f).
  Proof. intros H1 H2. destruct x; cbn; auto. Qed.

  Lemma keygen_round_ok : round_ok keygen_round.
  Proof.
    assert (forall A (x : rres kround A) (Q : kround -> Prop),
      (forall r a, x = ROk r a -> Q r) -> (forall r c t, x = RErr r c t -> Q r) ->
      forall r', (exists a, x = ROk r' a) \/ (exists c t, x = RErr r' c t) -> Q r') as W.
    { intros A x Q H1 H2 r' [[a E]|(c & t & E)]; eauto. }
    split; cbn [keygen_round r_self r_ids r_process r_generate r_next r_reset].
    - intros k m. apply (W _ _ (fun r' => kr_self r' = kr_self k /\ kr_ids r' = kr_ids k)).
      + intros r []. destruct (kr_no k) as [|[|n]].
        * intros E; inversion E; auto.
        * unfold kg1_process. destruct m as [m|]; [|discriminate]. destruct (m_KeyGen1 m); [|discriminate].
          do 2 (apply lift_r_ok; [intros ? _|discriminate]). destruct (negb _); [discriminate|].
          destruct (kr_CommitmentsSum k); [|discriminate]. intros E; inversion E; auto.
        * unfold kg2_process. destruct m as [m|]; [|discriminate]. destruct (m_KeyGen2 m); [|discriminate].
          destruct (kr_Commitments k !! m_From m); [|discriminate].
          do 2 (apply lift_r_ok; [intros ? _|discriminate]). destruct (negb _); [discriminate|]. intros E; inversion E; auto.
      + intros r c t. destruct (kr_no k) as [|[|n]].
        * discriminate.
        * unfold kg1_process. destruct m as [m|]; [|discriminate]. destruct (m_KeyGen1 m); [|discriminate].
          do 2 (apply lift_r_ok; [intros ? _|discriminate]). destruct (negb _); [intros E; inversion E; auto|].
          destruct (kr_CommitmentsSum k); discriminate.
        * unfold kg2_process. destruct m as [m|]; [|discriminate]. destruct (m_KeyGen2 m); [|discriminate].
          destruct (kr_Commitments k !! m_From m); [|discriminate].
          do 2 (apply lift_r_ok; [intros ? _|discriminate]). destruct (negb _); [intros E; inversion E; auto|discriminate].
    - intros _ k. apply (W _ _ (fun r' => kr_self r' = kr_self k /\ kr_ids r' = kr_ids k)).
      + intros r l. destruct (kr_no k) as [|[|n]].
        * unfold kg0_generate. cbv zeta. do 5 (apply lift_r_ok; [intros ? _|discriminate]). intros E; inversion E; auto.
        * unfold kg1_generate. destruct (kr_Polynomial k); [|discriminate]. apply lift_r_ok; [intros ? _|discriminate]. intros E; inversion E; auto.
        * unfold kg2_generate. destruct (kr_CommitmentsSum k); [|discriminate]. do 2 (apply lift_r_ok; [intros ? _|discriminate]).
          destruct (kr_outp k); [|discriminate]. intros E; inversion E; auto.
      + intros r c t. destruct (kr_no k) as [|[|n]].
        * unfold kg0_generate. cbv zeta. do 5 (apply lift_r_ok; [intros ? _|discriminate]). discriminate.
        * unfold kg1_generate. destruct (kr_Polynomial k); [|discriminate]. apply lift_r_ok; [intros ? _|discriminate]. discriminate.
        * unfold kg2_generate. destruct (kr_CommitmentsSum k); [|discriminate]. do 2 (apply lift_r_ok; [intros ? _|discriminate]).
          destruct (kr_outp k); discriminate.
    - intros k k'. destruct (kr_no k) as [|[|n]]; [| |discriminate]; intros [= <-]; auto.
    - intros k k'. unfold kg_Reset. destruct (kr_Polynomial k), (kr_CommitmentsSum k); try discriminate. intros E. apply Ret_inj in E. subst. auto.
  Qed.

  Lemma sign_round_ok : round_ok sign_round.
  Proof.
    assert (forall A (x : rres sround A) (Q : sround -> Prop),
      (forall r a, x = ROk r a -> Q r) -> (forall r c t, x = RErr r c t -> Q r) ->
      forall r', (exists a, x = ROk r' a) \/ (exists c t, x = RErr r' c t) -> Q r') as W.
    { intros A x Q H1 H2 r' [[a E]|(c & t & E)]; eauto. }
    split; cbn [sign_round r_self r_ids r_process r_generate r_next r_reset].
    - intros k m. apply (W _ _ (fun r' => sr_self r' = sr_self k /\ sr_ids r' = sr_ids k)).
      + intros r []. destruct (sr_no k) as [|[|n]].
        * intros E; inversion E; auto.
        * unfold sg1_process. destruct m as [m|]; [|discriminate]. destruct (m_Sign1 m); [|discriminate].
          destruct (_ || _); [discriminate|]. destruct (sr_Parties k !! m_From m); [|discriminate]. intros E; inversion E; auto.
        * unfold sg2_process. destruct m as [m|]; [|discriminate]. destruct (sr_Parties k !! m_From m); [|discriminate].
          destruct (m_Sign2 m); [|discriminate]. destruct (negb _); [discriminate|]. intros E; inversion E; auto.
      + intros r c t. destruct (sr_no k) as [|[|n]].
        * discriminate.
        * unfold sg1_process. destruct m as [m|]; [|discriminate]. destruct (m_Sign1 m); [|discriminate].
          destruct (_ || _); [intros E; inversion E; auto|]. destruct (sr_Parties k !! m_From m); discriminate.
        * unfold sg2_process. destruct m as [m|]; [|discriminate]. destruct (sr_Parties k !! m_From m); [|discriminate].
          destruct (m_Sign2 m); [|discriminate]. destruct (negb _); [intros E; inversion E; auto|discriminate].
    - intros sched k. apply (W _ _ (fun r' => sr_self r' = sr_self k /\ sr_ids r' = sr_ids k)).
      + intros r l. destruct (sr_no k) as [|[|n]].
        * unfold sg0_generate. destruct (sr_Parties k !! sr_self k); [|discriminate]. intros E; inversion E; auto.
        * unfold sg1_generate. destruct (computeRhos k); try discriminate. destruct ((set_Ri <$> a) !! sr_self k); [|discriminate]. intros E; inversion E; auto.
        * unfold sg2_generate. destruct (negb _); [discriminate|]. destruct (sr_outp k); [|discriminate]. intros E; inversion E; auto.
      + intros r c t. destruct (sr_no k) as [|[|n]].
        * unfold sg0_generate. destruct (sr_Parties k !! sr_self k); discriminate.
        * unfold sg1_generate. destruct (computeRhos k); try discriminate. destruct ((set_Ri <$> a) !! sr_self k); discriminate.
        * unfold sg2_generate. destruct (negb _); [intros E; inversion E; auto|]. destruct (sr_outp k); discriminate.
    - intros k k'. destruct (sr_no k) as [|[|n]]; [| |discriminate]; intros [= <-]; auto.
    - intros k k' E. apply Ret_inj in E. subst. auto.
  Qed.
End RoundFacts.
