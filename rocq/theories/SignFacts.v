(** What the signing rounds do to the round value. *)
From Coq Require Import ZArith Lia List Bool String Permutation.
From Coq.Strings Require Import Byte.
From stdpp Require Import base gmap list fin_maps.
From Verif Require Import ZField Primes Bytes Scalar Go Group Party Poly PolyFacts Zk Eddsa Messages State StateFacts Keygen Sign RoundFacts Lift Spec_Group Spec_Wire Spec_Sign.
Import ListNotations.
Local Open Scope Z_scope.

Section SignFacts.
  Context `{Gr : group_ops} `{Hf : hash_fn}.

  Lemma sg_set_parties_id r : sg_set_parties r (sr_Parties r) = r.
  Proof. destruct r; reflexivity. Qed.
  Lemma sg_set_parties_twice r p p' : sg_set_parties (sg_set_parties r p) p' = sg_set_parties r p'.
  Proof. reflexivity. Qed.

  (** What a stored message says, as far as the loop needs. *)
  Definition from_ok (rcv : gmap Z (option Message)) : Prop := forall k m, rcv !! k = Some (Some m) -> m_From m = k.

  (** Round 1 over a list of senders. *)
  Lemma sg1_loop rcv : from_ok rcv -> forall ks r, List.NoDup ks -> sr_no r = 1%nat ->
    match process_loop sign_round r rcv ks with
    | ROk r' _ => r' = sg_set_parties r (sr_Parties r') /\
        (forall k, ~ In k ks -> sr_Parties r' !! k = sr_Parties r !! k) /\
        (forall k, In k ks -> exists m b p, rcv !! k = Some (Some m) /\ m_Sign1 m = Some b /\
           geqb (s1_Di b) gid = false /\ geqb (s1_Ei b) gid = false /\ sr_Parties r !! k = Some p /\
           sr_Parties r' !! k = Some (mkSigner (sg_Public p) (s1_Di b) (s1_Ei b) (sg_Ri p) (sg_Pi p) (sg_Zi p)))
    | RErr r' c t => r' = sg_set_parties r (sr_Parties r') /\ t = "commitment Ei or Di was the identity"%string /\
        In c ks /\ exists m b, rcv !! c = Some (Some m) /\ m_Sign1 m = Some b /\ (geqb (s1_Di b) gid || geqb (s1_Ei b) gid) = true
    | RPanic w => exists k, In k ks /\ match default None (rcv !! k) with
        | None => True
        | Some m => m_Sign1 m = None \/ sr_Parties r !! k = None end
    end.
  Proof.
    intros Hfrom. induction ks as [|k ks IH]; intros r ND Hno; cbn [process_loop].
    { rewrite sg_set_parties_id. repeat split; auto; contradiction. }
    inversion ND as [|? ? Hk ND']; subst. cbn [sign_round r_process]. rewrite Hno. unfold sg1_process.
    destruct (rcv !! k) as [[m|]|] eqn:Er; cbn [from_option id]; [|exists k; rewrite Er; cbn; auto ..].
    cbv zeta. rewrite ?(Hfrom k m Er).
    destruct (m_Sign1 m) as [b|] eqn:Eb; [|exists k; rewrite Er; cbn; auto].
    destruct (geqb (s1_Di b) gid || geqb (s1_Ei b) gid) eqn:EI.
    { rewrite sg_set_parties_id. split; auto. split; auto. split; [left; auto|]. exists m, b. auto. }
    destruct (sr_Parties r !! k) as [p|] eqn:Ep; [|exists k; rewrite Er; cbn; auto].
    set (p' := mkSigner _ _ _ _ _ _). set (r1 := sg_set_parties r _).
    specialize (IH r1 ND' Hno). cbn [sign_round r_process] in IH.
    assert (forall j, j <> k -> sr_Parties r1 !! j = sr_Parties r !! j) as Hne. { intros j Hj. unfold r1. cbn. rewrite lookup_insert_ne; auto. }
    assert (sr_Parties r1 !! k = Some p') as Hk1. { unfold r1. cbn. apply lookup_insert. }
    destruct (process_loop sign_round r1 rcv ks) as [r' u|r' c t|w].
    - destruct IH as (A & B & C). split; [rewrite A; reflexivity|]. split.
      + intros j Hj. rewrite B by (intros X; apply Hj; right; auto). apply Hne. intros ->. apply Hj. left; auto.
      + intros j [<-|Hj].
        * apply orb_false_iff in EI as [E1 E2]. exists m, b, p. rewrite (B k Hk). auto 10.
        * destruct (C j Hj) as (m1 & b1 & p1 & A1 & A2 & A3 & A4 & A5 & A6). exists m1, b1, p1.
          rewrite Hne in A5 by (intros ->; contradiction). auto 10.
    - destruct IH as (A & B & C & m1 & b1 & D). split; [rewrite A; reflexivity|]. split; auto. split; [right; auto|]. exists m1, b1. auto.
    - destruct IH as (j & Hj & X). exists j. split; [right; auto|]. rewrite Hne in X by (intros ->; contradiction). auto.
  Qed.

  Definition share_check (C : Fq) (p : signer) (z : Fq) : bool := geqb (gdsmul C (gneg (sg_Public p)) z) (sg_Ri p).

  (** Round 2 over a list of senders. *)
  Lemma sg2_loop rcv : from_ok rcv -> forall ks r, List.NoDup ks -> sr_no r = 2%nat ->
    match process_loop sign_round r rcv ks with
    | ROk r' _ => r' = sg_set_parties r (sr_Parties r') /\
        (forall k, ~ In k ks -> sr_Parties r' !! k = sr_Parties r !! k) /\
        (forall k, In k ks -> exists m b p, rcv !! k = Some (Some m) /\ m_Sign2 m = Some b /\
           sr_Parties r !! k = Some p /\ share_check (sr_C r) p (s2_Zi b) = true /\
           sr_Parties r' !! k = Some (mkSigner (sg_Public p) (sg_Di p) (sg_Ei p) (sg_Ri p) (sg_Pi p) (s2_Zi b)))
    | RErr r' c t => r' = sg_set_parties r (sr_Parties r') /\ t = "signature share is invalid"%string /\
        In c ks /\ exists m b p, rcv !! c = Some (Some m) /\ m_Sign2 m = Some b /\ sr_Parties r !! c = Some p /\ share_check (sr_C r) p (s2_Zi b) = false
    | RPanic w => exists k, In k ks /\ match default None (rcv !! k) with
        | None => True
        | Some m => m_Sign2 m = None \/ sr_Parties r !! k = None end
    end.
  Proof.
    intros Hfrom. induction ks as [|k ks IH]; intros r ND Hno; cbn [process_loop].
    { rewrite sg_set_parties_id. repeat split; auto; contradiction. }
    inversion ND as [|? ? Hk ND']; subst. cbn [sign_round r_process]. rewrite Hno. unfold sg2_process.
    destruct (rcv !! k) as [[m|]|] eqn:Er; cbn [from_option id]; [|exists k; rewrite Er; cbn; auto ..].
    cbv zeta. rewrite ?(Hfrom k m Er).
    destruct (sr_Parties r !! k) as [p|] eqn:Ep; [|exists k; rewrite Er; cbn; auto].
    destruct (m_Sign2 m) as [b|] eqn:Eb; [|exists k; rewrite Er; cbn; auto].
    fold (share_check (sr_C r) p (s2_Zi b)).
    destruct (share_check (sr_C r) p (s2_Zi b)) eqn:EI; cbn [negb].
    2:{ rewrite sg_set_parties_id. split; auto. split; auto. split; [left; auto|]. exists m, b, p. auto. }
    set (p' := mkSigner _ _ _ _ _ _). set (r1 := sg_set_parties r _).
    specialize (IH r1 ND' Hno). cbn [sign_round r_process] in IH.
    assert (forall j, j <> k -> sr_Parties r1 !! j = sr_Parties r !! j) as Hne. { intros j Hj. unfold r1. cbn. rewrite lookup_insert_ne; auto. }
    assert (sr_Parties r1 !! k = Some p') as Hk1. { unfold r1. cbn. apply lookup_insert. }
    destruct (process_loop sign_round r1 rcv ks) as [r' u|r' c t|w].
    - destruct IH as (A & B & C). split; [rewrite A; reflexivity|]. split.
      + intros j Hj. rewrite B by (intros X; apply Hj; right; auto). apply Hne. intros ->. apply Hj. left; auto.
      + intros j [<-|Hj].
        * exists m, b, p. rewrite (B k Hk). auto 10.
        * destruct (C j Hj) as (m1 & b1 & p1 & A1 & A2 & A3 & A4 & A5). exists m1, b1, p1.
          rewrite Hne in A3 by (intros ->; contradiction). auto 10.
    - destruct IH as (A & B & C & m1 & b1 & p1 & D1 & D2 & D3 & D4). split; [rewrite A; reflexivity|]. split; auto. split; [right; auto|].
      exists m1, b1, p1. rewrite Hne in D3; auto. intros ->. contradiction.
    - destruct IH as (j & Hj & X). exists j. split; [right; auto|]. rewrite Hne in X by (intros ->; contradiction). auto.
  Qed.

  Lemma sg0_loop rcv : forall ks r, sr_no r = 0%nat -> process_loop sign_round r rcv ks = ROk r tt.
  Proof. induction ks as [|k ks IH]; intros r Hno; cbn [process_loop sign_round r_process]; auto. rewrite Hno. now apply IH. Qed.

  (** *** rho_B *)
  Definition cl_of (ps : gmap Z signer) (ids : list Z) : commitment_list :=
    map (fun i => (i, match ps !! i with Some p => (sg_Di p, sg_Ei p) | None => (gid, gid) end)) ids.
  Lemma id_bytes_hi_lo i : id_bytes i = [hi i; lo i].
  Proof. unfold id_bytes, be16, hi, lo. now rewrite z2b_mod. Qed.

  Lemma rho_B_fold ps ids : forall acc, (forall i, In i ids -> exists p, ps !! i = Some p) ->
    ofold (fun buf id => match ps !! id with None => Panics "nil signer" | Some p => Ret (buf ++ id_bytes id ++ genc (sg_Di p) ++ genc (sg_Ei p)) end) acc ids
    = Ret (acc ++ concat (map (fun x => id_bytes (fst x) ++ genc (fst (snd x)) ++ genc (snd (snd x))) (cl_of ps ids))).
  Proof.
    induction ids as [|i ids IH]; intros acc H; cbn [ofold cl_of map concat]; [now rewrite app_nil_r|].
    destruct (H i ltac:(left; auto)) as [p Ep]. rewrite Ep. cbn [obind fst snd].
    rewrite IH by (intros j Hj; apply H; right; auto). fold (cl_of ps ids). rewrite <- !app_assoc. reflexivity.
  Qed.

  (** *** The Reset of base.go:92-109 *)
  Definition erased (r : sround) : Prop :=
    sr_Message r = [] /\ sr_Parties r = ∅ /\ sr_SecretKeyShare r = f0 /\ sr_e r = f0 /\ sr_d r = f0 /\ sr_C r = f0 /\ sr_outp r = false.

  (** ** First invariant: the output and the erasure, for any parameters *)
  Section Output.
    Context (r0 : sround) (H0 : sr_no r0 = 0%nat /\ sr_outp r0 = true /\ sr_out r0 = None).
    Definition PO (n : nat) (r : sround) (out : list Message) : Prop :=
      sr_no r = n /\ (n <= 2)%nat /\ sr_GroupKey r = sr_GroupKey r0 /\ sr_Message r = sr_Message r0 /\ sr_outp r = true /\ sr_out r = None /\
      map m_Type out = firstn n [MTSign1; MTSign2].
    Definition FO (r : sround) (err : option PError) (out : list Message) : Prop :=
      erased r /\ (exists n, map m_Type out = firstn n [MTSign1; MTSign2]) /\
      match err with
      | None => exists sg, sr_out r = Some sg /\ Verify (sr_GroupKey r0) (sr_Message r0) sg = true
      | Some _ => sr_out r = None
      end.

    Lemma reset_erased r r3 : sg_Reset r = Ret r3 -> erased r3 /\ sr_out r3 = sr_out r.
    Proof. intros E. apply Ret_inj in E. subst. split; [repeat split|reflexivity]. Qed.

    Lemma loop_keeps_PO rcv ks : forall n r out, PO n r out ->
      match process_loop sign_round r rcv ks with ROk r' _ => PO n r' out | RErr r' _ _ => PO n r' out | RPanic _ => True end.
    Proof.
      induction ks as [|k ks IH]; intros n r out HP; cbn [process_loop]; auto.
      destruct (r_process sign_round r (from_option id None (rcv !! k))) as [r1 u|r1 c t|w] eqn:E; auto.
      - apply IH. revert E. cbn [sign_round r_process]. destruct HP as (A & B & HP). destruct (sr_no r) as [|[|x]] eqn:Eno.
        + intros E; inversion E; subst. repeat split; auto; apply HP.
        + unfold sg1_process. destruct (from_option id None (rcv !! k)); [|discriminate]. destruct (m_Sign1 m); [|discriminate].
          destruct (_ || _); [discriminate|]. destruct (sr_Parties r !! m_From m); [|discriminate]. intros E; inversion E; subst.
          repeat split; auto; apply HP.
        + unfold sg2_process. destruct (from_option id None (rcv !! k)); [|discriminate]. destruct (sr_Parties r !! m_From m); [|discriminate].
          destruct (m_Sign2 m); [|discriminate]. destruct (negb _); [discriminate|]. intros E; inversion E; subst. repeat split; auto; apply HP.
      - revert E. cbn [sign_round r_process]. destruct HP as (A & B & HP). destruct (sr_no r) as [|[|x]] eqn:Eno.
        + discriminate.
        + unfold sg1_process. destruct (from_option id None (rcv !! k)); [|discriminate]. destruct (m_Sign1 m); [|discriminate].
          destruct (_ || _); [|destruct (sr_Parties r !! m_From m); discriminate]. intros E; inversion E; subst. repeat split; auto; apply HP.
        + unfold sg2_process. destruct (from_option id None (rcv !! k)); [|discriminate]. destruct (sr_Parties r !! m_From m); [|discriminate].
          destruct (m_Sign2 m); [|discriminate]. destruct (negb _); [|discriminate]. intros E; inversion E; subst. repeat split; auto; apply HP.
    Qed.

    Lemma PO_step n r out rcv ks sched : PO n r out -> step_post sign_round PO FO n out sched (process_loop sign_round r rcv ks).
    Proof.
      intros HP. pose proof (loop_keeps_PO rcv ks n r out HP) as HL. unfold step_post.
      destruct (process_loop sign_round r rcv ks) as [r1 u|r1 c t|w]; auto.
      2:{ intros r3 E. apply reset_erased in E as [E1 E2]. split; auto. split; [exists n; apply HL|]. rewrite E2. apply HL. }
      clear HP r. destruct HL as (A & B & C & D & E & G0 & H).
      cbn [sign_round r_generate]. rewrite A. destruct n as [|[|[|n]]]; [| | |lia].
      - unfold sg0_generate. destruct (sr_Parties r1 !! sr_self r1) as [p|]; auto. cbn [sign_round r_next sr_no]. rewrite A.
        repeat split; auto. rewrite map_app, H. reflexivity.
      - unfold sg1_generate. destruct (computeRhos r1) as [ps| |]; auto. cbv zeta. destruct ((set_Ri <$> ps) !! sr_self r1) as [p|]; auto.
        cbn [sign_round r_next sr_no]. rewrite A. repeat split; auto. rewrite map_app, H. reflexivity.
      - unfold sg2_generate. cbv zeta. destruct (Verify _ _ _) eqn:EV; cbn [negb].
        + rewrite E. cbn [sign_round r_next sr_no]. rewrite A. intros r3 E3. apply reset_erased in E3 as [E1 E2]. split; auto.
          rewrite app_nil_r. split; [exists 2%nat; exact H|]. rewrite E2. eexists. split; [reflexivity|]. now rewrite <- C, <- D.
        + intros r3 E3. apply reset_erased in E3 as [E1 E2]. split; auto. split; [exists 2%nat; exact H|]. now rewrite E2.
    Qed.

    Lemma output_run now t es s out : run sign_round (NewBaseState sign_round now t r0) es = Ret (s, out) ->
      linv sign_round (fun _ => True) r0 PO FO s out.
    Proof.
      intros E. eapply linv_run; [exact sign_round_ok| | | | |exact E].
      - destruct H0 as (X1 & X2 & X3). repeat split; auto.
      - intros. now apply PO_step.
      - intros n r o r3 HP _ _ E3. apply reset_erased in E3 as [E1 E2]. split; auto. split; [exists n; apply HP|]. rewrite E2. apply HP.
      - apply Forall_forall. intros [] _; cbn; auto.
    Qed.
  End Output.
End SignFacts.
