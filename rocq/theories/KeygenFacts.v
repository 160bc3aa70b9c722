(** The keygen rounds over arbitrary received messages. *)
From Coq Require Import ZArith Lia List Bool String Permutation Ring Setoid Morphisms.
From Coq.Strings Require Import Byte.
From stdpp Require Import base gmap list fin_maps.
From Verif Require Import ZField Primes Bytes Scalar Go Group Party Poly PolyFacts Zk Eddsa Messages State StateFacts Keygen Sign RoundFacts Lift Spec_Poly PolyAlg Spec_Group SignFacts.
Import ListNotations.
Local Open Scope Z_scope.

Section Loops.
  Context `{Gr : group_ops} `{Hf : hash_fn}.

  Definition kg_set_cc (k : kround) (c : option Exponent) (cs : gmap Z Exponent) : kround :=
    mkKround (kr_no k) (kr_self k) (kr_ids k) (kr_Threshold k) (kr_Secret k) (kr_Polynomial k) c cs (kr_outp k) (kr_out k) (kr_rng k).
  Definition kg_set_secret (k : kround) (s : Fq) : kround :=
    mkKround (kr_no k) (kr_self k) (kr_ids k) (kr_Threshold k) s (kr_Polynomial k) (kr_CommitmentsSum k) (kr_Commitments k) (kr_outp k) (kr_out k) (kr_rng k).
  Lemma kg_set_cc_id k : kg_set_cc k (kr_CommitmentsSum k) (kr_Commitments k) = k.
  Proof. destruct k; reflexivity. Qed.
  Lemma kg_set_secret_id k : kg_set_secret k (kr_Secret k) = k.
  Proof. destruct k; reflexivity. Qed.

  Lemma kg0_loop rcv : forall ks r, kr_no r = 0%nat -> process_loop keygen_round r rcv ks = ROk r tt.
  Proof. induction ks as [|k ks IH]; intros r Hno; cbn [process_loop]; auto. cbn [keygen_round r_process]. rewrite Hno. now apply IH. Qed.

  Lemma zk_challenge_ctx0 i A M : exists c, zk_challenge i ctx0 A M = Ret c.
  Proof. eexists. reflexivity. Qed.
  Lemma zk_Verify_ctx0 pr i A : exists b, zk_Verify pr i A ctx0 = Ret b.
  Proof. eexists. reflexivity. Qed.

  (** Adding one commitment to the sum, dropping it when its length differs (round1.go:22). *)
  Definition addc (c e : Exponent) : Exponent := match exp_add c e with Ret c' => c' | _ => c end.
  Definition addk (cs : gmap Z Exponent) (c : Exponent) (k : Z) : Exponent := match cs !! k with Some e => addc c e | None => c end.

  Lemma kg1_loop rcv : from_ok rcv -> forall ks r c0, List.NoDup ks -> kr_no r = 1%nat -> kr_CommitmentsSum r = Some c0 ->
    match process_loop keygen_round r rcv ks with
    | ROk r' _ => r' = kg_set_cc r (Some (fold_left (addk (kr_Commitments r')) ks c0)) (kr_Commitments r') /\
        (forall k, ~ In k ks -> kr_Commitments r' !! k = kr_Commitments r !! k) /\
        (forall k, In k ks -> exists m b A tl, rcv !! k = Some (Some m) /\ m_KeyGen1 m = Some b /\ k1_Commitments b = A :: tl /\
           zk_Verify (k1_Proof b) k A ctx0 = Ret true /\ kr_Commitments r' !! k = Some (k1_Commitments b))
    | RErr r' c t => (exists cs cc, r' = kg_set_cc r (Some cs) cc) /\ t = "ZK Schnorr failed"%string /\
        In c ks /\ exists m b A tl, rcv !! c = Some (Some m) /\ m_KeyGen1 m = Some b /\ k1_Commitments b = A :: tl /\
           zk_Verify (k1_Proof b) c A ctx0 = Ret false
    | RPanic w => exists k, In k ks /\ match default None (rcv !! k) with
        | None => True
        | Some m => match m_KeyGen1 m with None => True | Some b => k1_Commitments b = [] end end
    end.
  Proof.
    intros Hfrom. induction ks as [|k ks IH]; intros r c0 ND Hno Hc; cbn [process_loop].
    { cbn [fold_left]. rewrite <- Hc, kg_set_cc_id. repeat split; auto; contradiction. }
    inversion ND as [|? ? Hk ND']; subst. cbn [keygen_round r_process]. rewrite Hno. unfold kg1_process.
    destruct (rcv !! k) as [[m|]|] eqn:Er; cbn [from_option id]; [|exists k; rewrite Er; cbn; auto ..].
    cbv zeta. rewrite ?(Hfrom k m Er).
    destruct (m_KeyGen1 m) as [b|] eqn:Eb; [|exists k; rewrite Er; cbn; rewrite Eb; auto].
    destruct (k1_Commitments b) as [|A tl] eqn:Ec; [exists k; rewrite Er; cbn; rewrite Eb; auto|].
    cbn [exp_constant lift_r]. destruct (zk_Verify_ctx0 (k1_Proof b) k A) as [ok Ez]. rewrite Ez. cbn [lift_r].
    destruct ok; cbn [negb].
    2:{ split; [exists c0, (kr_Commitments r); rewrite <- Hc, kg_set_cc_id; reflexivity|]. split; auto. split; [left; auto|].
        exists m, b, A, tl. auto. }
    rewrite Hc. rewrite <- Ec. change (match exp_add c0 (k1_Commitments b) with Ret c => c | _ => c0 end) with (addc c0 (k1_Commitments b)).
    set (r1 := mkKround _ _ _ _ _ _ _ _ _ _ _).
    specialize (IH r1 (addc c0 (k1_Commitments b)) ND' Hno eq_refl). cbn [keygen_round r_process] in IH.
    destruct (process_loop keygen_round r1 rcv ks) as [r' u|r' c t|w].
    - destruct IH as (E & B & C).
      assert (kr_Commitments r' !! k = Some (k1_Commitments b)) as E1. { rewrite B by exact Hk. unfold r1. cbn. apply lookup_insert. }
      split; [|split].
      + etransitivity; [exact E|]. cbn [fold_left]. unfold kg_set_cc, r1. cbn. unfold addk at 3. rewrite E1. reflexivity.
      + intros j Hj. rewrite B by (intros X; apply Hj; right; auto). unfold r1. cbn. rewrite lookup_insert_ne; auto. intros ->. apply Hj. left; auto.
      + intros j [<-|Hj].
        * exists m, b, A, tl. auto 10.
        * apply (C j Hj).
    - destruct IH as ((cs & cc & E) & -> & Hin & X). split; [exists cs, cc; rewrite E; reflexivity|]. split; auto. split; [right; auto|auto].
    - destruct IH as (j & Hj & X). exists j. split; [right; auto|auto].
  Qed.
End Loops.

Section Laws.
  Context `{L : group_laws} `{Hf : hash_fn}.

  (** A share for [self] fits a commitment. *)
  Definition share_fits (self : Z) (C : Exponent) (s : Fq) : Prop := geq (gbmul s) (gpeval C (idF self)).

  Lemma exp_eval_id C i : is_u16 i -> i <> 0 -> exists P, id_scalar i = Ret (idF i) /\ exp_eval C (idF i) = Ret P /\ geq P (gpeval C (idF i)).
  Proof.
    intros Hu Hn. destruct (exp_eval_ok C (idF i)) as (P & E & X). { intros X. apply Hn. now apply idF_0. }
    exists P. split; [now apply id_scalar_ok|auto].
  Qed.

  Lemma kg2_loop rcv self : from_ok rcv -> is_u16 self -> self <> 0 -> forall ks r, List.NoDup ks -> kr_no r = 2%nat -> kr_self r = self ->
    match process_loop keygen_round r rcv ks with
    | ROk r' _ => exists sh : Z -> Fq, r' = kg_set_secret r (fadd (kr_Secret r) (Fsum (map sh ks))) /\
        (forall k, In k ks -> exists m C, rcv !! k = Some (Some m) /\ m_KeyGen2 m = Some (mkKeyGen2 (sh k)) /\
           kr_Commitments r !! k = Some C /\ share_fits self C (sh k))
    | RErr r' c t => (exists s, r' = kg_set_secret r s) /\ t = "VSS failed to validate"%string /\
        In c ks /\ exists m s C, rcv !! c = Some (Some m) /\ m_KeyGen2 m = Some (mkKeyGen2 s) /\
           kr_Commitments r !! c = Some C /\ ~ share_fits self C s
    | RPanic w => exists k, In k ks /\ match default None (rcv !! k) with
        | None => True
        | Some m => m_KeyGen2 m = None \/ kr_Commitments r !! k = None end
    end.
  Proof.
    intros Hfrom Hu Hnz. induction ks as [|k ks IH]; intros r ND Hno Hs; cbn [process_loop].
    { exists (fun _ => f0). cbn [map]. change (Fsum []) with (@f0 q25519). split; [|contradiction].
      replace (kr_Secret r + 0)%Fq with (kr_Secret r) by ring. now rewrite kg_set_secret_id. }
    inversion ND as [|? ? Hk ND']; subst. cbn [keygen_round r_process]. rewrite Hno. unfold kg2_process.
    destruct (rcv !! k) as [[m|]|] eqn:Er; cbn [from_option id]; [|exists k; rewrite Er; cbn; auto ..].
    cbv zeta. rewrite ?(Hfrom k m Er).
    destruct (m_KeyGen2 m) as [[s]|] eqn:Eb; [|exists k; rewrite Er; cbn; auto].
    destruct (kr_Commitments r !! k) as [C|] eqn:Ec; [|exists k; rewrite Er; cbn; auto].
    destruct (exp_eval_id C (kr_self r) Hu Hnz) as (P & E1 & E2 & E3). rewrite E1. cbn [lift_r]. rewrite E2. cbn [lift_r k2_Share].
    assert (geqb (gbmul s) P = true <-> share_fits (kr_self r) C s) as Hfit.
    { unfold share_fits. change (geqb (gbmul s) P = true) with (geq (gbmul s) P). now rewrite E3. }
    destruct (geqb (gbmul s) P) eqn:Eg; cbn [negb].
    2:{ split; [exists (kr_Secret r); now rewrite kg_set_secret_id|]. split; auto. split; [left; auto|].
        exists m, s, C. split; auto. split; auto. split; auto. intros X. apply Hfit in X. discriminate. }
    set (r1 := mkKround _ _ _ _ _ _ _ _ _ _ _).
    specialize (IH r1 ND' Hno eq_refl). cbn [keygen_round r_process] in IH.
    destruct (process_loop keygen_round r1 rcv ks) as [r' u|r' c t|w].
    - destruct IH as (sh & E & X). exists (fun j => if j =? k then s else sh j). split.
      + rewrite E. cbn [map]. rewrite Z.eqb_refl.
        replace (map (fun j => if j =? k then s else sh j) ks) with (map sh ks).
        2:{ apply map_ext_in. intros j Hj. destruct (Z.eqb_spec j k); [subst; contradiction|reflexivity]. }
        assert (forall x t, Fsum (x :: t) = fadd x (Fsum t)) as -> by reflexivity.
        unfold kg_set_secret, r1. cbn. f_equal. ring.
      + intros j [<-|Hj].
        * rewrite Z.eqb_refl. exists m, C. split; auto. split; auto. split; auto. now apply Hfit.
        * destruct (Z.eqb_spec j k); [subst; contradiction|]. apply (X j Hj).
    - destruct IH as ((s1 & E) & -> & Hin & X). split; [exists s1; rewrite E; reflexivity|]. split; auto. split; [right; auto|auto].
    - destruct IH as (j & Hj & X). exists j. split; [right; auto|auto].
  Qed.

  (** The sum of commitments after round 1: the evaluations add up over the commitments of matching length. *)
  Definition same_len (c e : Exponent) : bool := Nat.eqb (List.length c) (List.length e).
  Lemma addc_len c e : List.length (addc c e) = List.length c.
  Proof.
    unfold addc, exp_add. destruct (Nat.eqb_spec (List.length c) (List.length e)); auto. now apply map2_length.
  Qed.
  Lemma addc_eval c e x : geq (gpeval (addc c e) x) (gadd (gpeval c x) (if same_len c e then gpeval e x else gid)).
  Proof.
    unfold addc, exp_add, same_len. destruct (Nat.eqb_spec (List.length c) (List.length e)).
    - now apply gpeval_map2.
    - now rewrite gadd_id_r.
  Qed.
  Lemma fold_addk_len cs ks : forall c, List.length (fold_left (addk cs) ks c) = List.length c.
  Proof.
    induction ks as [|k ks IH]; intros c; cbn; auto. rewrite IH. unfold addk. destruct (cs !! k); auto. apply addc_len.
  Qed.
  Lemma fold_addk_eval cs n x : forall ks c, List.length c = n ->
    geq (gpeval (fold_left (addk cs) ks c) x)
        (gadd (gpeval c x) (Gsum (map (fun k => match cs !! k with
            | Some e => if Nat.eqb (List.length e) n then gpeval e x else gid | None => gid end) ks))).
  Proof.
    induction ks as [|k ks IH]; intros c Hc; cbn [fold_left map].
    - cbn. now rewrite gadd_id_r.
    - rewrite IH. 2:{ unfold addk. destruct (cs !! k); auto. now rewrite addc_len. }
      change (Gsum (?a :: ?l)) with (gadd a (Gsum l)). rewrite gadd_assoc. apply gadd_proper; [|reflexivity].
      unfold addk. destruct (cs !! k) as [e|]; [|now rewrite gadd_id_r]. rewrite addc_eval. unfold same_len. rewrite Hc, Nat.eqb_sym. reflexivity.
  Qed.
  Lemma gpeval_0 A tl : geq (gpeval (A :: tl) f0) A.
  Proof. cbn. glog A. glog (gpeval tl f0). rewrite Elg, Elg0. gcollapse. apply gb_inj. ring. Qed.
End Laws.
