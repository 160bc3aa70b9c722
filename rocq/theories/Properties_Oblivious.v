(** C72: messages that do not depend on what a party drew cannot influence the key it ends up with. *)
From Coq Require Import ZArith Lia List Bool String Permutation Sorted Ring Setoid Morphisms.
From Coq.Strings Require Import Byte.
From stdpp Require Import base gmap list fin_maps.
From Verif Require Import ZField Primes Bytes Scalar Go Group ToyGroup Party Poly PolyFacts Zk Eddsa Messages State StateFacts Spec_State
  Keygen Sign RoundFacts Lift Spec_Poly PolyAlg Spec_Group Spec_Wire Spec_Sign Spec_SignRun Spec_Keygen SignFacts SignRun KeygenFacts KeygenRun
  CodecFacts Properties_Algebra Properties_Codec Properties_Keygen Properties_HonestKeygen Properties_Random Properties_Order Properties_Secrecy ToyRuns.
Import ListNotations.
Local Open Scope Z_scope.
Local Opaque SetScalarRandom.

Section Two.
  Context `{L : group_laws} `{Hf : hash_fn} (rg rg' : rng) (self : ID) (ids : list ID) (thr : Z).
  Notation p := (p0 rg thr).
  Notation p' := (p0 rg' thr).
  (** Two elements, or scalars, that differ as the two polynomials do at x. *)
  Definition shifted (x : Fq) (A A' : G) : Prop := geq (gadd A (gbmul (peval p' x))) (gadd A' (gbmul (peval p x))).
  Definition fshifted (x a a' : Fq) : Prop := fadd a (peval p' x) = fadd a' (peval p x).
  Record osim (k k' : kround) : Prop := {
    os_k : ksim k k'; os_rng : kr_rng k = rg; os_rng' : kr_rng k' = rg'; os_thr : kr_Threshold k = thr; os_self : kr_self k = self;
    os_live : kr_outp k = true -> both (fun c c' => forall x, shifted x (gpeval c x) (gpeval c' x)) (kr_CommitmentsSum k) (kr_CommitmentsSum k') /\
      (kr_CommitmentsSum k <> None -> forall x, id_scalar self = Ret x -> fshifted x (kr_Secret k) (kr_Secret k'));
    os_pub : both (fun P P' => shifted f0 (pub_GroupKey P) (pub_GroupKey P') /\
      forall i x, id_scalar i = Ret x -> both (shifted x) (pub_Shares P !! i) (pub_Shares P' !! i)) (ko_Public (kr_out k)) (ko_Public (kr_out k'));
    os_sec : both (fun S1 S1' => forall x, id_scalar self = Ret x -> fshifted x (sh_Secret S1) (sh_Secret S1')) (ko_SecretKey (kr_out k)) (ko_SecretKey (kr_out k'))
  }.
  Ltac kp := cbn [kr_no kr_self kr_ids kr_Threshold kr_Secret kr_Polynomial kr_CommitmentsSum kr_Commitments kr_outp kr_out kr_rng ko_Public ko_SecretKey both kg_set_no].
  Ltac kph H := cbn [kr_no kr_self kr_ids kr_Threshold kr_Secret kr_Polynomial kr_CommitmentsSum kr_Commitments kr_outp kr_out kr_rng ko_Public ko_SecretKey both] in H.
  Lemma shifted_add x A A' B B' : shifted x A A' -> geq B B' -> shifted x (gadd A B) (gadd A' B').
  Proof. unfold shifted. intros H E. rewrite E, <- !gadd_assoc, (gadd_comm B'), (gadd_comm B'), !gadd_assoc, H. reflexivity. Qed.
  Lemma shifted_proper x A A' B B' : geq A B -> geq A' B' -> shifted x A A' -> shifted x B B'.
  Proof. unfold shifted. intros E E' H. now rewrite <- E, <- E'. Qed.

  Lemma osim_process r r' m : osim r r' ->
    match r_process keygen_round r m, r_process keygen_round r' m with
    | ROk r1 _, ROk r1' _ => osim r1 r1'
    | RErr r1 c t, RErr r1' c' t' => c = c' /\ t = t' /\ osim r1 r1'
    | RPanic w, RPanic w' => w = w'
    | _, _ => False
    end.
  Proof.
    intros H. pose proof H as [K R1 R2 T E LV PB SC]. pose proof (ksim_process r r' m K) as X. pose proof K as [A1 A2 A3 A4 A5 A6 A7 A8 A9 A10].
    cbn [keygen_round r_process] in *. rewrite <- A1 in *. destruct (kr_no r) as [|[|n] ] eqn:En.
    - exact H.
    - unfold kg1_process in *. destruct m as [m|]; [|reflexivity]. destruct (m_KeyGen1 m) as [b|]; [|reflexivity].
      destruct (exp_constant (k1_Commitments b)); cbn [lift_r] in *; auto. destruct (zk_Verify _ _ _ _) as [ok|?|?]; cbn [lift_r] in *; auto.
      destruct (negb ok); [auto|]. destruct (kr_CommitmentsSum r) as [c|] eqn:EC, (kr_CommitmentsSum r') as [c'|] eqn:EC'; try contradiction; auto.
      destruct X as [X _]. split; kp; auto. intros HO. destruct (LV HO) as [LC LS]. split; [|intros _; apply LS; discriminate].
      intros x. cbn [both] in LC, A6. specialize (LC x). fold (addc c (k1_Commitments b)) (addc c' (k1_Commitments b)).
      eapply shifted_proper; [symmetry; apply addc_eval|symmetry; apply addc_eval|]. unfold same_len. rewrite <- A6. now apply shifted_add.
    - unfold kg2_process in *. destruct m as [m|]; [|reflexivity]. destruct (m_KeyGen2 m) as [b|]; [|reflexivity]. rewrite <- A7, <- A2 in *.
      destruct (kr_Commitments r !! m_From m) as [c|]; [|reflexivity]. destruct (id_scalar (kr_self r)) as [y|?|?] eqn:Ey; cbn [lift_r] in *; auto.
      destruct (exp_eval c y); cbn [lift_r] in *; auto. destruct (negb _); [auto|]. destruct X as [X _]. split; kp; auto.
      intros HO. destruct (LV HO) as [LC LS]. split; [exact LC|]. intros Hn x Hx. unfold fshifted. specialize (LS Hn x Hx). unfold fshifted in LS.
      transitivity (fadd (fadd (kr_Secret r) (peval p' x)) (k2_Share b)); [ring|]. rewrite LS. ring.
  Qed.

  Lemma osim_generate r r' o : osim r r' ->
    match r_generate keygen_round o r, r_generate keygen_round o r' with
    | ROk r1 m, ROk r1' m' => osim r1 r1' /\ Forall2 same_envelope m m'
    | RErr r1 c t, RErr r1' c' t' => c = c' /\ t = t' /\ osim r1 r1'
    | RPanic w, RPanic w' => w = w'
    | _, _ => False
    end.
  Proof.
    intros H. pose proof H as [K R1 R2 T E LV PB SC]. pose proof (ksim_generate r r' o K) as X. pose proof K as [A1 A2 A3 A4 A5 A6 A7 A8 A9 A10].
    cbn [keygen_round r_generate] in *. rewrite <- A1 in *. destruct (kr_no r) as [|[|n] ] eqn:En.
    - unfold kg0_generate in *. rewrite <- A2, <- A4, R1, R2, T, E in *. unfold NewPolynomial in *. destruct (_ =? 0); cbn [lift_r] in *; [reflexivity|].
      fold (p0 rg thr) (p0 rg' thr) in *. destruct (exp_constant (NewPolynomialExponent p)) as [P|?|?]; cbn [lift_r] in *; [| |]; destruct (exp_constant (NewPolynomialExponent p')) as [P'|?|?]; cbn [lift_r kres] in *; try contradiction; auto.
      all: try (destruct (NewSchnorrProof _ _ _ _ _) as [pr|?|?]; cbn [lift_r kres] in *; try contradiction; auto).
      all: try (match goal with |- context [lift_r (NewSchnorrProof ?a ?b ?c ?d ?e)] => destruct (NewSchnorrProof a b c d e) as [pr'|?|?] end; cbn [lift_r kres] in *; try contradiction; auto).
      all: try (destruct (id_scalar self) as [y|?|?] eqn:Ey; cbn [lift_r kres] in *; try contradiction; auto).
      all: try (unfold poly_eval in *; destruct (feqb y f0) eqn:Ey0; cbn [lift_r kres] in *; try contradiction; auto).
      destruct X as [X XM]. split; [|exact XM]. split; kp; auto.
      + intros HO. split.
        * intros x. unfold shifted. rewrite !gpeval_commit. apply gadd_comm.
        * intros _ x Hx. rewrite Ey in Hx. apply Ret_inj in Hx. subst x. unfold fshifted.
          pose proof (poly_eval_ok p y) as Q. pose proof (poly_eval_ok p' y) as Q'. unfold poly_eval in Q, Q'. rewrite Ey0 in Q, Q'.
          assert (y <> f0) as Hy by (intros ->; rewrite feqb_refl in Ey0; discriminate). specialize (Q Hy). specialize (Q' Hy). apply Ret_inj in Q, Q'. rewrite Q, Q'. ring.
      + exact (os_sec _ _ H).
    - unfold kg1_generate in *. destruct (kr_Polynomial r) as [f|], (kr_Polynomial r') as [f'|]; try contradiction; [|reflexivity]. rewrite <- A3, <- A2 in *.
      destruct (ofold _ _ _) as [ms|?|?]; cbn [lift_r kres] in *; [| |];
      match goal with |- context [lift_r (ofold ?a ?b ?c)] => destruct (ofold a b c) as [ms'|?|?] end; cbn [lift_r kres] in *; try contradiction; auto.
      destruct X as [X XM]. split; [|exact XM]. split; kp; auto.
    - unfold kg2_generate in *. destruct (kr_CommitmentsSum r) as [c|] eqn:EC, (kr_CommitmentsSum r') as [c'|] eqn:EC'; try contradiction; [|reflexivity]. rewrite <- A3, <- A2, <- A4, <- A8 in *.
      destruct (kr_outp r) eqn:HO.
      2:{ destruct (ofold _ _ _) as [ms|?|?]; cbn [lift_r kres] in *; [| |];
          match goal with |- context [lift_r (ofold ?a ?b ?d)] => destruct (ofold a b d) as [ms'|?|?] end; cbn [lift_r kres] in *; try contradiction; auto.
          destruct (exp_constant c), (exp_constant c'); cbn [lift_r kres] in *; try contradiction; auto. }
      destruct (LV eq_refl) as [LC LS]. cbn [both] in LC, A6.
      assert (lrel (fun (a b : gmap ID G) => forall i x, id_scalar i = Ret x -> both (shifted x) (a !! i) (b !! i))
        (ofold (fun (acc : gmap ID G) id => let* x := id_scalar id in let* e := exp_eval c x in Ret (<[id := e]> acc)) ∅ (kr_ids r))
        (ofold (fun (acc : gmap ID G) id => let* x := id_scalar id in let* e := exp_eval c' x in Ret (<[id := e]> acc)) ∅ (kr_ids r))) as HS.
      { apply ofold_sim; [|intros i x _; now rewrite !lookup_empty]. intros a b i HQ. destruct (id_scalar i) as [x|w|w] eqn:Ei; cbn [obind]; try reflexivity.
        destruct (feqb x f0) eqn:Ex. { unfold exp_eval, exp_eval_var. rewrite Ex. reflexivity. }
        assert (x <> f0) as Hx by (intros ->; rewrite feqb_refl in Ex; discriminate).
        destruct (exp_eval_ok c x Hx) as (P & -> & EP). destruct (exp_eval_ok c' x Hx) as (P' & -> & EP'). cbn [obind lrel].
        intros j y Hj. destruct (decide (j = i)) as [->|Hne].
        - rewrite !lookup_insert. cbn [both]. rewrite Ei in Hj. injection Hj as <-. eapply shifted_proper; [symmetry; exact EP|symmetry; exact EP'|apply LC].
        - rewrite !lookup_insert_ne by auto. now apply HQ. }
      destruct (ofold _ _ _) as [ms|?|?]; [| |];
        match goal with |- context [lift_r (ofold ?a ?b ?d)] => destruct (ofold a b d) as [ms'|?|?] end; cbn [lift_r kres lrel] in *; try contradiction; auto.
      destruct c as [|g tl], c' as [|g' tl']; cbn [List.length exp_constant lift_r] in *; try discriminate; auto.
      destruct X as [X XM]. split; [|exact XM]. split; kp; auto.
      + split; [|exact HS]. cbn [pub_GroupKey]. eapply shifted_proper; [apply gpeval_0|apply gpeval_0|apply LC].
  Qed.
  Lemma osim_reset r r' : osim r r' -> lrel osim (kg_Reset r) (kg_Reset r').
  Proof.
    intros H. pose proof H as [K R1 R2 T E LV PB SC]. pose proof (ksim_reset r r' K) as X. unfold kg_Reset in *.
    destruct (kr_Polynomial r), (kr_Polynomial r'); auto; destruct (kr_CommitmentsSum r), (kr_CommitmentsSum r'); auto. cbn [lrel] in *. split; kp; auto. discriminate.
  Qed.

  Lemma osim_run now timeout s0 s0' es : NewKeygenState rg now timeout self ids thr = Ret s0 -> NewKeygenState rg' now timeout self ids thr = Ret s0' ->
    lrel (lout osim same_envelope) (run keygen_round s0 es) (run keygen_round s0' es).
  Proof.
    intros N N'. apply lock_run.
    - intros r r' [K _ _ _ _ _ _ _]. destruct K as [? ? ? ? ? ? ? ? ? ?]. split; auto.
    - exact osim_process.
    - exact osim_generate.
    - intros r r' H. pose proof H as [K R1 R2 T E LV PB SC]. pose proof K as [A1 A2 A3 A4 A5 A6 A7 A8 A9 A10]. cbn [keygen_round r_next]. rewrite <- A1.
      destruct (kr_no r) as [|[|n] ]; auto; (split; kp; auto; split; kp; auto).
    - exact osim_reset.
    - unfold NewKeygenState, kg_NewRound in N, N'. destruct (thr =? 0); [discriminate|]. destruct (_ <? _); [discriminate|].
      destruct (NewBaseRound self ids) as [b|w|w] eqn:EB; cbn [obind] in *; try discriminate. unfold NewBaseRound in EB. destruct (negb _); [discriminate|]. apply Ret_inj in EB. subst b.
      apply Ret_inj in N, N'. subst s0 s0'. split; try reflexivity. cbn [NewBaseState st_round]. split; kp; auto; [split; kp; auto|].
      intros _. split; [exact Logic.I|]. intros X. now destruct X.
  Qed.
End Two.

Section Oblivious.
  Context `{L : group_laws} `{Hf : hash_fn} (now timeout : Z) (self : ID) (ids : list ID) (thr : Z).
  Context (V : valid_ids ids) (HT : is_u16 thr).
  Notation f rg := (dealt rg (Z.to_nat thr)).
  Lemma new_any rg rg' s0 : NewKeygenState rg now timeout self ids thr = Ret s0 -> exists s0', NewKeygenState rg' now timeout self ids thr = Ret s0' /\ In self ids.
  Proof.
    unfold NewKeygenState, kg_NewRound, NewBaseRound. destruct (thr =? 0); [discriminate|]. destruct (_ <? _); [discriminate|].
    destruct (Contains ids self) eqn:EC; cbn [negb obind]; [|discriminate]. intros _. eexists. split; [reflexivity|]. now apply Contains_true_In.
  Qed.

  (** The same calls with the same messages, and two different draws: either both States end up with a key or none does, and the keys
      differ exactly as the two polynomials do. *)
  Theorem C72_shift : forall rg rg' s0 s0' es s out pub sk,
    NewKeygenState rg now timeout self ids thr = Ret s0 -> NewKeygenState rg' now timeout self ids thr = Ret s0' ->
    run keygen_round s0 es = Ret (s, out) -> kg_output s = mkKOutput (Some pub) (Some sk) ->
    exists s' out' pub' sk', run keygen_round s0' es = Ret (s', out') /\ st_done s' = st_done s /\ st_err s' = st_err s /\
      kg_output s' = mkKOutput (Some pub') (Some sk') /\
      geq (gadd (pub_GroupKey pub) (gbmul (spoly (f rg') f0))) (gadd (pub_GroupKey pub') (gbmul (spoly (f rg) f0))) /\
      fadd (sh_Secret sk) (spoly (f rg') (qof self)) = fadd (sh_Secret sk') (spoly (f rg) (qof self)) /\
      forall i, In i ids -> match pub_Shares pub !! i, pub_Shares pub' !! i with
        | Some A, Some A' => geq (gadd A (gbmul (spoly (f rg') (qof i)))) (gadd A' (gbmul (spoly (f rg) (qof i))))
        | None, None => True
        | _, _ => False
        end.
  Proof.
    intros rg rg' s0 s0' es s out pub sk N N' RUN EO. pose proof (osim_run rg rg' self ids thr now timeout s0 s0' es N N') as HR. rewrite RUN in HR.
    destruct (run keygen_round s0' es) as [[s' out']|w|w]; try contradiction. destruct HR as [HL _]. cbn [fst] in HL.
    pose proof (lk_done _ _ _ HL) as ED. pose proof (lk_err _ _ _ HL) as EE. pose proof (lk_round _ _ _ HL) as HO. clear HL.
    pose proof (os_pub _ _ _ _ _ _ HO) as HP. pose proof (os_sec _ _ _ _ _ _ HO) as HS. unfold kg_output in *. rewrite EO in HP, HS. cbn [ko_Public ko_SecretKey] in HP, HS.
    destruct (kr_out (st_round s')) as [op os] eqn:EO'. cbn [ko_Public ko_SecretKey] in HP, HS. destruct op as [pub'|]; [|contradiction]. destruct os as [sk'|]; [|contradiction]. cbn [both] in HP, HS.
    assert (In self ids) as Hin by (destruct (new_any rg rg' s0 N) as (? & _ & X); exact X).
    assert (forall r x, peval (p0 r thr) x = spoly (f r) x) as EP. { intros r x. now rewrite (p0_dealt r thr), peval_spoly. }
    exists s', out', pub', sk'. split; [reflexivity|]. split; [congruence|]. split; [congruence|]. split; [exact EO'|]. destruct HP as [HG HPS]. unfold shifted, fshifted in *. split; [|split].
    - rewrite <- !EP. exact HG.
    - rewrite <- !EP. apply HS. apply id_scalar_ok. now apply valid_in_u16 with ids.
    - intros i Hi. specialize (HPS i (idF i)). rewrite id_scalar_ok in HPS by (now apply valid_in_u16 with ids). specialize (HPS eq_refl).
      destruct (pub_Shares pub !! i), (pub_Shares pub' !! i); auto. cbn [both] in HPS. rewrite <- !EP. exact HPS.
  Qed.

  (** The draws of [rg] with the first read, which makes the secret, replaced by [b]. *)
  Definition redrawn (rg : rng) (b : list byte) : rng := fun k => match k with O => le_val b | _ => rg k end.
  Lemma peval_redrawn rg b x : List.length b = 64%nat -> spoly (f (redrawn rg b)) x = fadd (scalar_of b) (fsub (spoly (f rg) x) (SetScalarRandom rg 0)).
  Proof.
    intros Hb. rewrite <- !peval_spoly. unfold dealt. cbn [seq map peval]. rewrite (rng_scalar_of (redrawn rg b) 0 b Hb eq_refl).
    assert (map (SetScalarRandom (redrawn rg b)) (seq 1 (Z.to_nat thr)) = map (SetScalarRandom rg) (seq 1 (Z.to_nat thr))) as ->; [|ring].
    apply map_ext_in. intros k Hk. apply in_seq in Hk. destruct k; [lia|]. Local Transparent SetScalarRandom. reflexivity. Local Opaque SetScalarRandom.
  Qed.
  (** The calls [es] with the first read [b] end with a key such that Q. *)
  Definition ends_with (rg : rng) (es : list event) (Q : Public -> SecretShare -> Prop) (b : list byte) : Prop :=
    exists s0 s out pub sk, NewKeygenState (redrawn rg b) now timeout self ids thr = Ret s0 /\ run keygen_round s0 es = Ret (s, out) /\
      st_done s = true /\ st_err s = None /\ kg_output s = mkKOutput (Some pub) (Some sk) /\ Q pub sk.

  Lemma gshift A B' a c Y : geq (gadd A (gbmul a)) (gadd B' (gbmul c)) -> forall la ly, geq A (gbmul la) -> geq Y (gbmul ly) -> geq B' Y <-> fadd la a = fadd ly c.
  Proof.
    intros H la ly EA EY. assert (geq B' (gbmul (fsub (fadd la a) c))) as EB.
    { assert (geq B' (gadd (gadd B' (gbmul c)) (gbmul (fopp c)))) as ->. { rewrite <- gadd_assoc, gb_add. replace (fadd c (fopp c)) with (f0 : Fq) by ring. now rewrite <- gb_id, gadd_id_r. }
      rewrite <- H, EA, !gb_add. replace (fadd (fadd la a) (fopp c)) with (fsub (fadd la a) c) by ring. reflexivity. }
    rewrite EB, EY. split; intros X.
    - apply gb_inj in X. rewrite <- X. ring.
    - rewrite X. replace (fsub (fadd ly c) c) with ly by ring. reflexivity.
  Qed.

  (** Whatever messages the other parties send, as long as they do not depend on what this party draws: if the run ends with a key, then
      the group key, the public share of every party and the own secret share are as near to uniform as one draw. *)
  Theorem C72_fair : forall rg s0 es s out, NewKeygenState rg now timeout self ids thr = Ret s0 -> run keygen_round s0 es = Ret (s, out) ->
    st_done s = true -> st_err s = None ->
    (forall Y, fair (ends_with rg es (fun pub _ => geq (pub_GroupKey pub) Y))) /\
    (forall i Y, In i ids -> fair (ends_with rg es (fun pub _ => exists A, pub_Shares pub !! i = Some A /\ geq A Y))) /\
    (forall z, fair (ends_with rg es (fun _ sk => sh_Secret sk = z))).
  Proof.
    intros rg s0 es s out N RUN D E. destruct (C06_public rg now timeout self ids thr s0 N V HT es s out RUN D E) as (pub & sk & g & EO & _ & _ & _ & _ & _ & _ & HSh & _).
    assert (forall b, List.length b = 64%nat -> forall Q, ends_with rg es Q b <-> exists s0' s' out' pub' sk', NewKeygenState (redrawn rg b) now timeout self ids thr = Ret s0' /\ run keygen_round s0' es = Ret (s', out') /\
      kg_output s' = mkKOutput (Some pub') (Some sk') /\
      geq (gadd (pub_GroupKey pub) (gbmul (spoly (f (redrawn rg b)) f0))) (gadd (pub_GroupKey pub') (gbmul (spoly (f rg) f0))) /\
      fadd (sh_Secret sk) (spoly (f (redrawn rg b)) (qof self)) = fadd (sh_Secret sk') (spoly (f rg) (qof self)) /\
      (forall i, In i ids -> exists A A', pub_Shares pub !! i = Some A /\ pub_Shares pub' !! i = Some A' /\ geq (gadd A (gbmul (spoly (f (redrawn rg b)) (qof i)))) (gadd A' (gbmul (spoly (f rg) (qof i))))) /\
      Q pub' sk') as HE.
    { intros b Hb Q. destruct (new_any rg (redrawn rg b) s0 N) as (s0' & N' & _). destruct (C72_shift rg (redrawn rg b) s0 s0' es s out pub sk N N' RUN EO) as (s' & out' & pub' & sk' & RUN' & D' & E' & EO' & HG & HS & HI).
      assert (forall i, In i ids -> exists A A', pub_Shares pub !! i = Some A /\ pub_Shares pub' !! i = Some A' /\ geq (gadd A (gbmul (spoly (f (redrawn rg b)) (qof i)))) (gadd A' (gbmul (spoly (f rg) (qof i))))) as HI'.
      { intros i Hi. specialize (HI i Hi). destruct (HSh i Hi) as (A & EA & _). rewrite EA in HI. destruct (pub_Shares pub' !! i) as [A'|] eqn:EA'; [|contradiction]. exists A, A'. auto. }
      split.
      - intros (t0 & t & o & pub2 & sk2 & M & MR & MD & ME & MO & MQ). rewrite N' in M. apply Ret_inj in M. subst t0. rewrite RUN' in MR. apply Ret_inj in MR. injection MR as <- <-. rewrite EO' in MO. injection MO as <- <-.
        exists s0', s', out', pub', sk'. auto 10.
      - intros (t0 & t & o & pub2 & sk2 & M & MR & MO & _ & _ & _ & MQ). rewrite N' in M. apply Ret_inj in M. subst t0. rewrite RUN' in MR. apply Ret_inj in MR. injection MR as <- <-. rewrite EO' in MO. injection MO as <- <-.
        exists s0', s', out', pub', sk'. split; auto. split; auto. split; [congruence|]. split; [congruence|]. auto. }
    assert (forall b, List.length b = 64%nat -> exists s0' s' out' pub' sk', NewKeygenState (redrawn rg b) now timeout self ids thr = Ret s0' /\ run keygen_round s0' es = Ret (s', out') /\ kg_output s' = mkKOutput (Some pub') (Some sk')) as HX.
    { intros b Hb. destruct (new_any rg (redrawn rg b) s0 N) as (s0' & N' & _). destruct (C72_shift rg (redrawn rg b) s0 s0' es s out pub sk N N' RUN EO) as (s' & out' & pub' & sk' & RUN' & _ & _ & EO' & _). exists s0', s', out', pub', sk'. auto. }
    (* the predicate is decided by the single key of the run with b *)
    assert (forall (Q : Public -> SecretShare -> Prop) z, (forall b pub' sk', List.length b = 64%nat ->
        geq (gadd (pub_GroupKey pub) (gbmul (spoly (f (redrawn rg b)) f0))) (gadd (pub_GroupKey pub') (gbmul (spoly (f rg) f0))) ->
        fadd (sh_Secret sk) (spoly (f (redrawn rg b)) (qof self)) = fadd (sh_Secret sk') (spoly (f rg) (qof self)) ->
        (forall i, In i ids -> exists A A', pub_Shares pub !! i = Some A /\ pub_Shares pub' !! i = Some A' /\ geq (gadd A (gbmul (spoly (f (redrawn rg b)) (qof i)))) (gadd A' (gbmul (spoly (f rg) (qof i))))) ->
        (Q pub' sk' <-> scalar_of b = z)) -> fair (ends_with rg es Q)) as HF.
    { intros Q z HQ. apply (fair_ext (fun b => scalar_of b = z)); [|apply C45_near_uniform]. intros b Hb. split.
      - intros Ez. assert (ends_with rg es (fun _ _ => True) b) as X. { destruct (HX b Hb) as (s0' & s' & out' & pub' & sk' & N' & RUN' & EO').
          destruct (C72_shift rg (redrawn rg b) s0 s0' es s out pub sk N N' RUN EO) as (s2 & o2 & pub2 & sk2 & RUN2 & D2 & E2 & EO2 & _). exists s0', s2, o2, pub2, sk2. split; auto. split; auto. split; [congruence|]. split; [congruence|]. auto. }
        apply HE in X as (s0' & s' & out' & pub' & sk' & N' & RUN' & EO' & HG & HS & HI & _); auto. apply HE; auto. exists s0', s', out', pub', sk'. repeat (split; [assumption|]). now apply (HQ b pub' sk').
      - intros X. apply HE in X as (s0' & s' & out' & pub' & sk' & N' & RUN' & EO' & HG & HS & HI & X); auto. now apply (HQ b pub' sk'). }
    split; [|split].
    - intros Y. destruct (gbase_gen (pub_GroupKey pub)) as (lg & Elg). destruct (gbase_gen Y) as (ly & Ely).
      apply (HF _ (fadd (fsub ly lg) (SetScalarRandom rg 0))). intros b pub' sk' Hb HG _ _. rewrite (gshift _ _ _ _ Y HG lg ly Elg Ely), peval_redrawn by auto.
      split; intros X.
      + transitivity (fadd (fsub (fadd lg (fadd (scalar_of b) (fsub (spoly (f rg) f0) (SetScalarRandom rg 0)))) (fadd lg (spoly (f rg) f0))) (SetScalarRandom rg 0)); [ring|]. rewrite X. ring.
      + rewrite X. ring.
    - intros i Y Hi. destruct (HSh i Hi) as (A & EA & _). destruct (gbase_gen A) as (lg & Elg). destruct (gbase_gen Y) as (ly & Ely).
      apply (HF _ (fadd (fsub ly lg) (SetScalarRandom rg 0))). intros b pub' sk' Hb _ _ HI. destruct (HI i Hi) as (A1 & A' & EA1 & EA' & HG). rewrite EA in EA1. injection EA1 as <-.
      assert ((exists B', pub_Shares pub' !! i = Some B' /\ geq B' Y) <-> geq A' Y) as ->. { rewrite EA'. split; [intros (B' & EB & HB); injection EB as <-; auto|intros HB; exists A'; auto]. }
      rewrite (gshift _ _ _ _ Y HG lg ly Elg Ely), peval_redrawn by auto. split; intros X.
      + transitivity (fadd (fsub (fadd lg (fadd (scalar_of b) (fsub (spoly (f rg) (qof i)) (SetScalarRandom rg 0)))) (fadd lg (spoly (f rg) (qof i)))) (SetScalarRandom rg 0)); [ring|]. rewrite X. ring.
      + rewrite X. ring.
    - intros z. apply (HF _ (fadd (fsub z (sh_Secret sk)) (SetScalarRandom rg 0))). intros b pub' sk' Hb _ HS _. rewrite peval_redrawn in HS by auto. split; intros X.
      + subst z. transitivity (fadd (fsub (fadd (sh_Secret sk) (fadd (scalar_of b) (fsub (spoly (f rg) (qof self)) (SetScalarRandom rg 0)))) (fadd (sh_Secret sk) (spoly (f rg) (qof self)))) (SetScalarRandom rg 0)); [ring|]. rewrite HS. ring.
      + rewrite X in HS. transitivity (fsub (fadd (sh_Secret sk') (spoly (f rg) (qof self))) (spoly (f rg) (qof self))); [ring|]. rewrite <- HS. ring.
  Qed.
End Oblivious.

(** ** Examples *)
(** The run of the toy group in which the messages of parties 2 and 3 are fixed: with the draws 101, 102 and with the draws 5, 102 of
    party 1 both runs succeed, and all results differ by 96. *)
Definition ob_view (r : rng) :=
  match @NewKeygenState toy_group toy_hash r 0 0 1 k3 1 with
  | Ret s0 => match @run toy_group tkround tkg s0 (good_history 1) with
    | Ret (s, _) => match kg_output s with
      | mkKOutput (Some P) (Some k) => Some (fz (pub_GroupKey P : Fq), map (fun i => option_map (fun A : @G toy_group => fz (A : Fq)) (pub_Shares P !! i)) k3, fz (sh_Secret k))
      | _ => None
      end
    | _ => None end
  | _ => None end.
Example C72_example :
  valid_ids k3 /\ is_u16 1 /\ ob_view (toy_rng 1) = Some (603, [Some 1209; Some 1815; Some 2421], 1209) /\
  ob_view (redrawn (toy_rng 1) [x05]) = Some (507, [Some 1113; Some 1719; Some 2325], 1113).
Proof. split; [solve_valid|]. split; [unfold is_u16; lia|]. vm_compute. auto. Qed.

Print Assumptions C72_shift. Print Assumptions C72_fair.
