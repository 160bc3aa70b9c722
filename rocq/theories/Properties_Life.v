(** C66: key generation followed by any number of signing sessions, seen together: what t parties read of another party in all of
    them is computed by one simulator, with one programmed hash function. *)
From Coq Require Import ZArith Lia List Bool String Permutation Sorted Ring Field Setoid Morphisms.
From Coq.Strings Require Import Byte.
From stdpp Require Import base gmap list fin_maps.
From Verif Require Import ZField Primes Bytes Scalar Go Group ToyGroup Party Poly PolyFacts Zk Eddsa Messages State StateFacts Spec_State
  Keygen Sign RoundFacts Lift Spec_Poly PolyAlg Spec_Group Spec_Wire Spec_Sign Spec_SignRun Spec_Keygen SignFacts SignRun KeygenFacts KeygenRun
  CodecFacts Properties_Algebra Properties_Codec Properties_Sign Properties_Keygen Properties_Random Properties_Secrecy Properties_Nonce ToyRuns.
Import ListNotations.
Local Open Scope Z_scope.

Local Opaque SetScalarRandom.

(** * Sessions *)
(** What the other signers do in a session, and what the simulator chooses for it. *)
Record session `{Gr : group_ops} := mkSession {
  se_ids : list Z; se_key : G; se_message : list byte; se_peer : Z -> G * G;
  se_z : Fq; se_e : Fq; se_rho : Fq; se_c : Fq
}.

Section Sessions.
  Context `{Gr : group_ops} (self : Z) (A : G).
  Definition s_rho_input (H : hash_fn) (x : session) (i : Z) : list byte :=
    rho_input H self (se_ids x) A (se_message x) (se_peer x) (se_z x) (se_e x) (se_rho x) (se_c x) i.
  Definition s_chal_input (H : hash_fn) (x : session) : list byte :=
    chal_input H self (se_ids x) A (se_key x) (se_message x) (se_peer x) (se_z x) (se_e x) (se_rho x) (se_c x).
  Definition s_messages (x : session) : list Message := sim_transcript self (se_ids x) A (se_z x) (se_e x) (se_rho x) (se_c x).
  (** The hash function gives the answers the simulator has chosen for this session. *)
  Definition answers (H : hash_fn) (x : session) : Prop :=
    @hash_scalar H (s_rho_input H x self) = se_rho x /\ @hash_scalar H (s_chal_input H x) = se_c x.
  (** The hash function programmed for one session after the other. *)
  Definition s_hash (H : hash_fn) (x : session) : hash_fn := programmed H (s_rho_input H x self) (s_chal_input H x) (se_rho x) (se_c x).
  Fixpoint program (H : hash_fn) (l : list session) : hash_fn := match l with [] => H | x :: l' => program (s_hash H x) l' end.
  (** The points at which it is programmed, and the inputs a session uses. *)
  Fixpoint targets (H : hash_fn) (l : list session) : list (list byte) :=
    match l with [] => [] | x :: l' => s_rho_input H x self :: s_chal_input H x :: targets (s_hash H x) l' end.
  Definition s_inputs (H : hash_fn) (x : session) : list (list byte) := se_message x :: s_chal_input H x :: map (s_rho_input H x) (se_ids x).
  (** No point is programmed that was an input before. *)
  Fixpoint fresh (H : hash_fn) (l : list session) : Prop :=
    match l with
    | [] => True
    | x :: l' => se_message x <> s_rho_input H x self /\ (forall i, In i (se_ids x) -> s_chal_input H x <> s_rho_input H x i) /\
                 (forall b, In b (s_inputs H x) -> ~ In b (targets (s_hash H x) l')) /\ fresh (s_hash H x) l'
    end.
  (** A party with the key share [sk] takes part in the session, with the nonces that go with the simulator's choice; the
      others are consistent in their commitments, and otherwise arbitrary. *)
  Definition took_part (H : hash_fn) (sk : SecretShare) (x : session) (out : list Message) : Prop :=
    exists rg now timeout shares s0 es s,
      @NewSignState _ H rg now timeout (se_ids x) sk shares (se_message x) = Ret s0 /\ pub_GroupKey shares = se_key x /\
      SetScalarRandom rg 0 = (se_z x - se_rho x * se_e x - se_c x * (lagrange_spec (sh_ID sk) (se_ids x) * sh_Secret sk))%Fq /\
      SetScalarRandom rg 1 = se_e x /\
      (forall m D E, given es m -> m_From m <> sh_ID sk -> m_Type m = MTSign1 -> m_Sign1 m = Some (mkSign1 D E) ->
        geq D (fst (se_peer x (m_From m))) /\ geq E (snd (se_peer x (m_From m)))) /\
      run (@sign_round _ H) s0 es = Ret (s, out).
  Definition good_ids (x : session) : Prop := List.NoDup (se_ids x) /\ Forall is_u16 (se_ids x).
End Sessions.

Section Facts.
  Context `{L : group_laws}.

  Lemma program_ok self A l : forall H, hash_ok H -> hash_ok (program self A H l).
  Proof. induction l as [|x l IH]; intros H HH; cbn [program]; [exact HH|]. apply IH. now apply programmed_ok. Qed.
  Lemma program_other self A l : forall H b, ~ In b (targets self A H l) -> @sha512 (program self A H l) b = @sha512 H b.
  Proof.
    induction l as [|x l IH]; intros H b Hb; cbn [program]; [reflexivity|]. cbn [targets] in Hb.
    rewrite IH by (intros X; apply Hb; right; now right). apply programmed_other; intros X; apply Hb; [now left|right; now left].
  Qed.

  (** The inputs of a session depend on the hash function at these inputs only. *)
  Lemma agree_inputs self A H H' x : (forall b, In b (s_inputs self A H x) -> @sha512 H' b = @sha512 H b) ->
    (forall i, s_rho_input self A H' x i = s_rho_input self A H x i) /\ s_chal_input self A H' x = s_chal_input self A H x.
  Proof.
    intros Ha. assert (@sha512 H' (se_message x) = @sha512 H (se_message x)) as Em by (apply Ha; now left).
    assert (forall i, s_rho_input self A H' x i = s_rho_input self A H x i) as Er by (intros i; unfold s_rho_input, rho_input; now rewrite Em).
    split; [exact Er|]. unfold s_chal_input, chal_input. do 2 f_equal. unfold sim_R. f_equal. apply map_ext_in. intros y Hy.
    do 2 f_equal. destruct (Z.eqb_spec (fst y) self) as [_|Hne]; [reflexivity|]. unfold hash_scalar.
    pose proof (Er (fst y)) as Ey. unfold s_rho_input in Ey. rewrite Ey. f_equal. f_equal. apply Ha. right; right.
    apply (in_map (s_rho_input self A H x)). unfold sim_list in Hy. apply in_map_iff in Hy as (i & <- & Hi). exact Hi.
  Qed.
  Lemma answers_agree self A H H' x : In self (se_ids x) -> (forall b, In b (s_inputs self A H x) -> @sha512 H' b = @sha512 H b) ->
    answers self A H x -> answers self A H' x.
  Proof.
    intros Hs Ha [A1 A2]. destruct (agree_inputs self A H H' x Ha) as [Er Ec]. split.
    - rewrite Er. unfold hash_scalar in *. rewrite Ha; [exact A1|]. right; right. now apply in_map.
    - rewrite Ec. unfold hash_scalar in *. rewrite Ha; [exact A2|]. right; now left.
  Qed.
  Lemma s_hash_inputs self A H x : In self (se_ids x) -> Forall is_u16 (se_ids x) ->
    se_message x <> s_rho_input self A H x self -> (forall i, In i (se_ids x) -> s_chal_input self A H x <> s_rho_input self A H x i) ->
    (forall i, s_rho_input self A (s_hash self A H x) x i = s_rho_input self A H x i) /\
    s_chal_input self A (s_hash self A H x) x = s_chal_input self A H x.
  Proof.
    intros Hs HU N1 N2.
    assert (@sha512 (s_hash self A H x) (se_message x) = @sha512 H (se_message x)) as Em.
    { apply programmed_other; [exact N1|]. intros E. apply (f_equal (@List.length byte)) in E. unfold s_chal_input, chal_input in E. rewrite !app_length, !gencEd_len in E. lia. }
    assert (forall i, s_rho_input self A (s_hash self A H x) x i = s_rho_input self A H x i) as Er by (intros i; unfold s_rho_input, rho_input; now rewrite Em).
    split; [exact Er|]. unfold s_chal_input, chal_input. do 2 f_equal. unfold sim_R. f_equal. apply map_ext_in. intros y Hy.
    do 2 f_equal. destruct (Z.eqb_spec (fst y) self) as [_|Hne]; [reflexivity|]. unfold hash_scalar.
    pose proof (Er (fst y)) as Ey. unfold s_rho_input in Ey. rewrite Ey. f_equal. f_equal.
    unfold sim_list in Hy. apply in_map_iff in Hy as (i & <- & Hi). cbn [fst] in *. rewrite List.Forall_forall in HU.
    apply programmed_other.
    - intros E. apply Hne. apply (rho_input_inj H (se_ids x) (mkSecretShare self f0 gid) (se_message x) A (se_peer x) (se_z x) (se_e x) (se_rho x) (se_c x)) in E; auto.
    - intros E. exact (N2 i Hi (eq_sym E)).
  Qed.
  Lemma s_hash_answers self A H x : In self (se_ids x) -> Forall is_u16 (se_ids x) ->
    se_message x <> s_rho_input self A H x self -> (forall i, In i (se_ids x) -> s_chal_input self A H x <> s_rho_input self A H x i) ->
    answers self A (s_hash self A H x) x.
  Proof.
    intros Hs HU N1 N2. destruct (s_hash_inputs self A H x Hs HU N1 N2) as [Er Ec]. split.
    - rewrite Er. apply programmed_u.
    - rewrite Ec. apply programmed_v. now apply N2.
  Qed.

  (** One hash function has all the answers. *)
  Theorem C66_programmed : forall self A l H, hash_ok H -> Forall (fun x => In self (se_ids x) /\ good_ids x) l -> fresh self A H l ->
    hash_ok (program self A H l) /\ Forall (answers self A (program self A H l)) l /\
    forall b, ~ In b (targets self A H l) -> @sha512 (program self A H l) b = @sha512 H b.
  Proof.
    intros self A l H HH HG HF. split; [now apply program_ok|]. split; [|apply program_other].
    revert H HH HF. induction HG as [|x l (Hs & _ & HU) _ IH]; intros H HH HF; [constructor|]. cbn [program]. destruct HF as (N1 & N2 & N3 & HF). constructor.
    - destruct (s_hash_inputs self A H x Hs HU N1 N2) as [Er Ec].
      apply (answers_agree self A (s_hash self A H x)); [exact Hs| |now apply s_hash_answers].
      intros b Hb. apply program_other. apply N3. unfold s_inputs in *. rewrite Ec in Hb. destruct Hb as [Hb|[Hb|Hb] ]; [now left|right; now left|right; right].
      apply in_map_iff in Hb as (i & <- & Hi). rewrite Er. now apply in_map.
    - apply IH; [now apply programmed_ok|exact HF].
  Qed.

  (** With a hash function that has these answers, a party's messages in a session are those of the simulator, byte for byte. *)
  Theorem C66_session : forall H sk A x out, hash_ok H -> geq A (gbmul (sh_Secret sk)) -> good_ids x -> answers (sh_ID sk) A H x ->
    took_part H sk x out -> exists n, map msg_MarshalBinary out = firstn n (map msg_MarshalBinary (s_messages (sh_ID sk) A x)).
  Proof.
    intros H sk A x out HH HA [ND HU] [A1 A2] (rg & now & timeout & shares & s0 & es & s & NEW & HK & Hd & He & Hpeer & RUN).
    set (self := sh_ID sk) in *.
    pose proof (sim_D_real rg (se_ids x) sk A (se_z x) (se_e x) (se_rho x) (se_c x) HA Hd) as ED. fold self in ED.
    assert (msg_MarshalBinary (NewSign1 self (gbmul (SetScalarRandom rg 0)) (gbmul (SetScalarRandom rg 1))) =
            msg_MarshalBinary (NewSign1 self (sim_D self (se_ids x) A (se_z x) (se_e x) (se_rho x) (se_c x)) (sim_E (se_e x)))) as E1.
    { apply (sign1_bytes_geq sk); [exact ED|]. unfold sim_E. now rewrite He. }
    assert (In self (se_ids x)) as Hself by (eapply (@self_in' _ _ H HH); eauto).
    destruct (@C14_same_nonces _ _ H HH rg now timeout (se_ids x) sk shares (se_message x) s0 NEW ND HU es s out RUN) as [EO|[EO|(cl & HC & EO)] ]; rewrite EO.
    - exists 0%nat. reflexivity.
    - exists 1%nat. cbn [map firstn s_messages sim_transcript]. fold self. now rewrite E1.
    - exists 2%nat. cbn [map firstn s_messages sim_transcript]. fold self. rewrite E1. do 5 f_equal.
      pose proof (same_list rg (se_ids x) sk A (se_peer x) (se_z x) (se_e x) (se_rho x) (se_c x) HA Hd He es Hpeer cl HC) as HE. fold self in HE.
      assert (forall i, @binding _ H (se_message x) cl i = @hash_scalar H (s_rho_input self A H x i)) as HB.
      { intros i. unfold binding, s_rho_input, rho_input. now rewrite (same_enc _ _ HE). }
      unfold sig_share. rewrite HB, A1.
      assert (geq (@group_nonce _ H (se_message x) cl) (sim_R H self (se_ids x) A (se_message x) (se_peer x) (se_z x) (se_e x) (se_rho x) (se_c x))) as HR.
      { unfold group_nonce, sim_R.
        assert (forall l l', Forall2 same_entry l l' ->
          geq (Gsum (map (@nonce_point _ H (se_message x) cl) l))
              (Gsum (map (fun y => gadd (fst (snd y)) (gsmul (if fst y =? self then se_rho x else @hash_scalar H (s_rho_input self A H x (fst y))) (snd (snd y)))) l'))) as X.
        { induction 1 as [|y y' l l' (F1 & F2 & F3) HF IH]; [reflexivity|]. cbn [map Gsum fold_right]. apply gadd_proper; [|exact IH].
          unfold nonce_point. rewrite HB, <- F1, F2, F3. destruct (Z.eqb_spec (fst y) self) as [->|]; [now rewrite A1|reflexivity]. }
        exact (X _ _ HE). }
      assert (@chal _ H (@group_nonce _ H (se_message x) cl) (pub_GroupKey shares) (se_message x) = se_c x) as ->.
      { unfold chal. rewrite HR, HK. exact A2. }
      rewrite Hd, He. ring.
  Qed.

  (** For every session there is exactly one pair of nonces for each choice of the simulator. *)
  Theorem C66_inputs : forall self (secret : Fq) l, exists rgs : list rng, Forall2 (fun x rg =>
    SetScalarRandom rg 0 = (se_z x - se_rho x * se_e x - se_c x * (lagrange_spec self (se_ids x) * secret))%Fq /\ SetScalarRandom rg 1 = se_e x /\
    forall d e, (e = se_e x /\ (d + e * se_rho x + lagrange_spec self (se_ids x) * secret * se_c x)%Fq = se_z x) <-> (d = SetScalarRandom rg 0 /\ e = SetScalarRandom rg 1)) l rgs.
  Proof.
    intros self secret. induction l as [|x l (rgs & IH)]; [exists []; constructor|].
    destruct (C58_inputs (se_z x) (se_e x) (se_rho x) (se_c x) (lagrange_spec self (se_ids x)) secret) as [(rg & E1 & E2) HB].
    exists (rg :: rgs). constructor; [|exact IH]. split; [exact E1|]. split; [exact E2|]. intros d e. rewrite E1, E2. split; intros [H1 H2]; split; auto.
    - apply HB. now rewrite <- H1.
    - apply HB in H1. now rewrite H2.
  Qed.
End Facts.

(** * The whole life of a key share *)
Section Life.
  Context `{L : group_laws} (H0 : hash_fn) (HH0 : hash_ok H0).
  (** Key generation by an honest party, the others arbitrary; [known] are t of them. *)
  Context (rg : rng) (now timeout : Z) (self : Z) (ids : list Z) (thr : Z) (s0 : State kround).
  Context (es : list event) (s : State kround) (out : list Message).
  Context (known : list Z) (A0 : G) (Cs : Z -> list G).
  Notation t := (Z.to_nat thr).
  Notation f := (dealt rg t).
  Notation shares := (fun j => spoly f (qof j)).
  (** The party's public key share, computed from the simulated and the received commitments. *)
  Definition sim_share : G :=
    gadd (gpoly (sim_commitment known A0 shares) (qof self)) (Gsum (map (fun j => gpoly (Cs j) (qof self)) (others_of self ids))).
  (** Then any number of signing sessions. *)
  Context (sessions : list session) (outs : list (list Message)).
  Notation H := (program self sim_share H0 sessions).
  Context (NEW : @NewKeygenState _ H rg now timeout self ids thr = Ret s0) (V : valid_ids ids) (HT : is_u16 thr).
  Context (RUN : run (@keygen_round _ H) s0 es = Ret (s, out)).
  Context (VK : valid_ids known) (HK : incl known (others_of self ids)) (HL : List.length known = t) (EA : geq A0 (gbmul (spoly f f0))).
  Context (HC : forall j C, In j (others_of self ids) -> committed es j C -> Forall2 geq C (Cs j)).

  Lemma gpoly_geq B B' x : Forall2 geq B B' -> geq (gpoly B x) (gpoly B' x).
  Proof. rewrite <- !gpeval_gpoly. induction 1 as [|a b l l' E _ IH]; cbn [gpeval]; [reflexivity|]. now rewrite E, IH. Qed.
  Lemma sim_share_ok pub sk : st_done s = true -> st_err s = None -> kg_output s = mkKOutput (Some pub) (Some sk) -> geq sim_share (gbmul (sh_Secret sk)).
  Proof.
    intros D Er Eo. pose proof (program_ok self sim_share sessions H0 HH0) as HH.
    destruct (@C08_secret _ _ H rg now timeout self ids thr s0 NEW V HT es s out RUN D Er) as (pub' & sk' & sh & Eo' & ES & Hsh).
    rewrite Eo in Eo'. injection Eo' as <- <-. rewrite ES, <- gb_add. unfold sim_share. apply gadd_proper.
    - assert (List.length f = S (List.length known)) as Lf by (unfold dealt; rewrite map_length, seq_length; lia).
      rewrite <- (gpoly_geq _ _ (qof self) (sim_commitment_ok known f A0 VK Lf EA)). rewrite <- gpeval_gpoly, gpeval_commit, peval_spoly. reflexivity.
    - rewrite <- Gsum_gbmul. apply Gsum_map_ext. intros j Hj. pose proof Hj as Hj'. apply others_of_In in Hj' as [Hj1 Hj2].
      destruct (Hsh j Hj1 Hj2) as (C & C1 & _ & C3). unfold on_commitment in C3. rewrite C3. symmetry. apply gpoly_geq. now apply HC.
  Qed.

  (** What the t parties read in key generation and in all sessions is what the simulator writes. *)
  Theorem C66_life : forall pub sk, st_done s = true -> st_err s = None -> kg_output s = mkKOutput (Some pub) (Some sk) ->
    Forall (fun x => In self (se_ids x) /\ good_ids x) sessions -> fresh self sim_share H0 sessions ->
    Forall2 (took_part H sk) sessions outs ->
    (exists n, map msg_MarshalBinary (seen known out) = firstn n (map msg_MarshalBinary (sim_messages self ids known A0 shares (SetScalarRandom rg (S t))))) /\
    Forall2 (fun x o => exists n, map msg_MarshalBinary o = firstn n (map msg_MarshalBinary (s_messages self sim_share x))) sessions outs.
  Proof.
    intros pub sk D Er Eo HG HF HP. pose proof (program_ok self sim_share sessions H0 HH0) as HH. split.
    - exact (@C57_simulation _ _ H HH rg now timeout self ids thr s0 NEW V HT es s out RUN known A0 VK HK HL EA).
    - destruct (C66_programmed self sim_share sessions H0 HH0 HG HF) as (_ & HA & _). pose proof (sim_share_ok pub sk D Er Eo) as HS.
      assert (sh_ID sk = self) as Eid.
      { destruct (@C06_public _ _ H rg now timeout self ids thr s0 NEW V HT es s out RUN D Er) as (pub' & sk' & g & Eo' & Eid & _). rewrite Eo in Eo'. injection Eo' as <- <-. exact Eid. }
      assert (forall l o, Forall2 (took_part H sk) l o -> Forall (fun x => In self (se_ids x) /\ good_ids x) l -> Forall (answers self sim_share H) l ->
        Forall2 (fun x o => exists n, map msg_MarshalBinary o = firstn n (map msg_MarshalBinary (s_messages self sim_share x))) l o) as X; [|exact (X sessions outs HP HG HA)].
      induction 1 as [|x o l os Hx HF2 IH]; intros Hl Ha; [constructor|]. apply List.Forall_cons_iff in Hl as [[Hs Hg] Hl]. apply List.Forall_cons_iff in Ha as [Hax Ha].
      constructor; [|exact (IH Hl Ha)]. pose proof (C66_session H sk sim_share x o HH HS Hg) as Y. rewrite Eid in Y. exact (Y Hax Hx).
  Qed.
End Life.

(** * A case: party 1 of three, threshold 1, the other two not trusted; party 2 looks on; then two sessions with party 3. *)
Definition l_commitments (j : Z) : list (@G toy_group) := [qof (100 * j + 1); qof (100 * j + 2)].
Definition l_share : @G toy_group := @sim_share toy_group (toy_rng 1) 1 k3 1 [2] (qof 101) l_commitments.
Definition l_session (m : list byte) (z e rho c : Z) : @session toy_group :=
  @mkSession toy_group s13 (qof 603) m (fun _ => (qof 301, qof 302)) (qof z) (qof e) (qof rho) (qof c).
Definition l_sessions : list (@session toy_group) := [l_session t_message 1234 77 5 9; l_session [x61; x62; x63] 4321 88 6 10].
Definition l_hash : hash_fn := @program toy_group 1 l_share toy_hash l_sessions.
Definition l_keygen : outcome (tkstate * list tmsg) :=
  obind (@NewKeygenState toy_group l_hash (toy_rng 1) 0 0 1 k3 1) (fun s => @run toy_group tkround (@keygen_round toy_group l_hash) s (good_history 1)).
Definition l_rng (x : @session toy_group) (secret : Fq) : rng :=
  fun i => match i with 0%nat => fz (se_z x - se_rho x * se_e x - se_c x * (lagrange_spec 1 (se_ids x) * secret))%Fq | _ => fz (se_e x) end.
Definition l_out (pub : @Public toy_group) (sk : @SecretShare toy_group) (x : @session toy_group) : list tmsg :=
  ts_out (obind (@NewSignState toy_group l_hash (l_rng x (sh_Secret sk)) 0 0 (se_ids x) sk pub (se_message x)) (fun s =>
    @run toy_group tsround (@sign_round toy_group l_hash) s [prc; @EHandle toy_group 0 (@NewSign1 toy_group 3 (qof 301) (qof 302)); prc])).
Definition bytes_eqb (a b : list byte) : bool := if List.list_eq_dec Byte.byte_eq_dec a b then true else false.
Fixpoint freshb (H : hash_fn) (l : list (@session toy_group)) : bool :=
  match l with
  | [] => true
  | x :: l' => negb (bytes_eqb (se_message x) (@s_rho_input toy_group 1 l_share H x 1)) &&
      forallb (fun i => negb (bytes_eqb (@s_chal_input toy_group 1 l_share H x) (@s_rho_input toy_group 1 l_share H x i))) (se_ids x) &&
      forallb (fun b => negb (existsb (bytes_eqb b) (@targets toy_group 1 l_share (@s_hash toy_group 1 l_share H x) l'))) (@s_inputs toy_group 1 l_share H x) &&
      freshb (@s_hash toy_group 1 l_share H x) l'
  end.
Lemma bytes_eqb_eq a b : bytes_eqb a b = true <-> a = b.
Proof. unfold bytes_eqb. destruct (List.list_eq_dec _ a b); split; intros H; congruence. Qed.
Lemma freshb_fresh l : forall H, freshb H l = true -> @fresh toy_group 1 l_share H l.
Proof.
  induction l as [|x l IH]; intros H E; cbn [fresh]; [exact I|]. cbn [freshb] in E. apply andb_true_iff in E as [E E4]. apply andb_true_iff in E as [E E3]. apply andb_true_iff in E as [E1 E2].
  split; [|split; [|split; [|now apply IH] ] ].
  - intros X. apply bytes_eqb_eq in X. rewrite X in E1. discriminate E1.
  - intros i Hi X. rewrite forallb_forall in E2. specialize (E2 i Hi). apply bytes_eqb_eq in X. rewrite X in E2. discriminate E2.
  - intros b Hb X. rewrite forallb_forall in E3. specialize (E3 b Hb). apply negb_true_iff in E3. rewrite <- not_true_iff_false in E3. apply E3.
    apply existsb_exists. exists b. split; [exact X|]. now apply bytes_eqb_eq.
Qed.
Example C66_example :
  @fresh toy_group 1 l_share toy_hash l_sessions /\ Forall (fun x => In 1 (se_ids x) /\ good_ids x) l_sessions /\
  match l_keygen with
  | Ret (s, out) => match kg_output s with
    | mkKOutput (Some pub) (Some sk) => (st_done s, fz (sh_Secret sk), fz (l_share : Fq), fz (pub_GroupKey pub : Fq)) = (true, 1209, 1209, 603) /\
        map (fun x => map (@msg_MarshalBinary toy_group) (l_out pub sk x)) l_sessions = map (fun x => map (@msg_MarshalBinary toy_group) (@s_messages toy_group 1 l_share x)) l_sessions /\
        map (fun x => List.length (l_out pub sk x)) l_sessions = [2; 2]%nat
    | _ => False end
  | _ => False end.
Proof.
  split; [apply freshb_fresh; vm_compute; reflexivity|]. split.
  - repeat constructor; cbn; try lia; unfold is_u16; try lia.
  - vm_compute. repeat split; reflexivity.
Qed.

Print Assumptions C66_programmed.
Print Assumptions C66_session.
Print Assumptions C66_inputs.
Print Assumptions C66_life.
