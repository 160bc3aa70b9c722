(** C57: what key generation discloses about the polynomial of a party. *)
From Coq Require Import ZArith Lia List Bool String Permutation Sorted Ring Setoid Morphisms.
From Coq.Strings Require Import Byte.
From stdpp Require Import base gmap list fin_maps.
From Verif Require Import ZField Primes Bytes Scalar Go Group ToyGroup Party Poly PolyFacts Zk Eddsa Messages State StateFacts Spec_State
  Keygen Sign RoundFacts Lift Spec_Poly PolyAlg Spec_Group Spec_Wire Spec_Sign Spec_SignRun Spec_Keygen SignFacts SignRun KeygenFacts KeygenRun
  CodecFacts Properties_Algebra Properties_Codec Properties_Keygen Properties_HonestKeygen Properties_Random Properties_Order ToyRuns.
Import ListNotations.
Local Open Scope Z_scope.

Local Opaque SetScalarRandom.

(** * Coefficients from values *)
Lemma nth_padd a b k : nth k (padd a b) f0 = fadd (nth k a f0) (nth k b f0).
Proof. revert b k. induction a as [|x a IH]; intros [|y b] [|k]; cbn [padd nth]; try ring. apply IH. Qed.
Lemma nth_pscale c a k : nth k (pscale c a) f0 = fmul c (nth k a f0).
Proof.
  unfold pscale. destruct (Nat.lt_ge_cases k (List.length a)).
  - rewrite (nth_indep _ _ (fmul c f0)) by now rewrite map_length. apply map_nth.
  - rewrite !nth_overflow by (rewrite ?map_length; lia). ring.
Qed.
(** The coefficients vanish if there are as many non-zero roots. *)
Lemma roots_coeffs pts : List.NoDup pts -> ~ In f0 pts -> forall a, (List.length a <= List.length pts)%nat ->
  (forall x, In x pts -> peval a x = f0) -> Forall (eq f0) a.
Proof.
  intros ND N0 a. induction a as [|c a IH]; intros HL HR; [constructor|].
  assert (c = f0) as ->. { change c with (nth 0 (c :: a) f0). rewrite <- peval_0. apply (roots_zero pts); auto. }
  constructor; [reflexivity|]. cbn [List.length] in HL. apply IH; [lia|]. intros x Hx. pose proof (HR x Hx) as E. cbn [peval] in E.
  assert (fmul x (peval a x) = f0) as E2 by (rewrite <- E; ring). apply Fq_integral in E2 as [->|]; [contradiction|auto].
Qed.
(** Two polynomials with t+1 coefficients and the same values at 0 and at t other points are the same list. *)
Lemma same_coeffs pts f g : List.NoDup pts -> ~ In f0 pts -> List.length f = S (List.length pts) -> List.length g = S (List.length pts) ->
  peval f f0 = peval g f0 -> (forall x, In x pts -> peval f x = peval g x) -> f = g.
Proof.
  intros ND N0 Lf Lg E0 E. destruct f as [|a f], g as [|b g]; try discriminate. injection Lf as Lf. injection Lg as Lg.
  assert (a = b) as -> by (rewrite !peval_0 in E0; exact E0). f_equal.
  assert (Forall (eq f0) (padd f (pscale (fopp f1) g))) as HZ.
  { apply (roots_coeffs pts); auto.
    - rewrite padd_length, pscale_length. lia.
    - intros x Hx. rewrite padd_eval, pscale_eval. pose proof (E x Hx) as Ex. cbn [peval] in Ex.
      assert (fmul x (fsub (peval f x) (peval g x)) = f0) as E2.
      { transitivity (fsub (fadd b (fmul x (peval f x))) (fadd b (fmul x (peval g x)))); [ring|]. rewrite Ex. ring. }
      apply Fq_integral in E2 as [->|E2]; [contradiction|]. rewrite <- E2. ring. }
  apply (nth_ext _ _ f0 f0); [lia|]. intros k Hk. apply Fq_sub_eq0.
  assert (nth k (padd f (pscale (fopp f1) g)) f0 = f0) as E3.
  { rewrite Forall_forall in HZ. symmetry. apply HZ. apply elem_of_list_In, nth_In. rewrite padd_length, pscale_length. lia. }
  rewrite nth_padd, nth_pscale in E3. etransitivity; [|exact E3]. ring.
Qed.

Lemma nodup_map_inj {A B} (g : A -> B) l : forall a b, List.NoDup (map g l) -> In a l -> In b l -> g a = g b -> a = b.
Proof.
  induction l as [|x l IH]; intros a b ND Ha Hb E; [destruct Ha|]. cbn [map] in ND. inversion ND; subst. destruct Ha as [->|Ha], Hb as [->|Hb]; auto.
  - exfalso. apply H1. rewrite E. now apply in_map.
  - exfalso. apply H1. rewrite <- E. now apply in_map.
Qed.
(** Every list of scalars may be read from the random source. *)
Lemma any_scalars l : exists rg : rng, forall i, (i < List.length l)%nat -> SetScalarRandom rg i = nth i l f0.
Proof.
  exists (fun i => fz (nth i l f0)). intros i _. pose proof (fz_Fq_range (nth i l f0)) as Hr.
  assert (0 <= fz (nth i l f0) < 2 ^ 512) as Hr' by (pose proof q_lt_512; lia).
  rewrite (rng_scalar_of _ _ (le_bytes 64 (fz (nth i l f0)))).
  - rewrite scalar_of_val by apply le_bytes_length. rewrite le_val_le_bytes, pow512, Z.mod_small by auto. apply fof_fz.
  - apply le_bytes_length.
  - rewrite le_val_le_bytes, pow512, Z.mod_small by auto. reflexivity.
Qed.

(** * The simulator *)
(** From the public element A_0 = [f(0)]B and the values f(j) for j in [known]: A_k is a combination of A_0 and the [f(j)]B,
    whose weights are the k-th coefficients of the Lagrange basis of the points 0 and j in [known]. *)
Section Simulator.
  Context `{Gr : group_ops}.
  Definition points (known : list Z) : list Fq := f0 :: map qof known.
  Definition weight (known : list Z) (x : Fq) (k : nat) : Fq := nth k (lbasis x (points known)) f0.
  Definition sim_coefficient (known : list Z) (A0 : G) (sh : Z -> Fq) (k : nat) : G :=
    gadd (gsmul (weight known f0 k) A0) (Gsum (map (fun j => gsmul (weight known (qof j) k) (gbmul (sh j))) known)).
  Definition sim_commitment (known : list Z) (A0 : G) (sh : Z -> Fq) : list G :=
    map (sim_coefficient known A0 sh) (seq 0 (S (List.length known))).
  (** What the parties in [known] get to see of the messages sent: broadcasts and what is addressed to them. *)
  Definition seen (known : list Z) (ms : list Message) : list Message :=
    List.filter (fun m => (m_To m =? 0) || existsb (Z.eqb (m_To m)) known) ms.
  (** The simulated messages; [k] is the nonce of the proof. *)
  Definition sim_messages (self : Z) (ids known : list Z) (A0 : G) (sh : Z -> Fq) (k : Fq) : list Message :=
    NewKeyGen1 self (mkSchnorr f0 k) (sim_commitment known A0 sh) ::
    map (fun j => NewKeyGen2 self j (sh j)) (List.filter (fun j => existsb (Z.eqb j) known) (others_of self ids)).
End Simulator.

Section Simulation.
  Context `{L : group_laws} `{Hf : hash_fn} (HH : hash_ok Hf).

  Lemma NoDup_points known : valid_ids known -> List.NoDup (points known).
  Proof.
    intros V. unfold points. constructor.
    - rewrite in_map_iff. intros (i & E & Hi). now apply (valid_idF_neq0 known i V Hi).
    - exact (valid_NoDup_idF known V).
  Qed.
  Lemma interp_nth v xs k : nth k (interp v xs) f0 = Fsum (map (fun j => fmul (v j) (nth k (lbasis j xs) f0)) xs).
  Proof.
    unfold interp. generalize xs at 1 3. intros bs. induction xs as [|x xs IH]; cbn [fold_right map Fsum]; [destruct k; reflexivity|].
    rewrite nth_padd, nth_pscale, IH. reflexivity.
  Qed.
  (** The coefficients of f from its values at the points. *)
  Lemma coefficients known f k : valid_ids known -> List.length f = S (List.length known) ->
    nth k f f0 = fadd (fmul (weight known f0 k) (peval f f0)) (Fsum (map (fun j => fmul (weight known (qof j) k) (peval f (qof j))) known)).
  Proof.
    intros V HL. pose proof (NoDup_points known V) as ND.
    assert (f = interp (peval f) (points known) ) as E.
    { assert (forall l, incl l (points known) -> l <> [] -> List.length (fold_right (fun j acc => padd (pscale (peval f j) (lbasis j (points known))) acc) [] l) = List.length (points known)) as HLen.
      { induction l as [|x l IH]; intros Hl Hne; [contradiction|]. cbn [fold_right]. rewrite padd_length, pscale_length, lbasis_length; auto; [|apply Hl; now left].
        destruct l as [|y l]; [cbn; lia|]. rewrite IH; [lia| |discriminate]. intros z Hz. apply Hl. now right. }
      inversion ND; subst. apply (same_coeffs (map qof known)); auto.
      - now rewrite map_length.
      - unfold interp. rewrite HLen; [|apply incl_refl|discriminate]. unfold points. cbn [List.length]. reflexivity.
      - rewrite interp_at; auto. now left.
      - intros x Hx. rewrite interp_at; auto. now right. }
    rewrite E at 1. rewrite interp_nth. unfold points at 2. cbn [map Fsum fold_right]. unfold weight. f_equal; [ring|]. rewrite map_map. f_equal. apply map_ext.
    intros j. ring.
  Qed.
  Lemma sim_commitment_ok known f A0 : valid_ids known -> List.length f = S (List.length known) -> geq A0 (gbmul (spoly f f0)) ->
    Forall2 geq (commitment f) (sim_commitment known A0 (fun j => spoly f (qof j))).
  Proof.
    intros V HL EA. unfold commitment, sim_commitment.
    assert (f = map (fun k => nth k f f0) (seq 0 (S (List.length known)))) as Ef.
    { rewrite <- HL. apply (nth_ext _ _ f0 f0); [now rewrite map_length, seq_length|]. intros k Hk.
      rewrite (nth_indep (map _ _) f0 (nth 0 f f0)) by now rewrite map_length, seq_length. rewrite (map_nth (fun k => nth k f f0)), seq_nth by auto. reflexivity. }
    rewrite Ef at 1. rewrite map_map. generalize (seq 0 (S (List.length known))). intros l. induction l as [|k l IH]; cbn [map]; constructor; auto.
    unfold sim_coefficient. rewrite EA.
    transitivity (gadd (gsmul (weight known f0 k) (gbmul (spoly f f0))) (Gsum (map (fun j => gbmul (fmul (weight known (qof j) k) (spoly f (qof j)))) known))).
    2:{ apply gadd_proper; [reflexivity|]. apply Gsum_map_ext. intros j _. now rewrite gb_smul. }
    rewrite gb_smul, Gsum_gbmul, gb_add. apply gb_inj. rewrite (coefficients known f k V HL). rewrite peval_spoly. f_equal. f_equal. apply map_ext. intros j. now rewrite peval_spoly.
  Qed.
  (** The encoding depends only on the elements. *)
  Lemma exp_bytes_geq A B : Forall2 geq A B -> exp_bytes A = exp_bytes B.
  Proof.
    intros H. unfold exp_bytes, exp_degree. f_equal.
    - now rewrite (Forall2_length _ _ _ H).
    - induction H as [|a b A B Hab H IH]; cbn [flat_map]; [reflexivity|]. now rewrite Hab, IH.
  Qed.
  Lemma kg1_bytes_geq self pr A B : Forall2 geq A B -> msg_MarshalBinary (NewKeyGen1 self pr A) = msg_MarshalBinary (NewKeyGen1 self pr B).
  Proof.
    intros H. unfold msg_MarshalBinary. change (m_Header (NewKeyGen1 self pr A)) with (m_Header (NewKeyGen1 self pr B)). destruct (header_bytes _); cbn [obind]; auto.
    change (m_Type (NewKeyGen1 self pr A) =? MTKeyGen1) with true. change (m_Type (NewKeyGen1 self pr B) =? MTKeyGen1) with true. cbn [NewKeyGen1 m_KeyGen1 option_map]. cbv iota.
    unfold k1_bytes. cbn [k1_Proof k1_Commitments]. now rewrite (exp_bytes_geq A B H).
  Qed.

  Section Run.
    Context (rg : rng) (now timeout : Z) (self : Z) (ids : list Z) (thr : Z) (s0 : State kround).
    Context (NEW : NewKeygenState rg now timeout self ids thr = Ret s0) (V : valid_ids ids) (HT : is_u16 thr).
    Context (es : list event) (s : State kround) (out : list Message) (RUN : run keygen_round s0 es = Ret (s, out)).
    Notation t := (Z.to_nat thr).
    Notation f := (dealt rg t).

    Lemma own_out : kout_ok rg self ids thr out.
    Proof.
      destruct (kthe_run rg now timeout self ids thr s0 NEW V HT es s out RUN) as (r0 & E1 & HL).
      destruct (st_done s) eqn:D.
      - apply (li_F _ _ _ _ _ _ _ HL D).
      - destruct (li_P _ _ _ _ _ _ _ HL D) as (n & _ & _ & HP). eapply PK_out; eauto.
    Qed.
    (** The challenge is always zero, so the proof is the nonce itself: it does not depend on the secret. *)
    Lemma own_proof_zero : own_proof rg self thr = mkSchnorr f0 (SetScalarRandom rg (S t)).
    Proof.
      pose proof (own_proof_eq rg self thr) as E. unfold NewSchnorrProof in E. apply obind_ret in E as (c & Ec & E). apply Ret_inj in E. rewrite <- E.
      unfold zk_challenge in Ec. change (Nat.ltb (List.length ctx0) 32) with false in Ec. cbv iota in Ec. apply Ret_inj in Ec.
      unfold scalar_set_uniform, hash_Sum in Ec. rewrite app_length, repeat_length, HH in Ec. cbn [Nat.eqb Nat.add] in Ec. subst c. f_equal. ring.
    Qed.
    Lemma seen_shares known : incl known (others_of self ids) ->
      seen known (map (fun i => NewKeyGen2 self i (peval f (idF i))) (others_of self ids)) =
      map (fun j => NewKeyGen2 self j (spoly f (qof j))) (List.filter (fun j => existsb (Z.eqb j) known) (others_of self ids)).
    Proof.
      intros _. assert (forall l, (forall i, In i l -> i <> 0) -> seen known (map (fun i => NewKeyGen2 self i (peval f (idF i))) l) =
        map (fun j => NewKeyGen2 self j (spoly f (qof j))) (List.filter (fun j => existsb (Z.eqb j) known) l)) as H.
      { induction l as [|i l IH]; intros Hl; [reflexivity|]. cbn [map seen List.filter]. fold (seen known).
        change (m_To (NewKeyGen2 self i (peval f (idF i)))) with i. replace (i =? 0) with false by (symmetry; apply Z.eqb_neq, Hl; now left). cbn [orb].
        unfold seen in IH. rewrite IH by (intros k Hk; apply Hl; now right). destruct (existsb _ known); [|reflexivity]. cbn [map]. now rewrite peval_spoly. }
      apply H. intros i Hi. apply others_of_In in Hi as [Hi _]. pose proof (valid_in ids i V Hi). lia.
    Qed.

    (** Whatever the other parties send, what t of them can read of a party's messages, byte for byte, is computed by the
        simulator from the public element [f(0)]B, the t shares f(j) those parties are entitled to, and a nonce. *)
    Theorem C57_simulation : forall known A0, valid_ids known -> incl known (others_of self ids) -> List.length known = t ->
      geq A0 (gbmul (spoly f f0)) ->
      exists n, map msg_MarshalBinary (seen known out) =
        firstn n (map msg_MarshalBinary (sim_messages self ids known A0 (fun j => spoly f (qof j)) (SetScalarRandom rg (S t)))).
    Proof.
      intros known A0 VK HK HL EA. pose proof own_out as HO.
      assert (List.length f = S (List.length known)) as Lf by (unfold dealt; rewrite map_length, seq_length; lia).
      pose proof (sim_commitment_ok known f A0 VK Lf EA) as HC.
      assert (msg_MarshalBinary (own_KG1 rg self thr) = msg_MarshalBinary (NewKeyGen1 self (mkSchnorr f0 (SetScalarRandom rg (S t))) (sim_commitment known A0 (fun j => spoly f (qof j))))) as E1.
      { unfold own_KG1. rewrite own_proof_zero. apply kg1_bytes_geq. unfold C0. rewrite p0_dealt. exact HC. }
      unfold sim_messages. cbn [map].
      destruct HO as [->|[->| ->] ].
      - exists 0%nat. reflexivity.
      - exists 1%nat. cbn [seen List.filter]. change (m_To (own_KG1 rg self thr) =? 0) with true. cbn [orb map firstn]. now rewrite E1.
      - exists (S (List.length (others_of self ids))). cbn [seen List.filter]. change (m_To (own_KG1 rg self thr) =? 0) with true. cbn [orb map firstn]. rewrite E1. f_equal.
        rewrite firstn_all2.
        + f_equal. unfold own_KG2s. rewrite p0_dealt. now apply seen_shares.
        + rewrite !map_length. clear. induction (others_of self ids) as [|x l IH]; cbn [List.filter List.length]; [lia|]. destruct (existsb _ _); cbn [List.length]; lia.
    Qed.

    (** Fewer than t parties see no more than t parties that include them. *)
    Theorem C57_fewer : forall bad, List.NoDup bad -> incl bad (others_of self ids) -> (List.length bad <= t)%nat ->
      exists known, valid_ids known /\ incl known (others_of self ids) /\ List.length known = t /\ incl bad known /\
        seen bad out = seen bad (seen known out).
    Proof.
      intros bad ND HB HL. destruct (kthe_run rg now timeout self ids thr s0 NEW V HT es s out RUN) as (r0 & E1 & _).
      destruct (knew (given es) _ _ _ _ _ E1 V HT) as (Hin & Ht & _).
      assert (List.NoDup ids) as NDi by (destruct V; auto).
      assert (List.length ids = S (List.length (others_of self ids))) as Lo.
      { rewrite (Permutation_length (others_perm self ids NDi Hin)). reflexivity. }
      set (rest := List.filter (fun i => negb (existsb (Z.eqb i) bad)) (others_of self ids)).
      assert (forall i, In i rest <-> In i (others_of self ids) /\ ~ In i bad) as Hr.
      { intros i. unfold rest. rewrite filter_In, negb_true_iff. rewrite <- not_true_iff_false, existsb_eqb_In. reflexivity. }
      assert (List.NoDup (bad ++ rest)) as NDa.
      { apply NoDup_ListNoDup. apply NoDup_app. split; [now apply NoDup_ListNoDup|]. split.
        - intros x Hx Hx2. apply elem_of_list_In in Hx, Hx2. apply Hr in Hx2 as [_ X]. contradiction.
        - apply NoDup_ListNoDup. unfold rest. apply List.NoDup_filter. now apply others_of_NoDup. }
      assert (forall i, In i (bad ++ rest) <-> In i (others_of self ids)) as Ha.
      { intros i. rewrite in_app_iff, Hr. split; [intros [H|[H _] ]; auto|]. intros H. destruct (in_dec Z.eq_dec i bad); auto. }
      assert (List.length (bad ++ rest) = List.length (others_of self ids)) as La.
      { apply Permutation_length, Permutation.NoDup_Permutation; [exact NDa|now apply others_of_NoDup|exact Ha]. }
      exists (firstn t (bad ++ rest)).
      assert (incl (firstn t (bad ++ rest)) (others_of self ids)) as HI.
      { intros i Hi. apply Ha. rewrite <- (firstn_skipn t (bad ++ rest)). apply in_or_app. now left. }
      assert (incl bad (firstn t (bad ++ rest))) as HBK.
      { intros i Hi. rewrite firstn_app. apply in_or_app. left. now rewrite firstn_all2. }
      split; [|split; [exact HI|split; [|split; [exact HBK|] ] ] ].
      - split.
        + rewrite <- (firstn_skipn t (bad ++ rest)) in NDa. apply NoDup_ListNoDup. apply NoDup_ListNoDup in NDa. apply NoDup_app in NDa. apply NDa.
        + apply List.Forall_forall. intros i Hi. apply HI in Hi. apply others_of_In in Hi as [Hi _]. exact (valid_in ids i V Hi).
      - rewrite firstn_length, La. lia.
      - clear - HBK. unfold seen. induction out as [|m l IH]; cbn [List.filter]; [reflexivity|]. rewrite IH.
        destruct ((m_To m =? 0) || existsb (Z.eqb (m_To m)) bad) eqn:E; destruct ((m_To m =? 0) || existsb (Z.eqb (m_To m)) (firstn t (bad ++ rest))) eqn:E'; cbn [List.filter]; rewrite ?E; auto.
        exfalso. apply orb_true_iff in E. apply orb_false_iff in E' as [E1' E2']. destruct E as [E|E]; [congruence|]. apply existsb_eqb_In in E. apply HBK in E. apply existsb_eqb_In in E. congruence.
    Qed.
  End Run.

  (** The simulator's inputs are free: every value of the secret, of the t shares and of the nonce occurs, for exactly one
      choice of the coefficients. *)
  Theorem C57_inputs : forall known, valid_ids known -> forall s sh k,
    exists f, (List.length f = S (List.length known) /\ spoly f f0 = s /\ forall j, In j known -> spoly f (qof j) = sh j) /\
      (forall g, List.length g = S (List.length known) -> spoly g f0 = s -> (forall j, In j known -> spoly g (qof j) = sh j) -> g = f) /\
      exists rg : rng, dealt rg (List.length known) = f /\ SetScalarRandom rg (S (List.length known)) = k.
  Proof.
    intros known VK s sh k.
    assert (List.NoDup (map qof known) /\ ~ In f0 (map qof known)) as [ND N0] by (pose proof (NoDup_points known VK) as X; inversion X; auto).
    destruct (poly_through_points (map qof known) (fun x => match find (fun j => feqb (qof j) x) known with Some j => sh j | None => f0 end) s ND N0) as (h & H1 & H2 & H3).
    rewrite map_length in H1. exists (pad (S (List.length known)) h).
    assert (List.length (pad (S (List.length known)) h) = S (List.length known)) as Lf by now apply pad_length.
    assert (forall j, In j known -> spoly (pad (S (List.length known)) h) (qof j) = sh j) as Hsh.
    { intros j Hj. rewrite <- peval_spoly, pad_eval, H3 by now apply in_map. destruct (find _ known) as [i|] eqn:E.
      - apply find_some in E as [Hi E]. apply feqb_eq in E. f_equal.
        assert (idF i = idF j) as E' by exact E. exact (nodup_map_inj idF known i j (valid_NoDup_idF known VK) Hi Hj E').
      - exfalso. apply (find_none _ _ E) in Hj. now rewrite feqb_refl in Hj. }
    split; [|split].
    - split; [exact Lf|]. split; [|exact Hsh]. now rewrite <- peval_spoly, pad_eval.
    - intros g Lg E0 Eg. apply (same_coeffs (map qof known)); rewrite ?map_length; auto.
      + rewrite pad_eval, H2, peval_spoly. exact E0.
      + intros x Hx. apply in_map_iff in Hx as (j & <- & Hj). rewrite !peval_spoly, Hsh, Eg; auto.
    - destruct (any_scalars (pad (S (List.length known)) h ++ [k])) as (rg & Hrg). exists rg. split.
      + unfold dealt. apply (nth_ext _ _ f0 f0); [now rewrite map_length, seq_length, Lf|]. intros i Hi. rewrite map_length, seq_length in Hi.
        rewrite (nth_indep (map _ _) f0 (SetScalarRandom rg 0)) by now rewrite map_length, seq_length. rewrite map_nth, seq_nth by auto. cbn [Nat.add].
        rewrite Hrg by (rewrite app_length; cbn; lia). rewrite app_nth1 by lia. reflexivity.
      + rewrite Hrg by (rewrite app_length; cbn; lia). rewrite app_nth2 by lia. rewrite Lf, Nat.sub_diag. reflexivity.
  Qed.
End Simulation.

(** * What does not depend on the randomness at all *)
(** The same call results, up to the contents of messages. *)
Section Lock.
  Context `{Gr : group_ops} {R : Type} (I : RoundI R) (rsim : R -> R -> Prop) (mrel : Message -> Message -> Prop).
  Context (Hself : forall r r', rsim r r' -> r_self I r = r_self I r' /\ r_ids I r = r_ids I r').
  Context (Hproc : forall r r' m, rsim r r' ->
    match r_process I r m, r_process I r' m with
    | ROk r1 _, ROk r1' _ => rsim r1 r1'
    | RErr r1 c t, RErr r1' c' t' => c = c' /\ t = t' /\ rsim r1 r1'
    | RPanic w, RPanic w' => w = w'
    | _, _ => False
    end).
  Context (Hgen : forall r r' o, rsim r r' ->
    match r_generate I o r, r_generate I o r' with
    | ROk r1 m, ROk r1' m' => rsim r1 r1' /\ Forall2 mrel m m'
    | RErr r1 c t, RErr r1' c' t' => c = c' /\ t = t' /\ rsim r1 r1'
    | RPanic w, RPanic w' => w = w'
    | _, _ => False
    end).
  Context (Hnext : forall r r', rsim r r' -> match r_next I r, r_next I r' with Some a, Some a' => rsim a a' | None, None => True | _, _ => False end).
  Context (Hreset : forall r r', rsim r r' -> match r_reset I r, r_reset I r' with Ret a, Ret a' => rsim a a' | Panics w, Panics w' => w = w' | Fail w, Fail w' => w = w' | _, _ => False end).

  Record lock (s s' : State R) : Prop := {
    lk_acc : st_accepted s = st_accepted s'; lk_rcv : st_received s = st_received s'; lk_q : st_queue s = st_queue s';
    lk_tm : st_timer s = st_timer s'; lk_no : st_roundNumber s = st_roundNumber s'; lk_cl : st_closed s = st_closed s';
    lk_done : st_done s = st_done s'; lk_err : st_err s = st_err s'; lk_round : rsim (st_round s) (st_round s')
  }.
  Definition lrel {A} (P : A -> A -> Prop) (x y : outcome A) : Prop :=
    match x, y with Ret a, Ret b => P a b | Fail w, Fail w' => w = w' | Panics w, Panics w' => w = w' | _, _ => False end.
  Definition lout (x y : State R * list Message) : Prop := lock (fst x) (fst y) /\ Forall2 mrel (snd x) (snd y).
  Ltac proj := cbn [st_accepted st_received st_queue st_timer st_roundNumber st_closed st_done st_err st_round set_round].

  Lemma lock_loop r r' rcv ks : rsim r r' ->
    match process_loop I r rcv ks, process_loop I r' rcv ks with
    | ROk r1 _, ROk r1' _ => rsim r1 r1'
    | RErr r1 c t, RErr r1' c' t' => c = c' /\ t = t' /\ rsim r1 r1'
    | RPanic w, RPanic w' => w = w'
    | _, _ => False
    end.
  Proof.
    revert r r'. induction ks as [|k ks IH]; intros r r' H; cbn [process_loop]; [exact H|]. pose proof (Hproc r r' (default None (rcv !! k)) H) as HP.
    destruct (r_process I r _), (r_process I r' _); try contradiction; [now apply IH|exact HP|exact HP].
  Qed.
  Lemma lock_handle now s s' m : lock s s' -> lock (fst (HandleMessage I now s m)) (fst (HandleMessage I now s' m)).
  Proof.
    intros H. pose proof H as [A1 A2 A3 A4 A5 A6 A7 A8 A9]. unfold HandleMessage. cbv zeta. rewrite <- A7.
    destruct (st_done s) eqn:D; [exact H|]. pose proof (Hself _ _ A9) as [S1 S2]. rewrite <- S1, <- S2, <- A1, <- A2.
    assert (isAcceptedType s (m_Type m) = isAcceptedType s' (m_Type m)) as <- by (unfold isAcceptedType; now rewrite A1).
    destruct (st_accepted s) as [|ct tl] eqn:EA; [exact H|]. destruct (_ =? _); [exact H|]. destruct (_ && _); [exact H|]. destruct (negb _); [exact H|].
    destruct (st_received s !! m_From m); [exact H|]. destruct (negb _); [exact H|]. rewrite <- A3, <- A4, <- A5, <- A6, <- A8.
    destruct (_ =? _); cbn [fst]; split; proj; auto.
  Qed.
  Lemma lock_finish s s' : lock s s' -> lrel lock (finish I s) (finish I s').
  Proof.
    intros H. pose proof H as [A1 A2 A3 A4 A5 A6 A7 A8 A9]. unfold finish. rewrite <- A7. destruct (st_done s); [exact H|]. pose proof (Hreset _ _ A9) as HR.
    destruct (r_reset I (st_round s)), (r_reset I (st_round s')); try contradiction; cbn [obind]; try exact HR. rewrite <- A6. destruct (st_closed s); [|reflexivity].
    cbn [lrel]. split; proj; auto. now rewrite A4.
  Qed.
  Lemma lock_report s s' c t : lock s s' -> lrel lock (reportError I s c t) (reportError I s' c t).
  Proof.
    intros H. pose proof H as [A1 A2 A3 A4 A5 A6 A7 A8 A9]. unfold reportError. rewrite <- A7. destruct (st_done s); [exact H|]. apply lock_finish. split; proj; auto. now rewrite A8, A5.
  Qed.
  Lemma lrel_step (x y : outcome (State R)) : lrel lock x y -> lrel lout (obind x (fun s => Ret (s, []))) (obind y (fun s => Ret (s, []))).
  Proof. destruct x, y; cbn; auto; try contradiction. intros H. split; [exact H|constructor]. Qed.
  Lemma lock_step s s' e : lock s s' -> lrel lout (step I s e) (step I s' e).
  Proof.
    intros H. pose proof H as [A1 A2 A3 A4 A5 A6 A7 A8 A9]. destruct e as [now m|o o'|now|]; cbn [step].
    - split; [now apply lock_handle|constructor].
    - unfold ProcessAll. rewrite <- A7. destruct (st_done s) eqn:D; [split; [exact H|constructor]|]. pose proof (Hself _ _ A9) as [S1 S2]. rewrite <- S2, <- A2.
      destruct (negb _); [split; [exact H|constructor]|]. pose proof (lock_loop (st_round s) (st_round s') (st_received s) (map_keys o (st_received s)) A9) as HL.
      destruct (process_loop I (st_round s) _ _) as [r1 u|r1 c t|w], (process_loop I (st_round s') _ _) as [r1' u'|r1' c' t'|w']; try contradiction; [| |exact HL].
      2:{ destruct HL as (-> & -> & HL). apply lrel_step, lock_report. split; proj; auto; congruence. }
      pose proof (Hgen r1 r1' o' HL) as HG.
      destruct (r_generate I o' r1) as [r2 ms|r2 c t|w], (r_generate I o' r1') as [r2' ms'|r2' c' t'|w']; try contradiction; [| |exact HG].
      2:{ destruct HG as (-> & -> & HG). apply lrel_step, lock_report. split; proj; auto; congruence. }
      destruct HG as [HG HM]. rewrite <- A1. destruct (st_accepted s) as [|ct acc]; [reflexivity|]. rewrite <- A3, <- A4, <- A5, <- A6, <- A8.
      destruct (match acc with [] => _ | _ => _ end) as [rcv' q']. pose proof (Hnext r2 r2' HG) as HN. destruct (r_next I r2), (r_next I r2'); try contradiction.
      + split; [|exact HM]. split; proj; auto.
      + set (a := mkState _ _ _ _ _ r2 _ _ _). set (b := mkState _ _ _ _ _ r2' _ _ _).
        assert (lrel lock (finish I a) (finish I b)) as HF by (apply lock_finish; split; proj; auto).
        destruct (finish I a), (finish I b); try contradiction; cbn [obind lrel] in *; auto. split; auto.
    - split; [|constructor]. cbn [fst]. unfold timerExpire. rewrite <- A4. destruct (tm_deadline _) as [dl|]; [|exact H]. destruct (dl <=? now); [|exact H]. split; proj; auto.
    - apply lrel_step. unfold timerCallback. rewrite <- A4. destruct (tm_pending _); [exact H|]. apply lock_report. split; proj; auto.
  Qed.
  Lemma lock_run es : forall s s', lock s s' -> lrel lout (run I s es) (run I s' es).
  Proof.
    induction es as [|e es IH]; intros s s' H; cbn [run]; [split; [exact H|constructor]|]. pose proof (lock_step s s' e H) as HS.
    destruct (step I s e) as [[a m]|w|w], (step I s' e) as [[a' m']|w'|w']; try contradiction; cbn [obind lrel] in *; auto. destruct HS as [HS HM]. cbn [fst snd] in *.
    pose proof (IH a a' HS) as HR. destruct (run I a es) as [[b n]|w|w], (run I a' es) as [[b' n']|w'|w']; try contradiction; cbn [obind lrel] in *; auto.
    destruct HR as [HR HN]. cbn [fst snd] in *. split; [exact HR|]. cbn [fst snd]. now apply Forall2_app.
  Qed.
End Lock.

(** What an observer of the network sees of a message whose contents he cannot read: header and size. *)
Definition same_envelope `{Gr : group_ops} (m m' : Message) : Prop :=
  m_Header m = m_Header m' /\
  match msg_MarshalBinary m, msg_MarshalBinary m' with Ret b, Ret b' => List.length b = List.length b' | Fail e, Fail e' => e = e' | Panics e, Panics e' => e = e' | _, _ => False end.

Section NonInterference.
  Context `{L : group_laws} `{Hf : hash_fn}.
  Definition both {A} (P : A -> A -> Prop) (x y : option A) : Prop := match x, y with Some a, Some b => P a b | None, None => True | _, _ => False end.
  Record ksim (k k' : kround) : Prop := {
    ks_no : kr_no k = kr_no k'; ks_self : kr_self k = kr_self k'; ks_ids : kr_ids k = kr_ids k'; ks_thr : kr_Threshold k = kr_Threshold k';
    ks_poly : both (fun p p' => List.length p = List.length p') (kr_Polynomial k) (kr_Polynomial k');
    ks_sum : both (fun p p' => List.length p = List.length p') (kr_CommitmentsSum k) (kr_CommitmentsSum k');
    ks_com : kr_Commitments k = kr_Commitments k'; ks_outp : kr_outp k = kr_outp k';
    ks_pub : both (fun p p' => pub_PartyIDs p = pub_PartyIDs p' /\ pub_Threshold p = pub_Threshold p' /\ dom (pub_Shares p) = dom (pub_Shares p')) (ko_Public (kr_out k)) (ko_Public (kr_out k'));
    ks_sec : both (fun p p' => sh_ID p = sh_ID p') (ko_SecretKey (kr_out k)) (ko_SecretKey (kr_out k'))
  }.
  Ltac kp := cbn [kr_no kr_self kr_ids kr_Threshold kr_Secret kr_Polynomial kr_CommitmentsSum kr_Commitments kr_outp kr_out kr_rng ko_Public ko_SecretKey both].
  Definition kres {A} (P : A -> A -> Prop) (x y : rres kround A) : Prop :=
    match x, y with
    | ROk r1 m, ROk r1' m' => ksim r1 r1' /\ P m m'
    | RErr r1 c t, RErr r1' c' t' => c = c' /\ t = t' /\ ksim r1 r1'
    | RPanic w, RPanic w' => w = w'
    | _, _ => False
    end.
  Lemma lift_sim {A B} (Q : A -> A -> Prop) (P : B -> B -> Prop) (x y : outcome A) f g :
    lrel Q x y -> (forall a b, Q a b -> kres P (f a) (g b)) -> kres P (lift_r x f) (lift_r y g).
  Proof. destruct x, y; cbn; auto; try contradiction. Qed.
  Lemma ofold_sim {A B} (Q : A -> A -> Prop) (f g : A -> B -> outcome A) l : (forall a b x, Q a b -> lrel Q (f a x) (g b x)) ->
    forall a b, Q a b -> lrel Q (ofold f a l) (ofold g b l).
  Proof.
    intros H. induction l as [|x l IH]; intros a b HQ; cbn [ofold]; [exact HQ|]. pose proof (H a b x HQ) as HF.
    destruct (f a x), (g b x); try contradiction; cbn [obind lrel] in *; auto.
  Qed.
  Lemma eval_sim p p' x : lrel (fun _ _ => True) (poly_eval p x) (poly_eval p' x).
  Proof. unfold poly_eval. destruct (feqb x f0); reflexivity. Qed.
  Lemma exp_eval_sim p p' x : lrel (fun _ _ : G => True) (exp_eval p x) (exp_eval p' x).
  Proof. unfold exp_eval, exp_eval_var. destruct (feqb x f0); reflexivity. Qed.
  Lemma constant_sim p p' : List.length p = List.length p' -> lrel (fun _ _ : G => True) (exp_constant p) (exp_constant p').
  Proof. destruct p, p'; cbn; auto; discriminate. Qed.
  Lemma refl_sim {A} (x : outcome A) : lrel eq x x.
  Proof. destruct x; reflexivity. Qed.

  Lemma envelope_kg1 self pr pr' C C' : List.length C = List.length C' -> same_envelope (NewKeyGen1 self pr C) (NewKeyGen1 self pr' C').
  Proof.
    intros HL. split; [reflexivity|]. unfold msg_MarshalBinary. change (m_Header (NewKeyGen1 self pr C)) with (m_Header (NewKeyGen1 self pr' C')).
    destruct (header_bytes _) as [h|e|e]; cbn [obind]; auto.
    change (m_Type (NewKeyGen1 self pr C) =? MTKeyGen1) with true. change (m_Type (NewKeyGen1 self pr' C') =? MTKeyGen1) with true. cbn [NewKeyGen1 m_KeyGen1 option_map]. cbv iota.
    rewrite !app_length. f_equal. unfold k1_bytes. cbn [k1_Proof k1_Commitments]. rewrite !app_length. unfold schnorr_bytes. rewrite !app_length, !scalar_bytes_length. f_equal.
    apply Nat2Z.inj. rewrite !exp_bytes_length. unfold exp_size. now rewrite HL.
  Qed.
  Lemma envelope_kg2 self i x y : same_envelope (NewKeyGen2 self i x) (NewKeyGen2 self i y).
  Proof.
    split; [reflexivity|]. unfold msg_MarshalBinary. change (m_Header (NewKeyGen2 self i x)) with (m_Header (NewKeyGen2 self i y)).
    destruct (header_bytes _) as [h|e|e]; cbn [obind]; auto.
    change (m_Type (NewKeyGen2 self i x)) with MTKeyGen2. change (m_Type (NewKeyGen2 self i y)) with MTKeyGen2. cbn [NewKeyGen2 m_KeyGen2 option_map MTKeyGen1 MTKeyGen2 Z.eqb Pos.eqb]. cbv iota.
    unfold k2_bytes. now rewrite !app_length, !scalar_bytes_length.
  Qed.

  Lemma ksim_process r r' m : ksim r r' -> kres (fun _ _ => True) (r_process keygen_round r m) (r_process keygen_round r' m).
  Proof.
    intros H. pose proof H as [A1 A2 A3 A4 A5 A6 A7 A8 A9 A10]. cbn [keygen_round r_process]. rewrite <- A1. destruct (kr_no r) as [|[|n] ] eqn:En.
    - split; auto.
    - unfold kg1_process. destruct m as [m|]; [|reflexivity]. destruct (m_KeyGen1 m) as [b|]; [|reflexivity].
      apply (lift_sim eq); [apply refl_sim|]. intros P ? <-. apply (lift_sim eq); [apply refl_sim|]. intros ok ? <-.
      destruct (negb ok); [cbn; auto|]. destruct (kr_CommitmentsSum r) as [c|], (kr_CommitmentsSum r') as [c'|]; try contradiction; [|reflexivity].
      split; auto. cbn [both] in A6. split; kp; auto; try congruence. unfold exp_add. rewrite <- A6.
      destruct (Nat.eqb_spec (List.length c) (List.length (k1_Commitments b))) as [E|E]; cbn [negb]; auto. rewrite !map2_length; congruence.
    - unfold kg2_process. destruct m as [m|]; [|reflexivity]. destruct (m_KeyGen2 m) as [b|]; [|reflexivity]. rewrite <- A7, <- A2.
      destruct (kr_Commitments r !! m_From m) as [c|]; [|reflexivity]. apply (lift_sim eq); [apply refl_sim|]. intros x ? <-. apply (lift_sim eq); [apply refl_sim|]. intros S ? <-.
      destruct (negb _); [cbn; auto|]. split; auto. split; kp; auto; congruence.
  Qed.
  Lemma ksim_generate r r' o : ksim r r' -> kres (Forall2 same_envelope) (r_generate keygen_round o r) (r_generate keygen_round o r').
  Proof.
    intros H. pose proof H as [A1 A2 A3 A4 A5 A6 A7 A8 A9 A10]. cbn [keygen_round r_generate]. rewrite <- A1. destruct (kr_no r) as [|[|n] ] eqn:En.
    - unfold kg0_generate. rewrite <- A4, <- A2.
      apply (lift_sim (fun p p' => List.length p = List.length p')).
      { unfold NewPolynomial. destruct (_ =? 0); [reflexivity|]. cbn [lrel List.length]. now rewrite !map_length. }
      intros p p' Hp. assert (List.length (NewPolynomialExponent p) = List.length (NewPolynomialExponent p')) as HC by (unfold NewPolynomialExponent; now rewrite !map_length).
      apply (lift_sim (fun _ _ => True)); [now apply constant_sim|]. intros P P' _.
      apply (lift_sim (fun _ _ => True)); [unfold NewSchnorrProof, zk_challenge; destruct (Nat.ltb _ _); reflexivity|]. intros pr pr' _.
      apply (lift_sim eq); [apply refl_sim|]. intros x ? <-. apply (lift_sim (fun _ _ => True)); [apply eval_sim|]. intros sh sh' _.
      split; [split; kp; auto; congruence|]. repeat constructor; now apply envelope_kg1.
    - unfold kg1_generate. destruct (kr_Polynomial r) as [p|], (kr_Polynomial r') as [p'|]; try contradiction; [|reflexivity]. rewrite <- A3, <- A2.
      apply (lift_sim (Forall2 same_envelope)).
      { apply ofold_sim; [|constructor]. intros a b i HQ. destruct (i =? kr_self r); [exact HQ|]. destruct (id_scalar i) as [x|w|w]; cbn [obind]; try reflexivity.
        pose proof (eval_sim p p' x) as HE. destruct (poly_eval p x), (poly_eval p' x); try contradiction; cbn [obind lrel] in *; auto. apply Forall2_app; auto. repeat constructor; apply envelope_kg2. }
      intros ms ms' HM. split; auto. split; kp; auto; try congruence. unfold poly_reset. now rewrite !map_length.
    - unfold kg2_generate. destruct (kr_CommitmentsSum r) as [c|], (kr_CommitmentsSum r') as [c'|]; try contradiction; [|reflexivity]. rewrite <- A3, <- A2, <- A4, <- A8.
      apply (lift_sim (fun (a b : gmap ID G) => dom a = dom b)).
      { apply ofold_sim; [|reflexivity]. intros a b i HQ. destruct (id_scalar i) as [x|w|w]; cbn [obind]; try reflexivity.
        pose proof (exp_eval_sim c c' x) as HE. destruct (exp_eval c x), (exp_eval c' x); try contradiction; cbn [obind lrel] in *; auto. rewrite !dom_insert_L. now f_equal. }
      intros sh sh' HD. apply (lift_sim (fun _ _ => True)); [now apply constant_sim|]. intros g g' _. destruct (kr_outp r) eqn:Eo; [|reflexivity].
      split; [|constructor]. split; kp; auto; congruence.
  Qed.
  Lemma ksim_reset r r' : ksim r r' -> lrel ksim (kg_Reset r) (kg_Reset r').
  Proof.
    intros H. pose proof H as [A1 A2 A3 A4 A5 A6 A7 A8 A9 A10]. unfold kg_Reset.
    destruct (kr_Polynomial r) as [p|], (kr_Polynomial r') as [p'|]; try contradiction; [|reflexivity].
    destruct (kr_CommitmentsSum r) as [c|], (kr_CommitmentsSum r') as [c'|]; try contradiction; [|reflexivity]. cbn [both] in *.
    split; kp; auto; try congruence; unfold poly_reset, exp_reset; now rewrite !map_length.
  Qed.

  (** Two States with different randomness, given the same calls: both panic with the same message, or both return, and then
      they are equally far, report the same error, and have sent messages with the same headers and of the same sizes. *)
  Theorem C57_control_flow : forall rg rg' now timeout self ids thr s0 s0', NewKeygenState rg now timeout self ids thr = Ret s0 ->
    NewKeygenState rg' now timeout self ids thr = Ret s0' -> forall es,
    match run keygen_round s0 es, run keygen_round s0' es with
    | Ret (s, out), Ret (s', out') =>
        st_done s = st_done s' /\ st_err s = st_err s' /\ st_roundNumber s = st_roundNumber s' /\ st_received s = st_received s' /\ st_queue s = st_queue s' /\
        Forall2 same_envelope out out' /\
        (ko_Public (kg_output s) = None <-> ko_Public (kg_output s') = None) /\ (ko_SecretKey (kg_output s) = None <-> ko_SecretKey (kg_output s') = None)
    | Panics w, Panics w' => w = w'
    | _, _ => False
    end.
  Proof.
    intros rg rg' now timeout self ids thr s0 s0' N N' es.
    assert (lock ksim s0 s0') as HL.
    { unfold NewKeygenState, kg_NewRound in N, N'. destruct (thr =? 0); [discriminate|]. destruct (_ <? _); [discriminate|]. destruct (NewBaseRound self ids) as [b|w|w]; cbn [obind] in *; try discriminate.
      apply Ret_inj in N, N'. subst s0 s0'. split; try reflexivity. cbn [NewBaseState st_round]. split; kp; auto. }
    pose proof (lock_run keygen_round ksim same_envelope) as LR.
    assert (lrel (lout ksim same_envelope) (run keygen_round s0 es) (run keygen_round s0' es)) as HR.
    { apply LR; auto; clear - L.
      - intros r r' [? ? ? ? ? ? ? ? ? ?]. split; auto.
      - intros r r' m H. pose proof (ksim_process r r' m H) as X. destruct (r_process keygen_round r m), (r_process keygen_round r' m); try contradiction; auto. apply X.
      - intros r r' o H. exact (ksim_generate r r' o H).
      - intros r r' H. pose proof H as [A1 A2 A3 A4 A5 A6 A7 A8 A9 A10]. cbn [keygen_round r_next]. rewrite <- A1. destruct (kr_no r) as [|[|n] ]; auto; split; kp; auto.
      - intros r r' H. pose proof (ksim_reset r r' H) as X. cbn [keygen_round r_reset]. destruct (kg_Reset r), (kg_Reset r'); auto. }
    assert (forall w, run keygen_round s0 es <> Fail w) as NF. { intros w. apply run_noFail. intros r w'. cbn [keygen_round r_reset]. unfold kg_Reset. destruct (kr_Polynomial r), (kr_CommitmentsSum r); discriminate. }
    clear LR. destruct (run keygen_round s0 es) as [[s out]|w|w], (run keygen_round s0' es) as [[s' out']|w'|w']; try contradiction; [|now destruct (NF w)|exact HR].
    destruct HR as [ [B1 B2 B3 B4 B5 B6 B7 B8 B9] HM]. cbn [fst snd] in *. repeat split; auto; try (destruct B9 as [_ _ _ _ _ _ _ _ X Y]; unfold kg_output; intros E; rewrite E in *; 
      first [destruct (ko_Public (kr_out (st_round s'))); [contradiction|reflexivity] | destruct (ko_Public (kr_out (st_round s))); [contradiction|reflexivity]
            | destruct (ko_SecretKey (kr_out (st_round s'))); [contradiction|reflexivity] | destruct (ko_SecretKey (kr_out (st_round s))); [contradiction|reflexivity] ]).
  Qed.
End NonInterference.

(** ** Examples *)
(** In the toy run party 1 deals 101 + 102 x; party 2 gets 305.  The simulator is given the element for 101, the share 305 and the nonce 103. *)
Example C57_example :
  valid_ids [2] /\ incl [2] (others_of 1 k3) /\ List.length [2] = Z.to_nat 1 /\ valid_ids k3 /\
  match tk_run (tk_new k3 1 1 0) (good_history 1) with
  | Ret (_, out) => (List.length out, List.length (@seen toy_group [2] out)) = (3%nat, 2%nat) /\
      map (@msg_MarshalBinary toy_group) (@seen toy_group [2] out) =
      map (@msg_MarshalBinary toy_group) (@sim_messages toy_group 1 k3 [2] (qof 101) (fun _ => qof 305) (qof 103))
  | _ => False
  end.
Proof.
  split; [solve_valid|]. split; [intros i [<-|[] ]; cbn; auto|]. split; [reflexivity|]. split; [solve_valid|]. vm_compute. split; reflexivity.
Qed.
(** Two States of party 1 with different randomness, in the same history: a run that succeeds with one set of messages... *)
Example C57_control_flow_example :
  match tk_new k3 1 1 0, @NewKeygenState toy_group toy_hash (toy_rng 7) 0 0 1 k3 1 with
  | Ret s, Ret s' =>
    match @run toy_group tkround tkg s (good_history 1), @run toy_group tkround tkg s' (good_history 1) with
    | Ret (a, out), Ret (a', out') => (st_done a, st_err a, st_done a', st_err a', map (fun m => (m_Type m, m_To m)) out, map (fun m => (m_Type m, m_To m)) out') =
        (true, None, true, None, [(MTKeyGen1, 0); (MTKeyGen2, 2); (MTKeyGen2, 3)], [(MTKeyGen1, 0); (MTKeyGen2, 2); (MTKeyGen2, 3)]) /\
        map (fun m => option_map (fun b => fz (k2_Share b)) (m_KeyGen2 m)) out <> map (fun m => option_map (fun b => fz (k2_Share b)) (m_KeyGen2 m)) out'
    | _, _ => False
    end
  | _, _ => False
  end.
Proof. vm_compute. split; [reflexivity|discriminate]. Qed.

Print Assumptions C57_simulation.
Print Assumptions C57_fewer.
Print Assumptions C57_inputs.
Print Assumptions C57_control_flow.
