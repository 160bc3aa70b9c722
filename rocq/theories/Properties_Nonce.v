(** C58: a signature share can be simulated without the key share when the hash is programmable.
    C59: three shares made with the same nonces give the key share away. *)
From Coq Require Import ZArith Lia List Bool String Permutation Sorted Ring Field Setoid Morphisms.
From Coq.Strings Require Import Byte.
From stdpp Require Import base gmap list fin_maps.
From Verif Require Import ZField Primes Bytes Scalar Go Group ToyGroup Party Poly PolyFacts Zk Eddsa Messages State StateFacts Spec_State
  Keygen Sign RoundFacts Lift Spec_Poly PolyAlg Spec_Group Spec_Wire Spec_Sign Spec_SignRun Spec_Keygen SignFacts SignRun KeygenFacts KeygenRun
  CodecFacts Properties_Algebra Properties_Codec Properties_Sign Properties_Keygen Properties_Random Properties_Secrecy ToyRuns.
Import ListNotations.
Local Open Scope Z_scope.

Local Opaque SetScalarRandom.

(** * A programmed hash function *)
Definition digest_of (s : Fq) : list byte := le_bytes 64 (fz s).
(** [H], except that [u] is mapped to the scalar [r] and [v] to the scalar [c]. *)
Definition programmed (H : hash_fn) (u v : list byte) (r c : Fq) : hash_fn :=
  fun b => if List.list_eq_dec Byte.byte_eq_dec b u then digest_of r else if List.list_eq_dec Byte.byte_eq_dec b v then digest_of c else H b.

Lemma programmed_ok H u v r c : hash_ok H -> hash_ok (programmed H u v r c).
Proof. intros HH b. unfold sha512, programmed. destruct (List.list_eq_dec _ b u); [apply le_bytes_length|]. destruct (List.list_eq_dec _ b v); [apply le_bytes_length|apply HH]. Qed.
Lemma digest_val s : qof (le_val (digest_of s)) = s.
Proof.
  unfold digest_of. pose proof (fz_Fq_range s) as Hr. assert (0 <= fz s < 2 ^ 512) as Hr' by (pose proof q_lt_512; lia).
  rewrite le_val_le_bytes, pow512, Z.mod_small by auto. apply fof_fz.
Qed.
Lemma programmed_u H u v r c : @hash_scalar (programmed H u v r c) u = r.
Proof. unfold hash_scalar, sha512, programmed. destruct (List.list_eq_dec _ u u); [apply digest_val|contradiction]. Qed.
Lemma programmed_v H u v r c : v <> u -> @hash_scalar (programmed H u v r c) v = c.
Proof. intros N. unfold hash_scalar, sha512, programmed. destruct (List.list_eq_dec _ v u); [contradiction|]. destruct (List.list_eq_dec _ v v); [apply digest_val|contradiction]. Qed.
Lemma programmed_other (H : hash_fn) u v r c b : b <> u -> b <> v -> @sha512 (programmed H u v r c) b = @sha512 H b.
Proof. intros Nu Nv. unfold sha512, programmed. destruct (List.list_eq_dec _ b u); [contradiction|]. destruct (List.list_eq_dec _ b v); [contradiction|reflexivity]. Qed.

(** * The simulator: no secret share *)
Section Simulator.
  Context `{Gr : group_ops} (H : hash_fn).
  Context (self : Z) (ids : list Z) (A Y : G) (message : list byte) (peer : Z -> G * G).
  (** The simulator chooses the share, the second nonce and what the hash will answer. *)
  Context (z e rho c : Fq).
  Definition sim_E : G := gbmul e.
  Definition sim_D : G := gsub (gsub (gbmul z) (gsmul rho sim_E)) (gsmul c (gsmul (lagrange_spec self ids) A)).
  Definition sim_list : commitment_list := map (fun i => (i, if i =? self then (sim_D, sim_E) else peer i)) ids.
  Definition rho_input (i : Z) : list byte := list_byte_of_string "FROST-SHA512" ++ [hi i; lo i] ++ @sha512 H message ++ enc_list sim_list.
  Definition sim_R : G := Gsum (map (fun x => gadd (fst (snd x)) (gsmul (if fst x =? self then rho else @hash_scalar H (rho_input (fst x))) (snd (snd x)))) sim_list).
  Definition chal_input : list byte := gencEd sim_R ++ gencEd Y ++ message.
  (** The hash programmed at its two points, and the messages. *)
  Definition sim_hash : hash_fn := programmed H (rho_input self) chal_input rho c.
  Definition sim_transcript : list Message := [NewSign1 self sim_D sim_E; NewSign2 self z].
End Simulator.

Section Simulation.
  Context `{L : group_laws} (H : hash_fn) (HH : hash_ok H).
  Context (rg : rng) (now timeout : Z) (ids : list Z) (secret : SecretShare) (shares : Public) (message : list byte) (s0 : State sround).
  Notation self := (sh_ID secret).
  Notation gk := (pub_GroupKey shares).
  Notation lambda := (lagrange_spec self ids).
  Context (A : G) (peer : Z -> G * G) (z e rho c : Fq).
  Notation H' := (sim_hash H self ids A gk message peer z e rho c).
  Notation u := (rho_input H self ids A message peer z e rho c).
  Notation v := (chal_input H self ids A gk message peer z e rho c).
  Context (NEW : @NewSignState _ H' rg now timeout ids secret shares message = Ret s0).
  Context (ND : List.NoDup ids) (HU : Forall is_u16 ids).
  (** [A] is our public key share. *)
  Context (HA : geq A (gbmul (sh_Secret secret))).
  (** The two programmed points are not among the other inputs of the hash. *)
  Context (N1 : message <> u self) (N2 : forall i, In i ids -> v <> u i).
  (** The nonces that go with the simulator's choice. *)
  Context (Hd : SetScalarRandom rg 0 = (z - rho * e - c * (lambda * sh_Secret secret))%Fq) (He : SetScalarRandom rg 1 = e).
  (** The others are consistent in their commitments. *)
  Context (es : list event) (Hpeer : forall m D E, given es m -> m_From m <> self -> m_Type m = MTSign1 -> m_Sign1 m = Some (mkSign1 D E) ->
    geq D (fst (peer (m_From m))) /\ geq E (snd (peer (m_From m)))).
  Context (s : State sround) (out : list Message) (RUN : run (@sign_round _ H') s0 es = Ret (s, out)).

  Lemma sim_D_real : geq (gbmul (SetScalarRandom rg 0)) (sim_D self ids A z e rho c).
  Proof. unfold sim_D, sim_E. rewrite HA, Hd. rewrite !gb_smul, !gb_sub. apply gb_inj. ring. Qed.
  Definition same_entry (x y : Z * (G * G)) : Prop := fst x = fst y /\ geq (fst (snd x)) (fst (snd y)) /\ geq (snd (snd x)) (snd (snd y)).
  Lemma same_list cl : commitments_of es ids self (SetScalarRandom rg 0) (SetScalarRandom rg 1) cl -> Forall2 same_entry cl (sim_list self ids A peer z e rho c).
  Proof.
    intros [B1 B2 B3]. unfold sim_list. rewrite <- B1.
    assert (forall l, incl l cl -> Forall2 same_entry l (map (fun i => (i, if i =? self then (sim_D self (map fst cl) A z e rho c, sim_E e) else peer i)) (map fst l))) as X.
    { induction l as [|[i [D E] ] l IH]; intros Hl; cbn [map]; constructor; [|apply IH; intros y Hy; apply Hl; now right].
      assert (In (i, (D, E)) cl) as Hin by (apply Hl; now left). split; [reflexivity|]. cbn [fst snd]. destruct (Z.eqb_spec i self) as [->|Hne]; cbn [fst snd].
      - destruct (B2 _ _ Hin) as [-> ->]. rewrite B1. split; [exact sim_D_real|]. unfold sim_E. now rewrite He.
      - destruct (B3 i D E Hin Hne) as (m & Hg & Hf & Ht & Hb & _). subst i. apply (Hpeer m D E); auto. }
    apply X, incl_refl.
  Qed.
  Lemma same_enc (cl cl' : commitment_list) : Forall2 same_entry cl cl' -> enc_list cl = enc_list cl'.
  Proof.
    unfold enc_list. induction 1 as [|x y l l' (E1 & E2 & E3) _ IH]; cbn [map List.concat]; [reflexivity|]. rewrite E1, E2, E3. f_equal. exact IH.
  Qed.
  Lemma message_hash : @sha512 H' message = @sha512 H message.
  Proof.
    apply programmed_other; [exact N1|]. intros E. apply (f_equal (@List.length byte)) in E. unfold chal_input in E. rewrite !app_length, !gencEd_len in E. lia.
  Qed.
  Lemma rho_input_inj i j : is_u16 i -> is_u16 j -> u i = u j -> i = j.
  Proof.
    intros Hi Hj E. unfold rho_input in E. apply app_inv_head in E. cbn [app] in E. injection E as E1 E2.
    apply (f_equal b2z) in E1. apply (f_equal b2z) in E2. unfold hi in E1. unfold lo in E2. rewrite !b2z_z2b in E1, E2. unfold is_u16 in *.
    assert (0 <= i / 256 < 256 /\ 0 <= j / 256 < 256) as [B1 B2] by (split; split; try (apply Z.div_pos; lia); apply Z.div_lt_upper_bound; lia).
    rewrite !Z.mod_small in E1 by auto. rewrite !Z.mod_mod in E2 by lia. rewrite (Z.div_mod i 256), (Z.div_mod j 256) by lia. lia.
  Qed.
  Lemma self_in_ids : In self ids.
  Proof. eapply (@self_in' _ _ H' (programmed_ok _ _ _ _ _ HH)); eauto. Qed.
  Lemma binding_prog cl i : Forall2 same_entry cl (sim_list self ids A peer z e rho c) -> In i ids ->
    @binding _ H' message cl i = if i =? self then rho else @hash_scalar H (u i).
  Proof.
    intros HE Hi. unfold binding. rewrite (same_enc _ _ HE), message_hash. fold (u i). destruct (Z.eqb_spec i self) as [->|Hne].
    - apply programmed_u.
    - unfold hash_scalar. unfold sim_hash. rewrite programmed_other; [reflexivity| |].
      + intros E. apply Hne. pose proof self_in_ids as Hs. pose proof (proj1 (Forall_forall _ _) HU) as HU'. apply rho_input_inj; auto; apply HU'; now apply elem_of_list_In.
      + intros E. apply (N2 i Hi). now symmetry.
  Qed.
  Lemma nonce_prog cl : Forall2 same_entry cl (sim_list self ids A peer z e rho c) ->
    geq (@group_nonce _ H' message cl) (sim_R H self ids A message peer z e rho c).
  Proof.
    intros HE. unfold group_nonce, sim_R.
    assert (forall l l', Forall2 same_entry l l' -> (forall x, In x l -> In (fst x) ids) ->
      geq (Gsum (map (@nonce_point _ H' message cl) l)) (Gsum (map (fun x => gadd (fst (snd x)) (gsmul (if fst x =? self then rho else @hash_scalar H (u (fst x))) (snd (snd x)))) l'))) as X.
    { induction 1 as [|x y l l' (E1 & E2 & E3) HF IH]; intros Hl; [reflexivity|]. cbn [map Gsum fold_right]. apply gadd_proper; [|apply IH; intros w Hw; apply Hl; now right].
      unfold nonce_point. rewrite binding_prog by (auto; apply Hl; now left). rewrite <- E1. now rewrite E2, E3. }
    apply X; [exact HE|]. intros x Hx.
    assert (map fst cl = ids) as E. { transitivity (map fst (sim_list self ids A peer z e rho c)).
      - clear - HE. induction HE as [|a b l l' (E & _) _ IH]; cbn [map]; [reflexivity|]. now rewrite E, IH.
      - unfold sim_list. rewrite map_map. cbn [fst]. apply map_id. }
    rewrite <- E. now apply in_map.
  Qed.
  Lemma sign1_bytes_geq D D' E E' : geq D D' -> geq E E' -> msg_MarshalBinary (NewSign1 self D E) = msg_MarshalBinary (NewSign1 self D' E').
  Proof.
    intros HD HE. unfold msg_MarshalBinary. change (m_Header (NewSign1 self D E)) with (m_Header (NewSign1 self D' E')). destruct (header_bytes _); cbn [obind]; auto.
    change (m_Type (NewSign1 self D E)) with MTSign1. change (m_Type (NewSign1 self D' E')) with MTSign1. cbn [MTKeyGen1 MTKeyGen2 MTSign1 Z.eqb Pos.eqb NewSign1 m_Sign1 option_map]. cbv iota.
    unfold s1_bytes. cbn [s1_Di s1_Ei]. now rewrite HD, HE.
  Qed.

  (** A party's messages are those of the simulator, byte for byte, whatever the simulator has chosen. *)
  Theorem C58_simulation : exists n, map msg_MarshalBinary out = firstn n (map msg_MarshalBinary (sim_transcript self ids A z e rho c)).
  Proof.
    pose proof (programmed_ok H (u self) v rho c HH) as HH'.
    assert (msg_MarshalBinary (NewSign1 self (gbmul (SetScalarRandom rg 0)) (gbmul (SetScalarRandom rg 1))) = msg_MarshalBinary (NewSign1 self (sim_D self ids A z e rho c) (sim_E e))) as E1.
    { apply sign1_bytes_geq; [exact sim_D_real|]. unfold sim_E. now rewrite He. }
    destruct (@C14_same_nonces _ _ H' HH' rg now timeout ids secret shares message s0 NEW ND HU es s out RUN) as [EO|[EO|(cl & HC & EO)] ]; rewrite EO.
    - exists 0%nat. reflexivity.
    - exists 1%nat. cbn [map firstn sim_transcript]. now rewrite E1.
    - exists 2%nat. cbn [map firstn sim_transcript]. rewrite E1. do 5 f_equal. pose proof (same_list cl HC) as HE. unfold sig_share.
      rewrite (binding_prog cl self HE self_in_ids), Z.eqb_refl.
      assert (@chal _ H' (@group_nonce _ H' message cl) gk message = c) as ->.
      { unfold chal. rewrite (nonce_prog cl HE). apply (programmed_v H (u self) v rho c). apply N2. exact self_in_ids. }
      rewrite Hd, He. ring.
  Qed.
End Simulation.

(** For every choice of the simulator there is exactly one pair of nonces, and it can be read from the random source: so z, e are
    as good as the party's own nonces, and c, rho as good as hash values. *)
Theorem C58_inputs : forall z e rho c lambda s : Fq,
  (exists rg : rng, SetScalarRandom rg 0 = (z - rho * e - c * (lambda * s))%Fq /\ SetScalarRandom rg 1 = e) /\
  (forall d, (d + e * rho + lambda * s * c)%Fq = z <-> d = (z - rho * e - c * (lambda * s))%Fq).
Proof.
  intros z e rho c lambda s. split.
  - destruct (any_scalars [(z - rho * e - c * (lambda * s))%Fq; e]) as (rg & Hrg). exists rg. split; [apply (Hrg 0%nat)|apply (Hrg 1%nat)]; cbn; lia.
  - intros d. split; [intros <-|intros ->]; ring.
Qed.
(** The programmed function is a hash function that differs from the given one at two points only. *)
Theorem C58_programmed : forall (H : hash_fn) u v r c, hash_ok H ->
  hash_ok (programmed H u v r c) /\ @hash_scalar (programmed H u v r c) u = r /\ (v <> u -> @hash_scalar (programmed H u v r c) v = c) /\
  forall b, b <> u -> b <> v -> @sha512 (programmed H u v r c) b = @sha512 H b.
Proof.
  intros H u v r c HH. split; [now apply programmed_ok|]. split; [apply programmed_u|]. split; [apply programmed_v|]. intros b. apply programmed_other.
Qed.

(** * The same nonces three times *)
Section Reuse.
  Context `{L : group_laws} `{Hf : hash_fn} (HH : hash_ok Hf).
  (** What an observer of a signing session knows of one signer: the signers, the key, the message, the signer's commitments and
      share, and the commitments the others gave it. *)
  Record view := mkView { v_ids : list Z; v_key : G; v_message : list byte; v_D : G; v_E : G; v_peer : Z -> G * G; v_z : Fq }.
  Definition v_list (self : Z) (v : view) : commitment_list := map (fun i => (i, if i =? self then (v_D v, v_E v) else v_peer v i)) (v_ids v).
  Definition v_rho (self : Z) (v : view) : Fq := binding (v_message v) (v_list self v) self.
  Definition v_factor (self : Z) (v : view) : Fq := (lagrange_spec self (v_ids v) * chal (group_nonce (v_message v) (v_list self v)) (v_key v) (v_message v))%Fq.
  (** The view belongs to a run of a State of the owner of [secret], with the random source [rg]. *)
  Definition view_of (secret : SecretShare) (rg : rng) (v : view) : Prop :=
    exists now timeout shares s0 es s, NewSignState rg now timeout (v_ids v) secret shares (v_message v) = Ret s0 /\ pub_GroupKey shares = v_key v /\
      List.NoDup (v_ids v) /\ Forall is_u16 (v_ids v) /\
      (forall m D E, given es m -> m_From m <> sh_ID secret -> m_Type m = MTSign1 -> m_Sign1 m = Some (mkSign1 D E) ->
        geq D (fst (v_peer v (m_From m))) /\ geq E (snd (v_peer v (m_From m)))) /\
      run sign_round s0 es = Ret (s, [NewSign1 (sh_ID secret) (v_D v) (v_E v); NewSign2 (sh_ID secret) (v_z v)]).

  Lemma same_list_v self cl v es d e : v_D v = gbmul d -> v_E v = gbmul e ->
    (forall m D E, given es m -> m_From m <> self -> m_Type m = MTSign1 -> m_Sign1 m = Some (mkSign1 D E) -> geq D (fst (v_peer v (m_From m))) /\ geq E (snd (v_peer v (m_From m)))) ->
    commitments_of es (v_ids v) self d e cl -> Forall2 same_entry cl (v_list self v).
  Proof.
    intros HD HE Hp [B1 B2 B3]. unfold v_list. rewrite <- B1.
    assert (forall l, incl l cl -> Forall2 same_entry l (map (fun i => (i, if i =? self then (v_D v, v_E v) else v_peer v i)) (map fst l))) as X.
    { induction l as [|[i [D E] ] l IH]; intros Hl; cbn [map]; constructor; [|apply IH; intros y Hy; apply Hl; now right].
      assert (In (i, (D, E)) cl) as Hin by (apply Hl; now left). split; [reflexivity|]. cbn [fst snd]. destruct (Z.eqb_spec i self) as [->|Hne]; cbn [fst snd].
      - destruct (B2 _ _ Hin) as [-> ->]. rewrite HD, HE. split; reflexivity.
      - destruct (B3 i D E Hin Hne) as (m & Hg & Hf' & Ht & Hb & _). subst i. apply (Hp m D E); auto. }
    apply X, incl_refl.
  Qed.
  Lemma same_enc_list (cl cl' : commitment_list) : Forall2 same_entry cl cl' -> enc_list cl = enc_list cl'.
  Proof.
    unfold enc_list. induction 1 as [|x y l l' (E1 & E2 & E3) _ IH]; cbn [map List.concat]; [reflexivity|]. rewrite E1, E2, E3. f_equal. exact IH.
  Qed.
  Lemma same_binding m (cl cl' : commitment_list) i : Forall2 same_entry cl cl' -> binding m cl i = binding m cl' i.
  Proof. intros H. unfold binding. now rewrite (same_enc_list _ _ H). Qed.
  Lemma same_nonce m (cl cl' : commitment_list) : Forall2 same_entry cl cl' -> geq (group_nonce m cl) (group_nonce m cl').
  Proof.
    intros HE. unfold group_nonce.
    assert (forall l l', Forall2 same_entry l l' -> geq (Gsum (map (nonce_point m cl) l)) (Gsum (map (nonce_point m cl') l'))) as X.
    { induction 1 as [|x y l l' (E1 & E2 & E3) _ IH]; [reflexivity|]. cbn [map Gsum fold_right]. apply gadd_proper; [|exact IH].
      unfold nonce_point. rewrite E1, (same_binding m cl cl' (fst y) HE). now rewrite E2, E3. }
    now apply X.
  Qed.
  (** The share in terms of what the observer knows. *)
  Theorem C59_equation : forall secret rg v, view_of secret rg v ->
    v_D v = gbmul (SetScalarRandom rg 0) /\ v_E v = gbmul (SetScalarRandom rg 1) /\
    v_z v = (SetScalarRandom rg 0 + SetScalarRandom rg 1 * v_rho (sh_ID secret) v + sh_Secret secret * v_factor (sh_ID secret) v)%Fq.
  Proof.
    intros secret rg v (now & timeout & shares & s0 & es & s & NEW & HK & ND & HU & Hp & RUN).
    destruct (C14_same_nonces HH rg now timeout (v_ids v) secret shares (v_message v) s0 NEW ND HU es s _ RUN) as [E|[E|(cl & HC & E)] ]; try discriminate.
    injection E as ED EE EZ. split; [exact ED|]. split; [exact EE|]. rewrite EZ. pose proof (same_list_v (sh_ID secret) cl v es _ _ ED EE Hp HC) as HS.
    unfold sig_share, v_rho, v_factor. rewrite (same_binding _ _ _ (sh_ID secret) HS), HK. unfold chal. rewrite (same_nonce _ _ _ HS). ring.
  Qed.
  Definition determinant (r1 r2 r3 g1 g2 g3 : Fq) : Fq := ((r2 - r1) * (g3 - g1) - (r3 - r1) * (g2 - g1))%Fq.
  (** Three sessions whose random sources start with the same two scalars: the share is computed from the views. *)
  Theorem C59_recover : forall secret rg1 rg2 rg3 v1 v2 v3, view_of secret rg1 v1 -> view_of secret rg2 v2 -> view_of secret rg3 v3 ->
    (forall k, (k < 2)%nat -> SetScalarRandom rg2 k = SetScalarRandom rg1 k /\ SetScalarRandom rg3 k = SetScalarRandom rg1 k) ->
    let r := v_rho (sh_ID secret) in let g := v_factor (sh_ID secret) in
    let D := determinant (r v1) (r v2) (r v3) (g v1) (g v2) (g v3) in
    D <> f0 -> sh_Secret secret = (((r v2 - r v1) * (v_z v3 - v_z v1) - (r v3 - r v1) * (v_z v2 - v_z v1)) / D)%Fq.
  Proof.
    intros secret rg1 rg2 rg3 v1 v2 v3 H1 H2 H3 HR r g D HD.
    destruct (C59_equation _ _ _ H1) as (_ & _ & E1). destruct (C59_equation _ _ _ H2) as (_ & _ & E2). destruct (C59_equation _ _ _ H3) as (_ & _ & E3).
    destruct (HR 0%nat) as [-> ->] in E2, E3; [lia|]. destruct (HR 1%nat) as [-> ->] in E2, E3; [lia|].
    fold (r v1) (g v1) in E1. fold (r v2) (g v2) in E2. fold (r v3) (g v3) in E3. rewrite E1, E2, E3. unfold D, determinant in *. field. exact HD.
  Qed.
  (** One session is enough when the nonces are known. *)
  Theorem C59_known_nonces : forall secret rg v, view_of secret rg v -> v_factor (sh_ID secret) v <> f0 ->
    sh_Secret secret = ((v_z v - SetScalarRandom rg 0 - SetScalarRandom rg 1 * v_rho (sh_ID secret) v) / v_factor (sh_ID secret) v)%Fq.
  Proof. intros secret rg v H HF. destruct (C59_equation _ _ _ H) as (_ & _ & ->). field. exact HF. Qed.
  (** Two sessions are not: with different binding factors every share fits, with nonces that some random source yields. *)
  Theorem C59_two_are_not_enough : forall self v1 v2 (s' : Fq), v_rho self v1 <> v_rho self v2 -> exists rg : rng,
    forall v, v = v1 \/ v = v2 -> v_z v = (SetScalarRandom rg 0 + SetScalarRandom rg 1 * v_rho self v + s' * v_factor self v)%Fq.
  Proof.
    intros self v1 v2 s' HN. set (r1 := v_rho self v1) in *. set (r2 := v_rho self v2) in *.
    assert (r1 - r2 <> f0)%Fq as HD. { intros E. apply HN. transitivity (r1 - r2 + r2)%Fq; [ring|]. rewrite E. ring. }
    set (w1 := (v_z v1 - s' * v_factor self v1)%Fq). set (w2 := (v_z v2 - s' * v_factor self v2)%Fq). set (e := ((w1 - w2) / (r1 - r2))%Fq).
    destruct (any_scalars [(w1 - e * r1)%Fq; e]) as (rg & Hrg). exists rg. rewrite (Hrg 0%nat), (Hrg 1%nat) by (cbn; lia). cbn [nth].
    intros v [-> | ->]; fold r1 r2.
    - unfold w1. ring.
    - transitivity (w2 + s' * v_factor self v2)%Fq; [unfold w2; ring|]. f_equal. unfold e. field. exact HD.
  Qed.
End Reuse.

(** * Concrete cases *)
(** Party 1 of the toy key signs with party 3; the simulator chooses z = 1234, e = 77, rho = 5, c = 9. *)
Definition n_peer : Z -> @G toy_group * @G toy_group := fun _ => (qof 301, qof 302).
Definition n_hash : hash_fn := @sim_hash toy_group toy_hash 1 s13 (qof 8) (qof 5) t_message n_peer (qof 1234) (qof 77) (qof 5) (qof 9).
Definition n_rng : rng := fun i => match i with 0%nat => fz (qof 1234 - qof 5 * qof 77 - qof 9 * (lagrange_spec 1 s13 * qof 8))%Fq | _ => 77 end.
Definition n_history : list (@event toy_group) := [prc; @EHandle toy_group 0 (@NewSign1 toy_group 3 (qof 301) (qof 302)); prc].
Definition n_run : list tmsg :=
  ts_out (obind (@NewSignState toy_group n_hash n_rng 0 0 s13 (t_secret 1) t_public t_message) (fun s => @run toy_group tsround (@sign_round toy_group n_hash) s n_history)).
Example C58_example :
  map (@msg_MarshalBinary toy_group) n_run = map (@msg_MarshalBinary toy_group) (@sim_transcript toy_group 1 s13 (qof 8) (qof 1234) (qof 77) (qof 5) (qof 9)) /\
  List.length n_run = 2%nat.
Proof. split; vm_compute; reflexivity. Qed.
(** The hypotheses: the programmed points differ from the other inputs. *)
Example C58_hypotheses :
  let u := @rho_input toy_group toy_hash 1 s13 (qof 8) t_message n_peer (qof 1234) (qof 77) (qof 5) (qof 9) in
  let v := @chal_input toy_group toy_hash 1 s13 (qof 8) (qof 5) t_message n_peer (qof 1234) (qof 77) (qof 5) (qof 9) in
  (if List.list_eq_dec Byte.byte_eq_dec t_message (u 1) then false else true) = true /\
  forallb (fun i => if List.list_eq_dec Byte.byte_eq_dec v (u i) then false else true) s13 = true.
Proof. split; vm_compute; reflexivity. Qed.

(** Party 1 signs three messages with the same random source. *)
Definition r_new (m : list byte) := @NewSignState toy_group toy_hash (toy_rng 1) 0 0 s13 (t_secret 1) t_public m.
Definition r_out (m : list byte) : list tmsg := ts_out (ts_run (r_new m) n_history).
Definition r_view (m : list byte) : @view toy_group :=
  @mkView toy_group s13 (qof 5) m (@gbmul toy_group (SetScalarRandom (toy_rng 1) 0)) (@gbmul toy_group (SetScalarRandom (toy_rng 1) 1)) n_peer
    match r_out m with [_; m2] => match m_Sign2 m2 with Some z => s2_Zi z | None => f0 end | _ => f0 end.
Lemma r_view_of m : List.length (r_out m) = 2%nat -> @view_of toy_group toy_hash (t_secret 1) (toy_rng 1) (r_view m).
Proof.
  intros HL. unfold r_out, ts_run in HL.
  destruct (r_new m) as [s0|e|e] eqn:E0; cbn [obind] in HL; try discriminate HL.
  destruct (@run toy_group tsround tsg s0 n_history) as [[s out]|e|e] eqn:E1; cbn [ts_out] in HL; try discriminate HL.
  exists 0, 0, t_public, s0, n_history, s. cbn [v_ids v_message v_key v_D v_E v_peer v_z r_view].
  assert (List.NoDup s13) as ND by (repeat constructor; cbn; lia). assert (Forall is_u16 s13) as HU by (repeat constructor; unfold is_u16; lia).
  split; [exact E0|]. split; [reflexivity|]. split; [exact ND|]. split; [exact HU|]. split.
  - intros mm D E Hg Hf Ht Hb. assert (mm = @NewSign1 toy_group 3 (qof 301) (qof 302)) as ->. { destruct Hg as (t & [X|[X|[X|[] ] ] ]); try discriminate X. congruence. }
    cbn [NewSign1 m_Sign1] in Hb. assert (D = qof 301 /\ E = qof 302) as [-> ->] by (split; congruence). split; reflexivity.
  - assert (r_out m = out) as EO by (unfold r_out, ts_run; rewrite E0; cbn [obind]; rewrite E1; reflexivity).
    destruct (@C14_same_nonces _ toy_laws toy_hash toy_hash_ok (toy_rng 1) 0 0 s13 (t_secret 1) t_public m s0 E0 ND HU n_history s out E1) as [X|[X|(cl & _ & X)] ]; try (rewrite X in HL; discriminate HL).
    rewrite EO. etransitivity; [exact E1|]. rewrite X. reflexivity.
Qed.
Example C59_example :
  let v1 := r_view [x61] in let v2 := r_view [x62] in let v3 := r_view [x63] in
  let r := @v_rho toy_group toy_hash 1 in let g := @v_factor toy_group toy_hash 1 in
  let D := determinant (r v1) (r v2) (r v3) (g v1) (g v2) (g v3) in
  map (fun m => List.length (r_out m)) [[x61]; [x62]; [x63] ] = [2; 2; 2]%nat /\ (fz D =? 0) = false /\
  fz (((r v2 - r v1) * (v_z v3 - v_z v1) - (r v3 - r v1) * (v_z v2 - v_z v1)) / D)%Fq = 8 /\ fz (sh_Secret (t_secret 1)) = 8 /\
  (fz (r v1) =? fz (r v2)) = false.
Proof. repeat split; vm_compute; reflexivity. Qed.

Print Assumptions C58_simulation.
Print Assumptions C58_inputs.
Print Assumptions C58_programmed.
Print Assumptions C59_equation.
Print Assumptions C59_recover.
Print Assumptions C59_known_nonces.
Print Assumptions C59_two_are_not_enough.
