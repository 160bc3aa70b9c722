(** C67: whoever answers two challenges for one nonce knows the secret: the key from two signatures (also from a forger run twice), a
    key share from two signature shares, the group's secret from t+1 key shares. *)
From Coq Require Import ZArith Lia List Bool String Permutation Sorted Ring Field Setoid Morphisms.
From Coq.Strings Require Import Byte.
From stdpp Require Import base gmap list fin_maps.
From Verif Require Import ZField Primes Bytes Scalar Go Group ToyGroup Party Poly PolyFacts Zk Eddsa Messages State StateFacts Spec_State
  Keygen Sign RoundFacts Lift Spec_Poly PolyAlg Spec_Group Spec_Wire Spec_Sign Spec_SignRun Spec_Keygen SignFacts SignRun KeygenFacts KeygenRun
  CodecFacts Fp Ed25519 Ristretto RistrettoGroup Properties_Algebra Properties_Codec Properties_Sign Properties_Keygen Properties_Secrecy Properties_Nonce Properties_Agree Properties_Ed25519 ToyRuns.
Import ListNotations.
Local Open Scope Z_scope.

Local Opaque SetScalarRandom.

(** The secret computed from two answers and two challenges. *)
Definition extract (z z' k k' : Fq) : Fq := ((z - z') / (k - k'))%Fq.

Section Extract.
  Context `{L : group_laws}.

  (** [z]B = R + [k]A and [z']B = R + [k']A. *)
  Theorem C67_extract : forall A R z z' k k', geq (gbmul z) (gadd R (gsmul k A)) -> geq (gbmul z') (gadd R (gsmul k' A)) -> k <> k' ->
    geq A (gbmul (extract z z' k k')) /\ forall a, geq A (gbmul a) -> a = extract z z' k k'.
  Proof.
    intros A R z z' k k' E E' N. destruct (gbase_gen A) as [a Ea]. destruct (gbase_gen R) as [r Er]. change (gsmul a gbase) with (gbmul a) in Ea. change (gsmul r gbase) with (gbmul r) in Er.
    rewrite Ea, Er in E, E'. rewrite gb_smul, gb_add in E, E'. apply gb_inj in E, E'.
    assert ((k - k')%Fq <> 0%Fq) as N'. { intros X. apply N. transitivity (k - k' + k')%Fq; [ring|]. rewrite X. ring. }
    assert (a = extract z z' k k') as Ex. { unfold extract. rewrite E, E'. field. exact N'. }
    split; [now rewrite Ea, Ex|]. intros b Hb. rewrite Ea in Hb. apply gb_inj in Hb. congruence.
  Qed.

  (** Two valid signatures with the same first half, under whatever hash functions. *)
  Theorem C67_signatures : forall (H H' : hash_fn), hash_ok H -> hash_ok H' -> forall Y m m' s s',
    @Verify _ H Y m s = true -> @Verify _ H' Y m' s' = true -> geq (sig_R s) (sig_R s') ->
    @chal _ H (sig_R s) Y m <> @chal _ H' (sig_R s') Y m' ->
    geq Y (gbmul (extract (sig_S s) (sig_S s') (@chal _ H (sig_R s) Y m) (@chal _ H' (sig_R s') Y m'))).
  Proof.
    intros H H' HH HH' Y m m' s s' V V' HR N. apply (Verify_iff HH) in V. apply (Verify_iff HH') in V'. unfold schnorr_valid in V, V'.
    rewrite <- HR in V' at 1. exact (proj1 (C67_extract Y (sig_R s) _ _ _ _ V V' N)).
  Qed.

  (** A forger, as a function of the hash function it may call, run once with [H] and once with [H] changed at the input of the
      challenge of its own forgery: if it answers for the same message and the same first half, the secret key is computed from the
      two answers. *)
  Definition reprogram (H : hash_fn) (v : list byte) (c : Fq) : hash_fn := programmed H v v c c.
  Lemma reprogram_at H v c : @hash_scalar (reprogram H v c) v = c.
  Proof. apply programmed_u. Qed.
  Theorem C67_forger : forall (forger : hash_fn -> list byte * Signature) (H : hash_fn) Y c', hash_ok H ->
    let m := fst (forger H) in let s := snd (forger H) in
    let v := gencEd (sig_R s) ++ gencEd Y ++ m in
    let H' := reprogram H v c' in let m' := fst (forger H') in let s' := snd (forger H') in
    @Verify _ H Y m s = true -> @Verify _ H' Y m' s' = true -> m' = m -> geq (sig_R s') (sig_R s) -> c' <> @hash_scalar H v ->
    geq Y (gbmul (extract (sig_S s) (sig_S s') (@hash_scalar H v) c')) /\
    (forall b, b <> v -> @sha512 H' b = @sha512 H b).
  Proof.
    intros forger H Y c' HH m s v H' m' s' V V' Em ER N.
    assert (@chal _ H' (sig_R s') Y m' = c') as Ec. { unfold chal. rewrite ER, Em. apply reprogram_at. }
    split.
    - rewrite <- Ec at 1. apply (C67_signatures H H' HH (programmed_ok _ _ _ _ _ HH) Y m m' s s' V V'); [now symmetry|]. rewrite Ec. intros X. apply N. now symmetry.
    - intros b Nb. now apply programmed_other.
  Qed.

  (** Signature shares: two signing runs that finish, at the same or at different honest parties, in which party [j] has used the
      same nonce point for different (weighted) challenges. *)
  Section Shares.
    Context (H H' : hash_fn) (HH : hash_ok H) (HH' : hash_ok H').
    Context (ids ids' : list Z) (message message' : list byte) (ND : List.NoDup ids) (HU : Forall is_u16 ids) (ND' : List.NoDup ids') (HU' : Forall is_u16 ids').
    Context (rg rg' : rng) (now now' t t' : Z) (sec sec' : SecretShare) (pub pub' : Public) (s0 s0' : State sround).
    Context (NEW : @NewSignState _ H rg now t ids sec pub message = Ret s0) (NEW' : @NewSignState _ H' rg' now' t' ids' sec' pub' message' = Ret s0').
    Context (es es' : list event) (s s' : State sround) (out out' : list Message).
    Context (RUN : run (@sign_round _ H) s0 es = Ret (s, out)) (RUN' : run (@sign_round _ H') s0' es' = Ret (s', out')).
    Theorem C67_shares : st_done s = true -> st_err s = None -> st_done s' = true -> st_err s' = None ->
      forall j A, In j ids -> In j ids' -> j <> sh_ID sec -> j <> sh_ID sec' -> pub_Shares pub !! j = Some A -> pub_Shares pub' !! j = Some A ->
      exists cl cl' z z' D E D' E',
        commitments_of es ids (sh_ID sec) (SetScalarRandom rg 0) (SetScalarRandom rg 1) cl /\ In (j, (D, E)) cl /\
        commitments_of es' ids' (sh_ID sec') (SetScalarRandom rg' 0) (SetScalarRandom rg' 1) cl' /\ In (j, (D', E')) cl' /\
        (exists m, given es m /\ m_From m = j /\ m_Type m = MTSign2 /\ m_Sign2 m = Some (mkSign2 z)) /\
        (exists m, given es' m /\ m_From m = j /\ m_Type m = MTSign2 /\ m_Sign2 m = Some (mkSign2 z')) /\
        let k := (@chal _ H (@group_nonce _ H message cl) (pub_GroupKey pub) message * lagrange_spec j ids)%Fq in
        let k' := (@chal _ H' (@group_nonce _ H' message' cl') (pub_GroupKey pub') message' * lagrange_spec j ids')%Fq in
        (geq (@nonce_point _ H message cl (j, (D, E))) (@nonce_point _ H' message' cl' (j, (D', E'))) -> k <> k' -> geq A (gbmul (extract z z' k k'))).
    Proof.
      intros Dn Er Dn' Er' j A Hj Hj' Nj Nj' EA EA'.
      destruct (@finished_view _ _ H HH ids message ND HU rg now t sec pub s0 NEW es s out RUN Dn Er) as (sg & cl & zs & _ & HV & _ & _ & _ & _ & Ez & Hz).
      destruct (@finished_view _ _ H' HH' ids' message' ND' HU' rg' now' t' sec' pub' s0' NEW' es' s' out' RUN' Dn' Er') as (sg' & cl' & zs' & _ & HV' & _ & _ & _ & _ & Ez' & Hz').
      pose proof Hj as Hc. rewrite <- (co_ids _ _ _ _ _ _ HV) in Hc. apply In_fst in Hc as [[D E] Hc].
      pose proof Hj' as Hc'. rewrite <- (co_ids _ _ _ _ _ _ HV') in Hc'. apply In_fst in Hc' as [[D' E'] Hc'].
      pose proof Hj as Hzj. rewrite <- Ez in Hzj. apply In_fst in Hzj as [z Hzj]. pose proof Hj' as Hzj'. rewrite <- Ez' in Hzj'. apply In_fst in Hzj' as [z' Hzj'].
      destruct (Hz j z Hzj Nj) as [Q1 M1]. destruct (Hz' j z' Hzj' Nj') as [Q2 M2]. specialize (Q1 D E Hc). specialize (Q2 D' E' Hc').
      exists cl, cl', z, z', D, E, D', E'. do 6 (split; [assumption|]). cbv zeta. intros HR N. unfold weighted in Q1, Q2. rewrite EA in Q1. rewrite EA' in Q2.
      rewrite <- gsmul_mul in Q1, Q2. rewrite <- HR in Q2. exact (proj1 (C67_extract A _ _ _ _ _ Q1 Q2 N)).
    Qed.
  End Shares.

  (** The discrete logarithms of as many public key shares as determine the polynomial give the group's secret. *)
  Theorem C67_group : forall (g : list Fq) (K : G) (pub : Z -> G) S (x : Z -> Fq), valid_ids S -> (List.length g <= List.length S)%nat ->
    geq K (gbmul (spoly g f0)) -> (forall i, In i S -> geq (pub i) (gbmul (spoly g (qof i)))) -> (forall i, In i S -> geq (pub i) (gbmul (x i))) ->
    geq K (gbmul (Fsum (map (fun i => fmul (lagrange_spec i S) (x i)) S))).
  Proof.
    intros g K pub Q x VS HL EK Hp Hx. rewrite EK. apply gb_inj. 
    assert (map (fun i => fmul (lagrange_spec i Q) (x i)) Q = map (fun i => fmul (lagrange_spec i Q) (spoly g (qof i))) Q) as ->.
    { apply map_ext_in. intros i Hi. f_equal. apply gb_inj. now rewrite <- Hx, <- Hp. }
    destruct (C25_interpolation_at_zero Q g VS HL) as (l & H1 & H2). rewrite <- H2. apply Fsum_ext_in. intros i Hi.
    assert (l i = lagrange_spec i Q) as E. { specialize (H1 i Hi). rewrite C25_lagrange_value in H1; [congruence|now apply valid_u16| |exact Hi]. pose proof (valid_in Q i VS Hi). lia. }
    now rewrite E.
  Qed.
End Extract.

(** For the keys this library prints and the standard verifier, at the level of bytes: two accepted signatures that begin with the
    same 32 bytes and have different challenges give the secret scalar of the key. *)
Local Existing Instance ristretto_group.
Local Existing Instance ristretto_laws.
Section Standard.
  Context `{Hf : hash_fn} (HH : hash_ok Hf).
Theorem C67_standard : forall (Y : PublicKey) m m' b b',
  ed25519_Verify (pk_ToEd25519 Y) m b = Ret true -> ed25519_Verify (pk_ToEd25519 Y) m' b' = Ret true -> firstn 32 b = firstn 32 b' ->
  hash_scalar (firstn 32 b ++ pk_ToEd25519 Y ++ m) <> hash_scalar (firstn 32 b' ++ pk_ToEd25519 Y ++ m') ->
  exists z z', scalar_set_canonical (skipn 32 b) = Some z /\ scalar_set_canonical (skipn 32 b') = Some z' /\
    geq Y (gbmul (extract z z' (hash_scalar (firstn 32 b ++ pk_ToEd25519 Y ++ m)) (hash_scalar (firstn 32 b' ++ pk_ToEd25519 Y ++ m')))).
Proof.
  intros Y m m' b b' V V' HF N. apply (C03_all_signatures HH Y m b) in V as (s & -> & V). apply (C03_all_signatures HH Y m' b') in V' as (s' & -> & V').
  destruct (sig_split s) as (F1 & F2 & _). destruct (sig_split s') as (F1' & F2' & _). rewrite F1, F1' in *. rewrite F2, F2'.
  exists (sig_S s), (sig_S s'). split; [apply scalar_canonical_bytes|]. split; [apply scalar_canonical_bytes|].
  apply (C67_signatures Hf Hf HH HH Y m m' s s' V V'); [|exact N]. apply gencEd_eq. exact HF.
Qed.

End Standard.

(** * Cases *)
Definition x_hash (c : Z) : hash_fn := @reprogram toy_hash (@gencEd toy_group (qof 7) ++ @gencEd toy_group (qof 5) ++ t_message) (qof c).
Example C67_forger_example :
  (* a forger that knows the key 5 *)
  let forger := fun H : hash_fn => (t_message, @mkSig toy_group (qof 7) (qof 7 + @chal toy_group H (qof 7) (qof 5) t_message * qof 5)%Fq) in
  let H := x_hash 11 in let H' := x_hash 29 in
  (@Verify toy_group H (qof 5) t_message (snd (forger H)), @Verify toy_group H' (qof 5) t_message (snd (forger H'))) = (true, true) /\
  fz (extract (sig_S (snd (forger H))) (sig_S (snd (forger H'))) (qof 11) (qof 29)) = 5.
Proof. split; vm_compute; reflexivity. Qed.

(** Party 1 runs the same session with party 3 twice; the second time the hash function answers the challenge differently. *)
Definition x_list : @commitment_list toy_group :=
  map (fun i => (i, (@gbmul toy_group (SetScalarRandom (toy_rng i) 0), @gbmul toy_group (SetScalarRandom (toy_rng i) 1)))) s13.
Definition x_chal : list byte := @gencEd toy_group (@group_nonce toy_group toy_hash t_message x_list) ++ @gencEd toy_group (qof 5) ++ t_message.
Definition x_new (H : hash_fn) (i : Z) := @NewSignState toy_group H (toy_rng i) 0 0 s13 (t_secret i) t_public t_message.
Definition x_run (H : hash_fn) (i : Z) (es : list (@event toy_group)) : outcome (tsstate * list tmsg) :=
  obind (x_new H i) (fun s => @run toy_group tsround (@sign_round toy_group H) s es).
Definition x_first (H : hash_fn) (i : Z) : list tmsg := ts_out (x_run H i [prc]).
Definition x_second (H : hash_fn) (i : Z) : list tmsg := skipn 1 (ts_out (x_run H i (prc :: hnd (concat (map (x_first H) s13)) ++ [prc]))).
Definition x_history (H : hash_fn) : list (@event toy_group) :=
  prc :: hnd (concat (map (x_first H) s13)) ++ prc :: hnd (concat (map (x_second H) s13)) ++ [prc].
Definition x_z (H : hash_fn) : Fq := match x_second H 3 with [m] => match m_Sign2 m with Some b => s2_Zi b | None => f0 end | _ => f0 end.
Definition x_end (H : hash_fn) : option (bool * bool) :=
  match x_run H 1 (x_history H) with Ret (s, _) => Some (st_done s, match st_err s with None => true | Some _ => false end) | _ => None end.
Example C67_shares_example :
  let H := toy_hash in let H' := reprogram toy_hash x_chal (qof 29) in
  let k := (@hash_scalar H x_chal * lagrange_spec 3 s13)%Fq in let k' := (@hash_scalar H' x_chal * lagrange_spec 3 s13)%Fq in
  x_end H = Some (true, true) /\ x_end H' = Some (true, true) /\ fz (@hash_scalar H' x_chal) = 29 /\ (fz k =? fz k') = false /\
  pub_Shares t_public !! 3 = Some (qof 14) /\ fz (extract (x_z H) (x_z H') k k') = 14.
Proof. repeat split; vm_compute; reflexivity. Qed.
(** The shares of parties 1 and 3 of the sharing 5 + 3x. *)
Example C67_group_example : valid_ids s13 /\ fz (Fsum (map (fun i => fmul (lagrange_spec i s13) (qof (5 + 3 * i))) s13)) = 5.
Proof. split; [solve_valid|vm_compute; reflexivity]. Qed.

Print Assumptions C67_extract.
Print Assumptions C67_signatures.
Print Assumptions C67_forger.
Print Assumptions C67_shares.
Print Assumptions C67_group.
Print Assumptions C67_standard.
