(** C52: a signature cannot be turned into another one, nor moved to another message. *)
From Coq Require Import ZArith Lia List Bool String.
From Coq.Strings Require Import Byte.
From stdpp Require Import base list.
From Verif Require Import ZField Primes Bytes Scalar Go Group ToyGroup Fp Edwards EdPoint EdEven Ristretto RistrettoFacts RistrettoGroup Ed25519 Eddsa Spec_Group Spec_Sign Keygen Sign SignRun Properties_Codec Properties_Ed25519.
Import ListNotations.
Local Open Scope Z_scope.

Section Unique.
  Context `{L : group_laws} `{Hf : hash_fn} (HH : hash_ok Hf).

  Lemma the_one y r m S' : Verify (gbmul y) m (mkSig (gbmul r) S') = true <-> S' = (r + chal (gbmul r) (gbmul y) m * y)%Fq.
  Proof.
    rewrite (Verify_iff HH). unfold schnorr_valid. cbn [sig_R sig_S]. generalize (chal (gbmul r) (gbmul y) m). intros c. gcollapse. now rewrite gb_inj.
  Qed.
  (** For a key, a message and R there is exactly one S. *)
  Theorem C52_unique : forall Y m R, exists S, forall S', Verify Y m (mkSig R S') = true <-> S' = S.
  Proof.
    intros Y m R. destruct (gbase_gen Y) as [y Ey]. destruct (gbase_gen R) as [r Er]. exists (r + chal R Y m * y)%Fq. intros S'.
    rewrite (Verify_iff HH). unfold schnorr_valid. cbn [sig_R sig_S]. generalize (chal R Y m). intros c. change (gsmul y gbase) with (gbmul y) in Ey. change (gsmul r gbase) with (gbmul r) in Er.
    rewrite Ey, Er. gcollapse. now rewrite gb_inj.
  Qed.
  (** In particular no two byte strings with the same first half decode to valid signatures of a message. *)
  Theorem C52_bytes : forall Y m b b' s s', sig_unmarshal b = Ret s -> sig_unmarshal b' = Ret s' -> Verify Y m s = true -> Verify Y m s' = true -> firstn 32 b = firstn 32 b' -> b = b'.
  Proof.
    intros Y m b b' s s' E E' V V' HF.
    pose proof (proj1 (proj2 (C28_signature_decode b)) s E) as B. pose proof (proj1 (proj2 (C28_signature_decode b')) s' E') as B'.
    assert (sig_R s = sig_R s') as HR.
    { unfold sig_unmarshal in E, E'. destruct (_ <? _)%nat; [discriminate|]. destruct (_ <? _)%nat; [discriminate|]. rewrite <- HF in E'.
      destruct (gdec (firstn 32 b)); [|discriminate]. destruct (scalar_set_canonical (skipn 32 b)); [|discriminate]. destruct (scalar_set_canonical (skipn 32 b')); [|discriminate].
      apply Ret_inj in E, E'. now subst. }
    destruct (C52_unique Y m (sig_R s)) as [x Hx]. destruct s as [R z], s' as [R' z']. cbn [sig_R] in *. subst R'. apply Hx in V, V'. congruence.
  Qed.
  (** A signature valid for two messages under one key: the challenges are equal, or the key is the identity. *)
  Theorem C52_message : forall Y m m' s, Verify Y m s = true -> Verify Y m' s = true -> geq Y gid \/ chal (sig_R s) Y m = chal (sig_R s) Y m'.
  Proof.
    intros Y m m' s V V'. apply (Verify_iff HH) in V, V'. unfold schnorr_valid in V, V'. rewrite V in V'. apply gadd_cancel_l in V'. revert V'.
    generalize (chal (sig_R s) Y m), (chal (sig_R s) Y m'). intros c c'. glog Y. rewrite Elg. gcollapse. rewrite gb_inj. intros X.
    assert (((c - c') * lg)%Fq = 0%Fq) as Z. { transitivity (c * lg - c' * lg)%Fq; [ring|]. rewrite X. ring. }
    apply Fq_integral in Z as [Z|Z]; [right; transitivity (c - c' + c')%Fq; [ring|rewrite Z; ring]|left; rewrite Z; reflexivity].
  Qed.
  (** A signature of one message valid under two keys, for challenges c and c': [c]Y = [c']Y'. *)
  Theorem C52_key : forall Y Y' m s, Verify Y m s = true -> Verify Y' m s = true -> geq (gsmul (chal (sig_R s) Y m) Y) (gsmul (chal (sig_R s) Y' m) Y').
  Proof.
    intros Y Y' m s V V'. apply (Verify_iff HH) in V, V'. unfold schnorr_valid in V, V'. rewrite V in V'. now apply gadd_cancel_l in V'.
  Qed.
  (** Under the identity as group key, which Verify does not exclude, anybody signs everything: one signature is valid for all messages. *)
  Theorem C52_identity_refuted : forall z m, Verify gid m (mkSig (gbmul z) z) = true.
  Proof.
    intros z m. apply (Verify_iff HH). unfold schnorr_valid. cbn [sig_R sig_S]. generalize (chal (gbmul z) gid m). intros c.
    assert (geq (gsmul c gid) gid) as ->. { rewrite <- (gsmul_0 gbase) at 1. rewrite <- gsmul_mul. replace (c * 0)%Fq with 0%Fq by ring. apply gsmul_0. }
    now rewrite gadd_id_r.
  Qed.
End Unique.

Lemma small_multiple (a b q n : Z) :
  0 <= a < q -> 0 <= b < q -> a - b = n * q -> a = b.
Proof. intros. assert (n = 0 \/ n < 0 \/ n > 0) as [->|[?|?]] by lia; [lia| |]; exfalso; nia. Qed.

(** The same for the byte strings that crypto/ed25519 accepts, under any 32 bytes as key (also keys no party of this library produces). *)
Section Standard.
  Local Opaque fadd fsub fmul fopp finv fdiv fof pof f0 f1.
  Context `{Hf : hash_fn}.
  Lemma point_set_bytes_curve b c : point_set_bytes b = Some c -> exists P, rep c P.
  Proof.
    unfold point_set_bytes. destruct (negb (Nat.eqb (List.length b) 32)); [discriminate|]. cbv zeta. set (y := fe_set_bytes b).
    destruct (sqrt_ratio (y * y - 1)%Fp (y * y * ed_d + 1)%Fp) as [xx w] eqn:ES. apply sqrt_ratio_spec in ES as [_ ES]. destruct w; [|discriminate]. cbn [negb]. intros EC.
    set (x := fe_select (- xx)%Fp xx (Z.testbit (le_val b) 255)) in *. assert (c = mkX x y 1%Fp (x * y)%Fp) as -> by congruence. clear EC.
    assert (EX : ((y * y * ed_d + 1) * (x * x) = y * y - 1)%Fp).
    { destruct ES as [(_ & E)|[(E & _)|(E & _)]]; [|discriminate|discriminate]. rewrite <- E. unfold x, fe_select. destruct (Z.testbit _ _); ring. }
    assert (on_curve x y) as C. { unfold on_curve. transitivity ((y * y - 1) - x * x + 1)%Fp; [ring|]. rewrite <- EX. ring. }
    apply on_curveb_ok in C. exists (mkE x y C). unfold rep. cbn [xX xY xZ xT ex ey]. split; [apply Fp_1_neq_0|]. split; [ring|split; ring].
  Qed.
  Theorem C52_standard : forall pk m b b', ed25519_Verify pk m b = Ret true -> ed25519_Verify pk m b' = Ret true -> firstn 32 b = firstn 32 b' -> b = b'.
  Proof.
    intros pk m b b' E E' HF. unfold ed25519_Verify in *. destruct (negb _); [discriminate|]. destruct (negb _); [discriminate|]. destruct (negb (Nat.eqb (List.length b') 64)); [discriminate|].
    destruct (point_set_bytes pk) as [A|] eqn:EA; [|discriminate]. destruct (point_set_bytes_curve pk A EA) as [P RA]. rewrite <- HF in E'. cbv zeta in E, E'.
    set (k := qof (le_val (sha512 (firstn 32 b ++ pk ++ m)))) in *.
    destruct (scalar_set_canonical (skipn 32 b)) as [z|] eqn:E1; [|discriminate]. destruct (scalar_set_canonical (skipn 32 b')) as [z'|] eqn:E2; [|discriminate].
    apply Ret_inj in E, E'. apply bytes_eqb_eq in E, E'. rewrite E in E'.
    pose proof (fun s => rep_add _ _ _ _ (rep_mul (fz k) _ _ (proj1 (fz_Fq_range k)) (rep_neg _ _ RA)) (rep_mul (fz s) _ _ (proj1 (fz_Fq_range s)) rep_base)) as RR.
    rewrite (point_bytes_ok _ _ (RR z)), (point_bytes_ok _ _ (RR z')) in E'. apply ed_bytes_inj, eadd_cancel_l, emul_B_eq in E' as [n E'].
    assert (z = z') as -> by (apply F_ext, (small_multiple _ _ q25519 n); [apply fz_Fq_range|apply fz_Fq_range|exact E']).
    rewrite <- (firstn_skipn 32 b), <- (firstn_skipn 32 b'), HF. f_equal. rewrite <- (scalar_bytes_canonical _ _ E1). now apply scalar_bytes_canonical.
  Qed.
End Standard.

(** A case: the signature with nonce r and key a is valid, and S is the only scalar that is. *)
Example C52_example : forall (Hf : hash_fn), hash_ok Hf -> let Y := @gbmul toy_group (qof 5) in let R := @gbmul toy_group (qof 7) in
  forall S', @Verify toy_group Hf Y [x68] (mkSig R S') = true <-> S' = (qof 7 + @chal toy_group Hf R Y [x68] * qof 5)%Fq.
Proof.
  intros Hf HH Y R S'. exact (the_one (L := toy_laws) HH (qof 5) (qof 7) [x68] S').
Qed.

Print Assumptions C52_unique.
Print Assumptions C52_bytes.
Print Assumptions C52_message.
Print Assumptions C52_key.
Print Assumptions C52_identity_refuted.
Print Assumptions C52_standard.
