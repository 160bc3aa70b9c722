(** The protocol over the concrete ristretto group and the real crypto/ed25519.Verify. *)
From Coq Require Import ZArith Lia List Bool String.
From Coq.Strings Require Import Byte.
From stdpp Require Import base gmap list fin_maps.
From Verif Require Import ZField Primes Bytes Scalar Go Group Spec_Poly Party Poly Eddsa Messages State StateFacts Keygen Sign Helpers Cmd
  Spec_Group Spec_State Spec_Sign SignFacts SignRun Spec_SignRun Properties_Sign Net Properties_HonestSign Properties_Helpers Properties_Cmd
  Ristretto RistrettoGroup Ed25519 Spec_Ed25519 Properties_Ed25519.
Import ListNotations.
Local Open Scope Z_scope.
Local Existing Instance ristretto_group.
Local Existing Instance ristretto_laws.

(** signer.go:118: ed25519.Verify in a condition; it does not panic on a key of 32 bytes. *)
Definition go_edv `{Hf : hash_fn} (pk m sig : list byte) : bool :=
  match ed25519_Verify pk m sig with Ret b => b | _ => false end.

Section Concrete.
  Context `{Hf : hash_fn} (HH : hash_ok Hf).

  Lemma go_edv_ok (Y : PublicKey) m sig : go_edv (pk_ToEd25519 Y) m (sig_ToEd25519 sig) = Verify Y m sig.
  Proof. unfold go_edv. rewrite (C03_go HH). reflexivity. Qed.

  Theorem C31_signer : forall fuel sched rg now v n t f file message, 0 <= t < n -> n < 65535 -> (Z.to_nat n < fuel)%nat -> degree_le (Z.to_nat t) f ->
    key_file n t (spoly f) file ->
    (forall i, 1 <= i <= n -> SetScalarRandom (rg i) 0 <> f0 /\ SetScalarRandom (rg i) 1 <> f0) ->
    exists sig, signer_cmd go_edv fuel sched rg now v file message = Some (Ret sig) /\ Verify (gbmul (spoly f f0)) message sig = true.
  Proof.
    intros fuel sched rg now v n t f file message Ht Hn Hf' Hd HK NZ.
    assert (ED : forall Y sig, Verify Y message sig = true -> go_edv (pk_ToEd25519 Y) message (sig_ToEd25519 sig) = true).
    { intros Y sig E. rewrite go_edv_ok. exact E. }
    destruct (C31_signer_partial HH go_edv fuel sched rg now v n t f file message Ht Hn Hf' Hd HK NZ ED) as (sig & A & B & _).
    exists sig. exact (conj A B).
  Qed.
  Theorem C31_flow : forall fuel rg now v t n fuel' sched rg' now' v' message, 0 < t < n -> n <= 100 -> (Z.to_nat n < fuel)%nat -> (Z.to_nat n < fuel')%nat ->
    (forall i, 1 <= i <= n -> SetScalarRandom (rg' i) 0 <> f0 /\ SetScalarRandom (rg' i) 1 <> f0) ->
    exists secrets public sig, keygen_cmd fuel rg now v t n = Some (Ret (secrets, public)) /\
      signer_cmd go_edv fuel' sched rg' now' v' (kf_encode (secrets, public)) message = Some (Ret sig) /\
      Verify (pub_GroupKey public) message sig = true /\ rfc_verify (pk_ToEd25519 (pub_GroupKey public)) message (sig_ToEd25519 sig).
  Proof.
    intros fuel rg now v t n fuel' sched rg' now' v' message Ht Hn F1 F2 NZ.
    assert (ED : forall Y sig, Verify Y message sig = true -> go_edv (pk_ToEd25519 Y) message (sig_ToEd25519 sig) = true).
    { intros Y sig E. rewrite go_edv_ok. exact E. }
    destruct (C31_flow_partial HH go_edv fuel rg now v t n fuel' sched rg' now' v' message Ht Hn F1 F2 NZ ED) as (secrets & public & sig & A & B & C).
    exists secrets, public, sig. refine (conj A (conj B (conj C _))). apply (C03_rfc HH); assumption.
  Qed.

  (** Whatever the peers send, a signature handed out by a finished signer is a standard Ed25519 signature. *)
  Theorem C01_standard : forall rg now timeout ids share shares message s0 s out,
    NewSignState rg now timeout ids share shares message = Ret s0 -> reaches sign_round s0 s out -> st_done s = true -> st_err s = None ->
    exists sig, sg_output s = Some sig /\ ed25519_Verify (pk_ToEd25519 (pub_GroupKey shares)) message (sig_ToEd25519 sig) = Ret true /\
      rfc_verify (pk_ToEd25519 (pub_GroupKey shares)) message (sig_ToEd25519 sig).
  Proof.
    intros rg now timeout ids share shares message s0 s out NEW HR D E.
    destruct (C01_success rg now timeout ids share shares message s0 NEW s out HR D E) as (sig & A & B).
    exists sig. refine (conj A (conj _ _)); [rewrite (C03_go HH); rewrite B; reflexivity|apply (C03_rfc HH); assumption].
  Qed.
End Concrete.

(** A hash function and randomness meeting the hypotheses. *)
Example C31_concrete_example : exists (Hf : hash_fn) (rg : Z -> rng), hash_ok Hf /\
  (forall i, 1 <= i <= 3 -> SetScalarRandom (rg i) 0 <> f0 /\ SetScalarRandom (rg i) 1 <> f0) /\
  forall now v message, exists secrets public sig, keygen_cmd 10 rg now v 1 3 = Some (Ret (secrets, public)) /\
    signer_cmd go_edv 10 [] rg now v (kf_encode (secrets, public)) message = Some (Ret sig).
Proof.
  pose (H := (fun m => le_bytes 64 (le_val m + 1)) : hash_fn). exists H, (fun i k => i + Z.of_nat k).
  assert (HH : hash_ok H) by (intros m; apply le_bytes_length). split; [exact HH|].
  assert (NZ : forall i, 1 <= i <= 3 -> SetScalarRandom (fun k => i + Z.of_nat k) 0 <> f0 /\ SetScalarRandom (fun k => i + Z.of_nat k) 1 <> f0).
  { intros i Hi. assert (i = 1 \/ i = 2 \/ i = 3) as [->|[->| ->]] by lia; split; intros E; apply (f_equal fz) in E; vm_compute in E; discriminate. }
  split; [exact NZ|]. intros now v message.
  destruct (C31_flow HH 10 (fun i k => i + Z.of_nat k) now v 1 3 10 [] (fun i k => i + Z.of_nat k) now v message) as (secrets & public & sig & A & B & _).
  - lia.
  - lia.
  - cbn; lia.
  - cbn; lia.
  - exact NZ.
  - exists secrets, public, sig. exact (conj A B).
Qed.

Print Assumptions C31_flow.
Print Assumptions C01_standard.
