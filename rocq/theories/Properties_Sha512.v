(** The main results with nothing left open: the ristretto group over the curve, SHA-512, and crypto/ed25519.Verify. *)
From Coq Require Import ZArith Lia List Bool String.
From Coq.Strings Require Import Byte.
From stdpp Require Import base gmap list fin_maps.
From Verif Require Import ZField Primes Bytes Scalar Go Group Spec_Poly Party Poly Eddsa Messages State StateFacts Keygen Sign Helpers Cmd Json Text
  Spec_Group Spec_State Spec_Sign SignFacts SignRun Spec_SignRun Properties_Sign Net Properties_HonestSign Properties_Helpers Properties_Cmd
  Ristretto RistrettoGroup Ed25519 Spec_Ed25519 Properties_Ed25519 Properties_Concrete Spec_Json Properties_Json Sha512.
Import ListNotations.
Local Open Scope Z_scope.
Local Existing Instance ristretto_group.
Local Existing Instance ristretto_laws.
Local Existing Instance sha512_hash.

(** eddsa.PublicKey.Verify is crypto/ed25519.Verify on the exported key and signature, and is RFC 8032's verification. *)
Corollary C03_sha512 : forall (pk : PublicKey) m s,
  ed25519_Verify (pk_ToEd25519 pk) m (sig_ToEd25519 s) = Ret (Verify pk m s) /\
  (Verify pk m s = true <-> rfc_verify (pk_ToEd25519 pk) m (sig_ToEd25519 s)).
Proof. intros pk m s. split; [apply (C03_go sha512_ok)|apply (C03_rfc sha512_ok)]. Qed.

(** A signer that finishes without error, whatever its peers sent, holds an Ed25519 signature of its message. *)
Corollary C01_sha512 : forall rg now timeout ids share shares message s0 s out,
  NewSignState rg now timeout ids share shares message = Ret s0 -> reaches sign_round s0 s out -> st_done s = true -> st_err s = None ->
  exists sig, sg_output s = Some sig /\ ed25519_Verify (pk_ToEd25519 (pub_GroupKey shares)) message (sig_ToEd25519 sig) = Ret true /\
    rfc_verify (pk_ToEd25519 (pub_GroupKey shares)) message (sig_ToEd25519 sig).
Proof. exact (C01_standard sha512_ok). Qed.

(** The two commands one after the other. *)
Corollary C31_sha512 : forall fuel rg now v prog a1 a2 t n fuel' sched rg' now' v' prog' name message, int_text a1 t -> int_text a2 n ->
  0 < t < n -> n <= 100 -> (Z.to_nat n < fuel)%nat -> (Z.to_nat n < fuel')%nat ->
  (forall i, 1 <= i <= n -> SetScalarRandom (rg' i) 0 <> f0 /\ SetScalarRandom (rg' i) 1 <> f0) ->
  exists text public sig, keygen_main fuel rg now v [prog; a1; a2] = Some (Ret text) /\
    (exists secrets, keygen_cmd fuel rg now v t n = Some (Ret (secrets, public)) /\ text = file_text (secrets, public)) /\
    (forall fs, fs name = Some text -> signer_main go_edv fuel' sched rg' now' v' fs [prog'; name; message] = Some (Ret sig)) /\
    rfc_verify (pk_ToEd25519 (pub_GroupKey public)) message (sig_ToEd25519 sig).
Proof. exact (C31_main sha512_ok). Qed.

(** Hypotheses met: the arguments "1" and "3", and randomness with non-zero nonces. *)
Example C31_sha512_example : int_text (bs "1") 1 /\ int_text (bs "3") 3 /\ 0 < 1 < 3 /\ 3 <= 100 /\
  forall i, 1 <= i <= 3 -> SetScalarRandom (fun k => i + Z.of_nat k) 0 <> f0 /\ SetScalarRandom (fun k => i + Z.of_nat k) 1 <> f0.
Proof.
  split; [apply C46_Atoi; reflexivity|]. split; [apply C46_Atoi; reflexivity|]. split; [lia|]. split; [lia|].
  intros i Hi. assert (i = 1 \/ i = 2 \/ i = 3) as [->|[->| ->]] by lia; split; intros E; apply (f_equal fz) in E; vm_compute in E; discriminate.
Qed.

(** The six constants of pkg/ristretto against the values in ristretto_test.go:291-317 (from the ristretto draft, section 3.1). *)
Example C32_constants_example : map fz [r_d; r_sqrtM1; r_sqrtADMinusOne; r_invSqrtAMinusD; r_oneMinusDSQ; r_dMinusOneSQ] =
  [37095705934669439343138083508754565189542113879843219016388785533085940283555;
   19681161376707505956807079304988542015446066515923890162744021073123829784752;
   25063068953384623474111414158702152701244531502492656460079210482610430750235;
   54469307008909316920995813868745141605393597292927456921205312896311721017578;
   1159843021668779879193775521855586647937357759715417654439879720876111806838;
   40440834346308536858101042469323190826248399146238708352240133220865137265952].
Proof. vm_compute. reflexivity. Qed.

Print Assumptions C03_sha512.
Print Assumptions C01_sha512.
Print Assumptions C31_sha512.
