(** The literal tables of the repository's tests, evaluated in the model (these validate the model; they are not the proofs), and C62 for
    the concrete group and crypto/ed25519. *)
From Coq Require Import ZArith Lia List Bool String.
From Coq.Strings Require Import Byte Ascii.
From stdpp Require Import base gmap list fin_maps.
From Verif Require Import ZField Primes Bytes Scalar Go Group Fp Edwards EdPoint Spec_Poly Party Text Poly Eddsa Messages State Keygen Sign Helpers Cmd Tests Sha512
  Ristretto RistrettoGroup Ed25519 Spec_Ed25519 Properties_Ed25519 Properties_Concrete Properties_Sha512 Properties_Tests.
Import ListNotations.
Local Open Scope Z_scope.
Local Existing Instance ristretto_group.
Local Existing Instance ristretto_laws.

(** ** The tests of pkg/eddsa and test/ over ristretto with the real ed25519 *)
(** RFC 8032, 5.1.5: the secret scalar: the lowest three bits cleared, the highest bit cleared, the second highest set. *)
Definition rfc_scalar (h : list byte) : Z := Z.lor (Z.land (le_val (firstn 32 h)) (2 ^ 255 - 8)) (2 ^ 254).
(** [pk] is the public key of the private key with this seed. *)
Definition rfc_public `{Hf : hash_fn} (seed pk : list byte) : Prop := rfc_point pk (emul (rfc_scalar (sha512 seed)) eB).

Lemma rfc_scalar_clamp h : rfc_scalar h = le_val (firstn 32 h) mod 2 ^ 254 / 8 * 8 + 2 ^ 254.
Proof.
  unfold rfc_scalar. generalize (le_val (firstn 32 h)) as s. intros s.
  assert (s mod 2 ^ 254 / 8 * 8 = Z.shiftl (Z.shiftr (Z.land s (Z.ones 254)) 3) 3) as ->.
  { rewrite Z.land_ones, Z.shiftl_mul_pow2, Z.shiftr_div_pow2 by lia. reflexivity. }
  assert (forall a, Z.land a (2 ^ 254) = 0 -> a + 2 ^ 254 = Z.lor a (2 ^ 254)) as AL.
  { intros a E. rewrite <- Z.lxor_lor by exact E. apply Z.add_nocarry_lxor. exact E. }
  change (2 ^ 255 - 8) with (Z.shiftl (Z.ones 252) 3).
  rewrite AL.
  - apply Z.bits_inj'. intros n Hn. rewrite !Z.lor_spec, Z.land_spec. rewrite !Z.shiftl_spec by lia. rewrite Z.pow2_bits_eqb by lia. rewrite (Z.eqb_sym 254 n).
    destruct (Z.ltb_spec n 3) as [H3|H3].
    + rewrite !(Z.testbit_neg_r _ (n - 3)) by lia. now rewrite andb_false_r.
    + rewrite Z.shiftr_spec by lia. replace (n - 3 + 3) with n by lia. rewrite Z.land_spec. destruct (Z.eqb_spec n 254) as [->|Hne]; [now rewrite !orb_true_r|]. rewrite !orb_false_r. f_equal.
      destruct (Z.ltb_spec n 254) as [Hlt|Hge].
      * rewrite !Z.ones_spec_low by lia. reflexivity.
      * rewrite !Z.ones_spec_high by lia. reflexivity.
  - apply Z.bits_inj'. intros n Hn. rewrite Z.land_spec, Z.bits_0, Z.pow2_bits_eqb by lia. destruct (Z.eqb_spec 254 n) as [<-|]; [|apply andb_false_r].
    rewrite Z.shiftl_spec, Z.shiftr_spec, Z.land_spec, Z.ones_spec_high by lia. now rewrite andb_false_r.
Qed.

Section Go.
  Context `{Hf : hash_fn} (HH : hash_ok Hf).

  Lemma go_accepts message : forall Y sig, Verify Y message sig = true -> go_edv (pk_ToEd25519 Y) message (sig_ToEd25519 sig) = true.
  Proof. intros Y sig E. rewrite (go_edv_ok HH). exact E. Qed.
  Theorem C62_Signature_Verify_go : forall seed message r, test_Signature_Verify go_edv seed message r = Ret true.
  Proof. intros. apply (C62_Signature_Verify HH). apply go_accepts. Qed.
  Theorem C62_Sign_go : forall fuel r sched rg now v order message T N, 0 <= T < N -> N < 65535 -> (Z.to_nat N < fuel)%nat ->
    (forall i, 1 <= i <= T + 1 -> SetScalarRandom (rg i) 0 <> f0 /\ SetScalarRandom (rg i) 1 <> f0) ->
    test_Sign go_edv fuel r sched rg now v order message T N = Some (Ret true).
  Proof. intros. apply (C62_Sign HH); auto. apply go_accepts. Qed.
  (** TestPrivateKey_ToEd25519 passes for every seed exactly if the public key given is the one of RFC 8032. *)
  Theorem C62_PrivateKey : forall seed pk, test_PrivateKey seed pk = Ret true <-> rfc_public seed pk.
  Proof.
    intros seed pk. unfold test_PrivateKey, newKeyPair, verdict. cbn [forallb]. set (sk := clamp (firstn 32 (sha512 seed))).
    assert (geqb (gbmul sk) (gbmul sk) = true) as -> by (apply geqb_of; reflexivity). cbn [andb]. rewrite andb_true_r.
    assert (rfc_point (pk_ToEd25519 (gbmul sk)) (emul (rfc_scalar (sha512 seed)) eB)) as K.
    { pose proof (C03_key sk) as K. replace (emul (rfc_scalar (sha512 seed)) eB) with (emul (fz sk) eB); [exact K|].
      unfold sk, clamp. rewrite fz_qof, rfc_scalar_clamp, <- B_mod. reflexivity. }
    unfold rfc_public. split.
    - intros E. apply Ret_inj in E. apply bytes_eqb_eq in E. now rewrite <- E.
    - intros [H1 H2]. f_equal. apply bytes_eqb_eq. destruct K as [K1 K2]. apply le_val_inj; congruence.
  Qed.
End Go.

(** ** The tables of pkg/ristretto/ristretto_test.go *)
Definition hex_digit (c : ascii) : Z := let n := Z.of_N (N_of_ascii c) in if n <=? 57 then n - 48 else n - 87.
(** encoding/hex.DecodeString on well formed text. *)
Fixpoint hex (s : string) : list byte :=
  match s with String a (String b r) => z2b (16 * hex_digit a + hex_digit b) :: hex r | _ => [] end.

(** 105-117, the encodings that are not canonical or negative.  The other rows of 43-219 (multiples of the generator, non-squares, negative
    products, SetUniformBytes) need field exponentiations that are too slow for the checker; vectors/vectors.txt evaluates them outside the build. *)
Definition bad_encodings : list string := [
    "00ffffffffffffffffffffffffffffffffffffffffffffffffffffffffffffff";
    "ffffffffffffffffffffffffffffffffffffffffffffffffffffffffffffff7f";
    "f3ffffffffffffffffffffffffffffffffffffffffffffffffffffffffffff7f";
    "edffffffffffffffffffffffffffffffffffffffffffffffffffffffffffff7f";
    "0100000000000000000000000000000000000000000000000000000000000000";
    "01ffffffffffffffffffffffffffffffffffffffffffffffffffffffffffff7f";
    "ed57ffd8c914fb201471d1c3d245ce3c746fcbe63a3679d51b6a516ebebe0e20";
    "c34c4e1826e5d403b78e246e88aa051c36ccf0aafebffe137d148a2bf9104562";
    "c940e5a4404157cfb1628b108db051a8d439e1a421394ec4ebccb9ec92a8ac78";
    "47cfc5497c53dc8e61c91d17fd626ffb1c49e2bca94eed052281b510b1117a24";
    "f1c6165d33367351b0da8f6e4511010c68174a03b6581212c71c0e1d026c3c72";
    "87260f7a2f12495118360f02c26a470f450dadf34a413d21042b43b9d93e1309"]%string.
Example C62_bad_encodings : forallb (fun s => match r_SetCanonicalBytes (hex s) with Fail _ => true | _ => false end) bad_encodings = true.
Proof. vm_compute. reflexivity. Qed.

Print Assumptions C62_PrivateKey.
Print Assumptions C62_Sign_go.
