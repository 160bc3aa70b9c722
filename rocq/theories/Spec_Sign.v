(** The FROST signature, written from the paper's formulas (and the byte layouts of the hash inputs). *)
From Coq Require Import ZArith String List Bool.
From Coq.Strings Require Import Byte.
From Verif Require Import ZField Primes Bytes Scalar Group Spec_Group Spec_Wire.
Import ListNotations.
Local Open Scope Z_scope.

Section SpecSign.
  Context `{Gr : group_ops} `{Hf : hash_fn}.

  (** The list of (ID, D, E) in the order of the party list. *)
  Definition commitment_list := list (Z * (G * G)).

  Definition enc_list (cl : commitment_list) : list byte :=
    concat (map (fun x => [hi (fst x); lo (fst x)] ++ genc (fst (snd x)) ++ genc (snd (snd x))) cl).

  Definition hash_scalar (b : list byte) : Fq := qof (le_val (sha512 b)).

  (** rho_i = H("FROST-SHA512", i, H(m), B) *)
  Definition binding (m : list byte) (cl : commitment_list) (i : Z) : Fq :=
    hash_scalar (list_byte_of_string "FROST-SHA512" ++ [hi i; lo i] ++ sha512 m ++ enc_list cl).
  (** R_i = D_i + [rho_i] E_i *)
  Definition nonce_point (m : list byte) (cl : commitment_list) (x : Z * (G * G)) : G :=
    gadd (fst (snd x)) (gsmul (binding m cl (fst x)) (snd (snd x))).
  (** R = sum of the R_i *)
  Definition group_nonce (m : list byte) (cl : commitment_list) : G := Gsum (map (nonce_point m cl) cl).
  (** c = H(R, Y, m) *)
  Definition chal (R Y : G) (m : list byte) : Fq := hash_scalar (gencEd R ++ gencEd Y ++ m).
  (** z_i = d_i + e_i rho_i + lambda_i s_i c *)
  Definition sig_share (m : list byte) (cl : commitment_list) (Y : G) (i : Z) (d e lambda s : Fq) : Fq :=
    (d + e * binding m cl i + lambda * s * chal (group_nonce m cl) Y m)%Fq.
  (** [S]B = R + [c]Y *)
  Definition schnorr_valid (Y : G) (m : list byte) (R : G) (s : Fq) : Prop :=
    geq (gbmul s) (gadd R (gsmul (chal R Y m) Y)).
End SpecSign.
