(** RFC 8032: Ed25519 (section 5.1), stated over the points of the curve. *)
From Coq Require Import ZArith Lia List Bool.
From Coq.Strings Require Import Byte.
From Verif Require Import ZField Primes Bytes Scalar Group Fp Edwards EdPoint.
Import ListNotations.
Local Open Scope Z_scope.

(** 5.1.2/5.1.3: a point is 32 bytes, little endian: y with the low bit of x on top. *)
Definition rfc_point (b : list byte) (P : ept) : Prop :=
  List.length b = 32%nat /\ le_val b = fz (ey P) + 2 ^ 255 * (fz (ex P) mod 2).

(** 5.1.7: decoded public key A, R and S below the group order; k = SHA-512(R || A || M)
    mod the order, and [8][S]B = [8]R + [8][k]A. *)
Definition rfc_verify `{Hf : hash_fn} (pk m sig : list byte) : Prop :=
  exists (bR bS : list byte) (A R : ept),
    sig = bR ++ bS /\ List.length bS = 32%nat /\ rfc_point pk A /\ rfc_point bR R /\ le_val bS < q25519 /\
    let k := le_val (sha512 (bR ++ pk ++ m)) mod q25519 in
    emul 8 (emul (le_val bS) eB) = eadd (emul 8 R) (emul 8 (emul k A)).

(** The equation without the cofactor, which RFC 8032 also allows. *)
Definition rfc_verify_strict `{Hf : hash_fn} (pk m sig : list byte) : Prop :=
  exists (bR bS : list byte) (A R : ept),
    sig = bR ++ bS /\ List.length bS = 32%nat /\ rfc_point pk A /\ rfc_point bR R /\ le_val bS < q25519 /\
    let k := le_val (sha512 (bR ++ pk ++ m)) mod q25519 in
    emul (le_val bS) eB = eadd R (emul k A).
