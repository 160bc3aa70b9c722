(** crypto/ed25519 (Go standard library): the verification that a user of ToEd25519 runs.
    Not part of /repo; cmd/signer/signer.go:118 calls it.  Definitions only. *)
From Coq Require Import ZArith Lia List Bool String.
From Coq.Strings Require Import Byte.
From Verif Require Import ZField Primes Bytes Scalar Go Group Fp Edwards EdPoint Ristretto.
Import ListNotations.
Local Open Scope Z_scope.

(** Point.SetBytes: y is the low 255 bits (not required to be below p), x the root of
    (y^2-1)/(dy^2+1) with the sign in the top bit. *)
Definition point_set_bytes (b : list byte) : option xpt :=
  if negb (Nat.eqb (List.length b) 32) then None else
  let y := fe_set_bytes b in
  let y2 := (y * y)%Fp in
  let u := (y2 - 1)%Fp in
  let vv := (y2 * ed_d + 1)%Fp in
  let '(xx, wasSquare) := sqrt_ratio u vv in
  if negb wasSquare then None else
  let xxNeg := (- xx)%Fp in
  let xx := fe_select xxNeg xx (Z.testbit (le_val b) 255) in
  Some (mkX xx y 1%Fp (xx * y)%Fp).

(** ed25519.Verify(publicKey, message, sig): a public key of the wrong length panics. *)
Definition ed25519_Verify `{Hf : hash_fn} (publicKey message sig : list byte) : outcome bool :=
  if negb (Nat.eqb (List.length publicKey) 32) then Panics "ed25519: bad public key length" else
  if negb (Nat.eqb (List.length sig) 64) then Ret false else
  match point_set_bytes publicKey with
  | None => Ret false
  | Some A =>
    let k := qof (le_val (sha512 (firstn 32 sig ++ publicKey ++ message))) in
    match scalar_set_canonical (skipn 32 sig) with
    | None => Ret false
    | Some S' =>
      let R := xadd (xmul (fz k) (xneg A)) (xmul (fz S') xbase) in
      Ret (bytes_eqb (firstn 32 sig) (point_bytes R))
    end
  end.
