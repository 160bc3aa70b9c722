(** pkg/internal/zk/schnorr.go *)
From Coq Require Import ZArith Lia List Bool String.
From Coq.Strings Require Import Byte.
From Verif Require Import ZField Primes Bytes Scalar Go Group Party.
Import ListNotations.
Local Open Scope Z_scope.

(** schnorr.go:21-25 *)
Record Schnorr := mkSchnorr { pr_S : Fq; pr_R : Fq }.

Section Zk.
  Context `{Gr : group_ops} `{Hf : hash_fn}.

  (** hash.Hash.Sum(b) appends the digest to b (Go standard library). *)
  Definition hash_Sum (buffer msg : list byte) : list byte := buffer ++ sha512 msg.

  (** schnorr.go:79-84: the bytes written to the hash. *)
  Definition zk_input (partyID : ID) (context : list byte) (public M : G) : list byte :=
    id_bytes partyID ++ firstn 32 context ++ genc public ++ genc M.

  (** schnorr.go:76-90 challenge.  [context[:32]] panics on a shorter context.  [h.Sum(buffer)] with a
      64-byte buffer has 128 bytes, so SetUniformBytes returns an (ignored) error and S keeps its zero value. *)
  Definition zk_challenge (partyID : ID) (context : list byte) (public M : G) : outcome Fq :=
    if Nat.ltb (List.length context) 32 then Panics "slice bounds out of range [:32]" else
    let h := zk_input partyID context public M in
    let buffer := repeat x00 64 in
    Ret (scalar_set_uniform f0 (hash_Sum buffer h)).

  (** schnorr.go:38-53 NewSchnorrProof; k is the random nonce. *)
  Definition NewSchnorrProof (k : Fq) (partyID : ID) (public : G) (context : list byte) (private : Fq) : outcome Schnorr :=
    let M := gbmul k in
    let* Sc := zk_challenge partyID context public M in
    Ret (mkSchnorr Sc (fadd (fmul private Sc) k)).

  (** schnorr.go:59-69 Verify *)
  Definition zk_Verify (proof : Schnorr) (partyID : ID) (public : G) (context : list byte) : outcome bool :=
    let publicNeg := gneg public in
    let MPrime := gdsmul (pr_S proof) publicNeg (pr_R proof) in
    let* SPrime := zk_challenge partyID context public MPrime in
    Ret (feqb (pr_S proof) SPrime).

  (** schnorr.go:119-123 BytesAppend *)
  Definition schnorr_bytes (p : Schnorr) : list byte := scalar_bytes (pr_S p) ++ scalar_bytes (pr_R p).

  (** schnorr.go:103-117 UnmarshalBinary: value on success (the receiver's S may be overwritten on failure). *)
  Definition schnorr_unmarshal (data : list byte) : outcome Schnorr :=
    if Nat.ltb (List.length data) 64 then Fail "length is wrong" else
    match scalar_set_canonical (firstn 32 data) with
    | None => Fail "invalid scalar encoding"
    | Some s =>
      match scalar_set_canonical (skipn 32 data) with
      | None => Fail "invalid scalar encoding"
      | Some r => Ret (mkSchnorr s r)
      end
    end.

  (** schnorr.go:129-141 Equal *)
  Definition schnorr_equal (p q : Schnorr) : bool := feqb (pr_S q) (pr_S p) && feqb (pr_R q) (pr_R p).
End Zk.
