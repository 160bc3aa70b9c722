(** SHA-512 (FIPS 180-4), the hash of crypto/sha512 used by /repo/pkg/frost/keygen (via zk), sign and eddsa.  Everything about
    the protocol is proved for an arbitrary hash with 64-byte output (Group.v, hash_fn); this file gives the concrete function, so
    that the theorems can also be instantiated with nothing left open.  Not part of /repo: written from the standard. *)
From Coq Require Import ZArith Lia List Bool.
From Coq.Strings Require Import Byte.
From Verif Require Import Bytes Group.
Import ListNotations.
Local Open Scope Z_scope.

(** Words of 64 bits: sections 2.2.2 and 3.2. *)
Definition w64 (z : Z) : Z := z mod 2 ^ 64.
Definition shr64 (n x : Z) : Z := Z.shiftr x n.
Definition rotr64 (n x : Z) : Z := Z.lor (Z.shiftr x n) (w64 (Z.shiftl x (64 - n))).

(** Section 4.1.3 *)
Definition Ch (x y z : Z) : Z := Z.lxor (Z.land x y) (Z.land (Z.lxor x (2 ^ 64 - 1)) z).
Definition Maj (x y z : Z) : Z := Z.lxor (Z.lxor (Z.land x y) (Z.land x z)) (Z.land y z).
Definition Sigma0 (x : Z) : Z := Z.lxor (Z.lxor (rotr64 28 x) (rotr64 34 x)) (rotr64 39 x).
Definition Sigma1 (x : Z) : Z := Z.lxor (Z.lxor (rotr64 14 x) (rotr64 18 x)) (rotr64 41 x).
Definition sigma0 (x : Z) : Z := Z.lxor (Z.lxor (rotr64 1 x) (rotr64 8 x)) (shr64 7 x).
Definition sigma1 (x : Z) : Z := Z.lxor (Z.lxor (rotr64 19 x) (rotr64 61 x)) (shr64 6 x).

(** Section 4.2.3: the first 64 bits of the fractional parts of the cube roots of the first eighty primes. *)
Definition sha_primes : list Z := [2; 3; 5; 7; 11; 13; 17; 19; 23; 29; 31; 37; 41; 43; 47; 53; 59; 61; 67; 71; 73; 79; 83; 89; 97; 101; 103; 107; 109; 113; 127; 131; 137; 139; 149; 151; 157; 163; 167; 173; 179; 181; 191; 193; 197; 199; 211; 223; 227; 229; 233; 239; 241; 251; 257; 263; 269; 271; 277; 281; 283; 293; 307; 311; 313; 317; 331; 337; 347; 349; 353; 359; 367; 373; 379; 383; 389; 397; 401; 409].
Definition sha_K : list Z := [
   0x428a2f98d728ae22; 0x7137449123ef65cd; 0xb5c0fbcfec4d3b2f; 0xe9b5dba58189dbbc;
   0x3956c25bf348b538; 0x59f111f1b605d019; 0x923f82a4af194f9b; 0xab1c5ed5da6d8118;
   0xd807aa98a3030242; 0x12835b0145706fbe; 0x243185be4ee4b28c; 0x550c7dc3d5ffb4e2;
   0x72be5d74f27b896f; 0x80deb1fe3b1696b1; 0x9bdc06a725c71235; 0xc19bf174cf692694;
   0xe49b69c19ef14ad2; 0xefbe4786384f25e3; 0x0fc19dc68b8cd5b5; 0x240ca1cc77ac9c65;
   0x2de92c6f592b0275; 0x4a7484aa6ea6e483; 0x5cb0a9dcbd41fbd4; 0x76f988da831153b5;
   0x983e5152ee66dfab; 0xa831c66d2db43210; 0xb00327c898fb213f; 0xbf597fc7beef0ee4;
   0xc6e00bf33da88fc2; 0xd5a79147930aa725; 0x06ca6351e003826f; 0x142929670a0e6e70;
   0x27b70a8546d22ffc; 0x2e1b21385c26c926; 0x4d2c6dfc5ac42aed; 0x53380d139d95b3df;
   0x650a73548baf63de; 0x766a0abb3c77b2a8; 0x81c2c92e47edaee6; 0x92722c851482353b;
   0xa2bfe8a14cf10364; 0xa81a664bbc423001; 0xc24b8b70d0f89791; 0xc76c51a30654be30;
   0xd192e819d6ef5218; 0xd69906245565a910; 0xf40e35855771202a; 0x106aa07032bbd1b8;
   0x19a4c116b8d2d0c8; 0x1e376c085141ab53; 0x2748774cdf8eeb99; 0x34b0bcb5e19b48a8;
   0x391c0cb3c5c95a63; 0x4ed8aa4ae3418acb; 0x5b9cca4f7763e373; 0x682e6ff3d6b2b8a3;
   0x748f82ee5defb2fc; 0x78a5636f43172f60; 0x84c87814a1f0ab72; 0x8cc702081a6439ec;
   0x90befffa23631e28; 0xa4506cebde82bde9; 0xbef9a3f7b2c67915; 0xc67178f2e372532b;
   0xca273eceea26619c; 0xd186b8c721c0c207; 0xeada7dd6cde0eb1e; 0xf57d4f7fee6ed178;
   0x06f067aa72176fba; 0x0a637dc5a2c898a6; 0x113f9804bef90dae; 0x1b710b35131c471b;
   0x28db77f523047d84; 0x32caab7b40c72493; 0x3c9ebe0a15c9bebc; 0x431d67c49c100d4c;
   0x4cc5d4becb3e42b6; 0x597f299cfc657e2a; 0x5fcb6fab3ad6faec; 0x6c44198c4a475817].
(** Section 5.3.5: the same for the square roots of the first eight primes. *)
Definition sha_H0 : list Z := [
   0x6a09e667f3bcc908; 0xbb67ae8584caa73b; 0x3c6ef372fe94f82b; 0xa54ff53a5f1d36f1;
   0x510e527fade682d1; 0x9b05688c2b3e6c1f; 0x1f83d9abfb41bd6b; 0x5be0cd19137e2179].

(** Section 5.1.2: a one bit, zeros, and the length in bits on 128 bits, to a multiple of 128 bytes. *)
Definition sha_pad (m : list byte) : list byte :=
  let l := Z.of_nat (List.length m) in
  m ++ x80 :: repeat x00 (Z.to_nat ((111 - l) mod 128)) ++ rev (le_bytes 16 (8 * l)).

Definition word_at (b : list byte) : Z := le_val (rev (firstn 8 b)).
Fixpoint words (n : nat) (b : list byte) : list Z := match n with O => [] | S k => word_at b :: words k (skipn 8 b) end.

(** Section 6.4.2: the message schedule; the last sixteen words, newest first. *)
Fixpoint schedule (n : nat) (last : list Z) : list Z :=
  match n with
  | O => []
  | S k =>
    let w := w64 (sigma1 (nth 1 last 0) + nth 6 last 0 + sigma0 (nth 14 last 0) + nth 15 last 0) in
    w :: schedule k (w :: firstn 15 last)
  end.
Definition message_schedule (block : list Z) : list Z := block ++ schedule 64 (rev block).

Record hstate := mkH { ha : Z; hb : Z; hc : Z; hd : Z; he : Z; hf : Z; hg : Z; hh : Z }.
Definition sha_step (s : hstate) (kw : Z * Z) : hstate :=
  let T1 := w64 (hh s + Sigma1 (he s) + Ch (he s) (hf s) (hg s) + fst kw + snd kw) in
  let T2 := w64 (Sigma0 (ha s) + Maj (ha s) (hb s) (hc s)) in
  mkH (w64 (T1 + T2)) (ha s) (hb s) (hc s) (w64 (hd s + T1)) (he s) (hf s) (hg s).
Definition hadd (s t : hstate) : hstate :=
  mkH (w64 (ha s + ha t)) (w64 (hb s + hb t)) (w64 (hc s + hc t)) (w64 (hd s + hd t))
      (w64 (he s + he t)) (w64 (hf s + hf t)) (w64 (hg s + hg t)) (w64 (hh s + hh t)).
Definition sha_block (s : hstate) (block : list Z) : hstate :=
  hadd s (fold_left sha_step (combine sha_K (message_schedule block)) s).
Fixpoint sha_blocks (n : nat) (s : hstate) (b : list byte) : hstate :=
  match n with O => s | S k => sha_blocks k (sha_block s (words 16 b)) (skipn 128 b) end.
Definition be64 (z : Z) : list byte := rev (le_bytes 8 z).
Definition hstate_bytes (s : hstate) : list byte :=
  be64 (ha s) ++ be64 (hb s) ++ be64 (hc s) ++ be64 (hd s) ++ be64 (he s) ++ be64 (hf s) ++ be64 (hg s) ++ be64 (hh s).
Definition sha_init : hstate :=
  mkH (nth 0 sha_H0 0) (nth 1 sha_H0 0) (nth 2 sha_H0 0) (nth 3 sha_H0 0) (nth 4 sha_H0 0) (nth 5 sha_H0 0) (nth 6 sha_H0 0) (nth 7 sha_H0 0).

(** sha512.Sum512 *)
Definition Sum512 (m : list byte) : list byte :=
  let p := sha_pad m in hstate_bytes (sha_blocks (Nat.div (List.length p) 128) sha_init p).

Definition sha512_hash : hash_fn := Sum512.

(** ** Facts *)
Lemma be64_length z : List.length (be64 z) = 8%nat.
Proof. unfold be64. now rewrite rev_length, le_bytes_length. Qed.

Lemma Sum512_length m : List.length (Sum512 m) = 64%nat.
Proof. unfold Sum512, hstate_bytes. rewrite !app_length, !be64_length. reflexivity. Qed.

(** The hypothesis [hash_ok] of the theorems is met by the real hash function. *)
Lemma sha512_ok : hash_ok sha512_hash.
Proof. intros m. apply Sum512_length. Qed.

(** The padded message is a whole number of blocks, so that no byte is left out. *)
Lemma sha_pad_blocks m : (List.length (sha_pad m) mod 128 = 0)%nat.
Proof.
  assert (E : Z.of_nat (List.length (sha_pad m)) mod 128 = 0).
  { unfold sha_pad. rewrite app_length. cbn [List.length]. rewrite app_length, repeat_length, rev_length, le_bytes_length.
    set (l := Z.of_nat (List.length m)).
    replace (Z.of_nat (List.length m + S (Z.to_nat ((111 - l) mod 128) + 16))) with (l + 17 + (111 - l) mod 128).
    - rewrite Zplus_mod_idemp_r. replace (l + 17 + (111 - l)) with (1 * 128) by ring. apply Z_mod_mult.
    - pose proof (Z.mod_pos_bound (111 - l) 128 ltac:(lia)). rewrite Nat2Z.inj_add. fold l. lia. }
  apply Nat2Z.inj. rewrite Nat2Z.inj_mod. exact E.
Qed.

(** The padding loses nothing: for messages below 2^125 bytes (the standard's limit is 2^128 bits). *)
Lemma sha_pad_inj a b : Z.of_nat (List.length a) < 2 ^ 125 -> Z.of_nat (List.length b) < 2 ^ 125 -> sha_pad a = sha_pad b -> a = b.
Proof.
  intros Ha Hb E.
  assert (T : forall m, exists p, sha_pad m = p ++ rev (le_bytes 16 (8 * Z.of_nat (List.length m)))).
  { intros m. exists (m ++ x80 :: repeat x00 (Z.to_nat ((111 - Z.of_nat (List.length m)) mod 128))). unfold sha_pad. now rewrite <- app_assoc. }
  assert (L : List.length a = List.length b).
  { destruct (T a) as (pa & Ea), (T b) as (pb & Eb). rewrite Ea, Eb in E.
    assert (R : rev (le_bytes 16 (8 * Z.of_nat (List.length a))) = rev (le_bytes 16 (8 * Z.of_nat (List.length b)))).
    { apply (f_equal (@rev byte)) in E. rewrite !rev_app_distr in E. rewrite !rev_involutive in E.
      apply (f_equal (firstn 16)) in E. rewrite !firstn_app, !le_bytes_length in E. change (16 - 16)%nat with 0%nat in E.
      rewrite !firstn_O, !app_nil_r in E. rewrite !firstn_all2 in E by (rewrite le_bytes_length; lia). now rewrite E. }
    apply (f_equal (@rev byte)) in R. rewrite !rev_involutive in R. apply le_bytes_inj in R; change (256 ^ Z.of_nat 16) with (8 * 2 ^ 125); lia. }
  unfold sha_pad in E. apply (f_equal (firstn (List.length a))) in E.
  rewrite !firstn_app, !Nat.sub_diag, !firstn_O, !app_nil_r, !firstn_all in E.
  rewrite L, Nat.sub_diag, firstn_O, app_nil_r, firstn_all in E. exact E.
Qed.

(** The constants are what the standard says they are (exact integer roots, for all eighty and all eight). *)
Lemma sha_K_roots : Forall (fun pc => exists n, (n * 2 ^ 64 + snd pc) ^ 3 <= fst pc * 2 ^ 192 < (n * 2 ^ 64 + snd pc + 1) ^ 3)
  (combine sha_primes sha_K) /\ Forall (fun c => 0 <= c < 2 ^ 64) sha_K /\ List.length sha_K = 80%nat.
Proof.
  split; [|split; [|reflexivity]].
  - assert (B : forallb (fun pc => existsb (fun n => ((n * 2 ^ 64 + snd pc) ^ 3 <=? fst pc * 2 ^ 192) && (fst pc * 2 ^ 192 <? (n * 2 ^ 64 + snd pc + 1) ^ 3))
      [1; 2; 3; 4; 5; 6; 7]) (combine sha_primes sha_K) = true) by (vm_compute; reflexivity).
    rewrite forallb_forall in B. apply Forall_forall. intros x Hx. specialize (B x Hx).
    apply existsb_exists in B as (n & _ & B). apply andb_true_iff in B as [B1 B2]. exists n. lia.
  - assert (B : forallb (fun c => (0 <=? c) && (c <? 2 ^ 64)) sha_K = true) by (vm_compute; reflexivity).
    rewrite forallb_forall in B. apply Forall_forall. intros x Hx. specialize (B x Hx). lia.
Qed.
Lemma sha_H0_roots : Forall (fun pc => exists n, (n * 2 ^ 64 + snd pc) ^ 2 <= fst pc * 2 ^ 128 < (n * 2 ^ 64 + snd pc + 1) ^ 2)
  (combine sha_primes sha_H0) /\ Forall (fun c => 0 <= c < 2 ^ 64) sha_H0 /\ List.length sha_H0 = 8%nat.
Proof.
  split; [|split; [|reflexivity]].
  - assert (B : forallb (fun pc => existsb (fun n => ((n * 2 ^ 64 + snd pc) ^ 2 <=? fst pc * 2 ^ 128) && (fst pc * 2 ^ 128 <? (n * 2 ^ 64 + snd pc + 1) ^ 2))
      [1; 2; 3; 4]) (combine sha_primes sha_H0) = true) by (vm_compute; reflexivity).
    rewrite forallb_forall in B. apply Forall_forall. intros x Hx. specialize (B x Hx).
    apply existsb_exists in B as (n & _ & B). apply andb_true_iff in B as [B1 B2]. exists n. lia.
  - assert (B : forallb (fun c => (0 <=? c) && (c <? 2 ^ 64)) sha_H0 = true) by (vm_compute; reflexivity).
    rewrite forallb_forall in B. apply Forall_forall. intros x Hx. specialize (B x Hx). lia.
Qed.

(** The standard's examples: "abc", and a message of two blocks. *)
Example sha_abc : le_val (rev (Sum512 [x61; x62; x63])) = 0xddaf35a193617abacc417349ae20413112e6fa4e89a97ea20a9eeee64b55d39a2192992a274fc1a836ba3c23a3feebbd454d4423643ce80e2a9ac94fa54ca49f.
Proof. vm_compute. reflexivity. Qed.
Example sha_two_blocks : le_val (rev (Sum512 [x61; x62; x63; x64; x65; x66; x67; x68; x62; x63; x64; x65; x66; x67; x68; x69; x63; x64; x65; x66; x67; x68; x69; x6a; x64; x65; x66; x67; x68; x69; x6a; x6b; x65; x66; x67; x68; x69; x6a; x6b; x6c; x66; x67; x68; x69; x6a; x6b; x6c; x6d; x67; x68; x69; x6a; x6b; x6c; x6d; x6e; x68; x69; x6a; x6b; x6c; x6d; x6e; x6f; x69; x6a; x6b; x6c; x6d; x6e; x6f; x70; x6a; x6b; x6c; x6d; x6e; x6f; x70; x71; x6b; x6c; x6d; x6e; x6f; x70; x71; x72; x6c; x6d; x6e; x6f; x70; x71; x72; x73; x6d; x6e; x6f; x70; x71; x72; x73; x74; x6e; x6f; x70; x71; x72; x73; x74; x75])) = 0x8e959b75dae313da8cf4f72814fc143f8f7779c6eb9f7fa17299aeadb6889018501d289e4900f7e4331b99dec4b5433ac7d329eeb6dd26545e96e55b874be909.
Proof. vm_compute. reflexivity. Qed.
