(** C45: scalars drawn from crypto/rand. *)
From Coq Require Import ZArith Lia List Bool String Permutation.
From Coq.Strings Require Import Byte.
From Verif Require Import ZField Primes Bytes Scalar Go Group Spec_Poly PolyAlg Party Poly Zk Eddsa Messages State Keygen Sign
  Spec_Keygen StateFacts Properties_Keygen Properties_HonestKeygen.
Import ListNotations.
Local Open Scope Z_scope.

(** [n] strings of 64 bytes satisfy [A]. *)
Definition strings_with (A : list byte -> Prop) (n : Z) : Prop :=
  exists l, List.NoDup l /\ Z.of_nat (List.length l) = n /\ forall b, In b l <-> List.length b = 64%nat /\ A b.
(** As many of the 2^512 strings as a uniform choice of q values allows: the quotient or one more. *)
Definition fair (A : list byte -> Prop) : Prop :=
  exists n, strings_with A n /\ (n = 2 ^ 512 / q25519 \/ n = 2 ^ 512 / q25519 + 1).

(** One draw, as a function of the bytes read: scalar.go:11-20 with a full read.  (SetScalarRandom takes them as a number.) *)
Definition scalar_of (b : list byte) : Fq := SetScalarRandom (fun _ => le_val b) 0.

Lemma pow512 : 256 ^ Z.of_nat 64 = 2 ^ 512. Proof. reflexivity. Qed.
Lemma scalar_of_val b : List.length b = 64%nat -> scalar_of b = qof (le_val b).
Proof.
  intros H. unfold scalar_of, SetScalarRandom, scalar_set_uniform. rewrite le_bytes_length. simpl Nat.eqb. cbv iota.
  rewrite le_val_le_bytes, Z.mod_small; [reflexivity|]. rewrite <- H. apply le_val_range.
Qed.
Lemma rng_scalar_of (r : rng) i b : List.length b = 64%nat -> r i = le_val b -> SetScalarRandom r i = scalar_of b.
Proof. intros _ E. unfold scalar_of, SetScalarRandom. now rewrite E. Qed.
Lemma q_lt_512 : q25519 < 2 ^ 512. Proof. reflexivity. Qed.

(** The numbers below M that are congruent to a: a, a + q, ... *)
Lemma residues M q a : 0 < q -> 0 <= a < q -> q < M -> exists l : list Z, List.NoDup l /\
  (Z.of_nat (List.length l) = M / q \/ Z.of_nat (List.length l) = M / q + 1) /\ forall z, In z l <-> 0 <= z < M /\ z mod q = a.
Proof.
  intros Hq Ha HM. set (n := if a <? M mod q then M / q + 1 else M / q).
  assert (0 <= M / q) as Hd by (apply Z.div_pos; lia). pose proof (Z.div_mod M q ltac:(lia)) as EM. pose proof (Z.mod_pos_bound M q Hq) as Hm.
  assert (0 <= n) as Hn by (unfold n; destruct (a <? M mod q); lia).
  exists (map (fun k => a + q * Z.of_nat k) (seq 0 (Z.to_nat n))). split; [|split].
  - apply FinFun.Injective_map_NoDup; [|apply seq_NoDup]. intros x y E. nia.
  - rewrite map_length, seq_length, Z2Nat.id by auto. unfold n. destruct (a <? M mod q); auto.
  - intros z. rewrite in_map_iff. split.
    + intros (k & <- & Hk). apply in_seq in Hk. assert (Z.of_nat k < n) as Hk' by lia. split.
      * unfold n in Hk'. destruct (Z.ltb_spec a (M mod q)); nia.
      * rewrite Z.mul_comm, Z.mod_add by lia. now apply Z.mod_small.
    + intros [Hz Ez]. exists (Z.to_nat (z / q)). pose proof (Z.div_mod z q ltac:(lia)) as E. assert (0 <= z / q) as Hzq by (apply Z.div_pos; lia).
      rewrite Z2Nat.id by auto. split; [lia|]. apply in_seq. split; [lia|]. cbn. apply Z2Nat.inj_lt; auto.
      assert (z / q < M / q + 1) by (assert (z / q <= M / q) by (apply Z.div_le_mono; lia); lia).
      unfold n. destruct (Z.ltb_spec a (M mod q)); [lia|]. assert (z / q <> M / q); [|lia]. intros X. rewrite X in E. nia.
Qed.

(** Every scalar is the result of the quotient of the 64-byte strings, or of one more: no scalar is more than one string
    in 2^259 likelier than another. *)
Theorem C45_near_uniform : forall s : Fq, fair (fun b => scalar_of b = s).
Proof.
  intros s. pose proof (fz_Fq_range s) as Hs. destruct (residues (2 ^ 512) q25519 (fz s) q_pos Hs q_lt_512) as (l & ND & HL & Hl).
  exists (Z.of_nat (List.length l)). split; [|exact HL]. exists (map (le_bytes 64) l). split; [|split].
  - assert (forall x, In x l -> 0 <= x < 256 ^ Z.of_nat 64) as HB. { intros x Hx. rewrite pow512. now apply Hl. }
    clear - ND HB. induction ND as [|x l Hx ND IH]; cbn [map]; constructor.
    + rewrite in_map_iff. intros (y & E & Hy). apply le_bytes_inj in E; [|apply HB; now right|apply HB; now left]. now subst.
    + apply IH. intros y Hy. apply HB. now right.
  - now rewrite map_length.
  - intros b. rewrite in_map_iff. split.
    + intros (z & <- & Hz). apply Hl in Hz as [Hz Ez]. rewrite le_bytes_length. split; auto. rewrite scalar_of_val by apply le_bytes_length.
      rewrite le_val_le_bytes, pow512, Z.mod_small by auto. rewrite <- (fof_fz s), <- Ez. apply fof_eq. now rewrite Z.mod_mod by (pose proof q_pos; lia).
    + intros [Hb E]. exists (le_val b). split; [rewrite <- Hb; apply le_bytes_le_val|]. apply Hl. split; [rewrite <- pow512, <- Hb; apply le_val_range|].
      rewrite scalar_of_val in E by auto. rewrite <- E. reflexivity.
Qed.

Lemma fair_ext (A B : list byte -> Prop) : (forall b, List.length b = 64%nat -> (A b <-> B b)) -> fair A -> fair B.
Proof.
  intros H (n & (l & ND & HL & Hl) & Hn). exists n. split; auto. exists l. split; auto. split; auto. intros b. rewrite Hl. split; intros [X Y]; split; auto; apply H; auto.
Qed.

(** Other rows of randomness with party i's first read replaced by [b]. *)
Definition redraw (rg : Z -> rng) (i : Z) (b : list byte) : Z -> rng :=
  fun j k => if (j =? i) && Nat.eqb k 0 then le_val b else rg j k.

(** The shared polynomial of key generation at any point - the group's secret at 0, the share of j at j - is as near to
    uniform as one draw, because of the first read of any one party, whatever all the others drew. *)
Theorem C45_key : forall ids thr rg i x s, List.NoDup ids -> In i ids -> fair (fun b => shared ids thr (redraw rg i b) x = s).
Proof.
  intros ids thr rg i x s ND Hi.
  set (rest := fadd (fmul x (peval (map (SetScalarRandom (rg i)) (seq 1 (Z.to_nat thr))) x)) (Fsum (map (fun j => spoly (dealt (rg j) (Z.to_nat thr)) x) (others_of i ids)))).
  apply (fair_ext (fun b => scalar_of b = fsub s rest)); [|apply C45_near_uniform].
  intros b Hb. assert (shared ids thr (redraw rg i b) x = fadd (scalar_of b) rest) as ->.
  { unfold shared. rewrite (Fsum_perm _ (map (fun j => spoly (dealt (redraw rg i b j) (Z.to_nat thr)) x) (i :: others_of i ids))) by (apply Permutation_map; now apply others_perm).
    cbn [map]. match goal with |- Fsum (?a :: ?l) = _ => change (Fsum (a :: l)) with (fadd a (Fsum l)) end. unfold rest.
    assert (spoly (dealt (redraw rg i b i) (Z.to_nat thr)) x = fadd (scalar_of b) (fmul x (peval (map (SetScalarRandom (rg i)) (seq 1 (Z.to_nat thr))) x))) as ->.
    { rewrite <- peval_spoly. unfold dealt. cbn [seq map peval]. f_equal.
      - apply rng_scalar_of; auto. unfold redraw. now rewrite Z.eqb_refl.
      - f_equal. f_equal. apply map_ext_in. intros k Hk. apply in_seq in Hk. unfold SetScalarRandom. f_equal. f_equal. unfold redraw.
        rewrite Z.eqb_refl. destruct k; [lia|reflexivity]. }
    assert (map (fun j => spoly (dealt (redraw rg i b j) (Z.to_nat thr)) x) (others_of i ids) = map (fun j => spoly (dealt (rg j) (Z.to_nat thr)) x) (others_of i ids)) as ->; [|ring].
    apply map_ext_in. intros j Hj. apply others_of_In in Hj as [_ Hne]. f_equal. unfold dealt. apply map_ext. intros k. unfold SetScalarRandom, redraw.
    apply Z.eqb_neq in Hne. now rewrite Hne. }
  split; intros E; [rewrite E; ring|rewrite <- E; ring].
Qed.

(** What this rests on: SetScalarRandom does not look at how many bytes were read.  With a full read it is the draw above;
    with n < 64 bytes it takes at most 256^n values, with none it is zero. *)
Theorem C45_full_read : forall b, List.length b = 64%nat -> SetScalarRandomRead b = scalar_of b.
Proof.
  intros b Hb. rewrite scalar_of_val by auto. unfold SetScalarRandomRead, scalar_set_uniform. rewrite Hb. cbn [Nat.sub repeat]. rewrite app_nil_r, Hb. reflexivity.
Qed.
Lemma le_val_zeros b n : le_val (b ++ repeat x00 n) = le_val b.
Proof.
  induction b as [|c b IH]; cbn [app le_val]; [|now rewrite IH]. induction n as [|n IH]; cbn [repeat le_val]; [reflexivity|]. rewrite IH. reflexivity.
Qed.
Theorem C45_short_read : forall b, (List.length b < 32)%nat -> fz (SetScalarRandomRead b) < 256 ^ Z.of_nat (List.length b).
Proof.
  intros b Hb. unfold SetScalarRandomRead, scalar_set_uniform. rewrite app_length, repeat_length. replace (List.length b + (64 - List.length b))%nat with 64%nat by lia.
  simpl Nat.eqb. cbv iota. rewrite le_val_zeros, fz_qof. pose proof (le_val_range b). pose proof q_pos.
  assert (le_val b mod q25519 <= le_val b) by (apply Z.mod_le; lia). lia.
Qed.
Theorem C45_short_read_missed : forall n, (n < 32)%nat -> exists s : Fq, forall b, List.length b = n -> SetScalarRandomRead b <> s.
Proof.
  intros n Hn. exists (qof (256 ^ 31)). intros b Hb E. pose proof (C45_short_read b ltac:(lia)) as H. rewrite E, fz_qof, Hb in H.
  rewrite Z.mod_small in H by (split; [lia|reflexivity]). assert (256 ^ Z.of_nat n <= 256 ^ 31) by (apply Z.pow_le_mono_r; lia). lia.
Qed.

(** Concrete cases: two strings that give the same scalar, and the numbers involved. *)
Example C45_example :
  scalar_of (le_bytes 64 5) = qof 5 /\ scalar_of (le_bytes 64 (5 + q25519)) = qof 5 /\ scalar_of (repeat x00 64) = f0 /\
  2 ^ 259 < 2 ^ 512 / q25519 < 2 ^ 260 /\ fz (SetScalarRandomRead [x05]) = 5 /\ fz (SetScalarRandomRead []) = 0.
Proof. repeat split; try (apply feqb_eq); vm_compute; reflexivity. Qed.

Print Assumptions C45_near_uniform.
Print Assumptions C45_key.
Print Assumptions C45_full_read.
Print Assumptions C45_short_read.
Print Assumptions C45_short_read_missed.
