(** C40: text encodings. *)
From Coq Require Import ZArith Lia List Bool String.
From Coq.Strings Require Import Byte.
From Verif Require Import ZField Primes Bytes Scalar Go Group Fp Edwards EdPoint Ristretto RistrettoGroup Spec_Ristretto Properties_Ristretto Text Spec_Text.
Import ListNotations.
Local Open Scope Z_scope.

(** ** Decimal *)
Definition dec_from (n : Z) (t : list byte) : Z := fold_left (fun n c => 10 * n + (b2z c - 48)) t n.
Lemma dec_from_ge t : forall n, 0 <= n -> Forall digit t -> n <= dec_from n t.
Proof.
  induction t as [|c t IH]; intros n Hn H; cbn [dec_from fold_left]; [lia|]. inversion H as [|? ? D H']; subst.
  unfold digit in D. specialize (IH (10 * n + (b2z c - 48)) ltac:(lia) H'). unfold dec_from in *. lia.
Qed.
Lemma parse_iff t : forall n m, 0 <= n <= 65535 -> (parse_loop n t = Ret m <-> Forall digit t /\ dec_from n t = m /\ m <= 65535).
Proof.
  induction t as [|c t IH]; intros n m Hn; cbn [parse_loop].
  - cbn. split; [intros [= <-]; auto with zarith|]. intros (_ & -> & _). reflexivity.
  - destruct ((b2z c - 48 <? 0) || (9 <? b2z c - 48))%bool eqn:E.
    + split; [discriminate|]. intros (H & _). inversion H as [|? ? D]; subst. unfold digit in D.
      apply orb_true_iff in E as [E|E]; apply Z.ltb_lt in E; lia.
    + apply orb_false_iff in E as [E1 E2]. apply Z.ltb_ge in E1, E2.
      destruct (65535 <? n * 10 + (b2z c - 48)) eqn:E.
      * apply Z.ltb_lt in E. split; [discriminate|]. intros (H & <- & Hm). exfalso. inversion H as [|? ? D H']; subst.
        pose proof (dec_from_ge t (10 * n + (b2z c - 48)) ltac:(lia) H') as G. unfold dec_from in *. cbn [fold_left] in Hm. lia.
      * apply Z.ltb_ge in E. rewrite IH by lia. unfold dec_from. cbn [fold_left]. replace (n * 10) with (10 * n) by lia.
        split; intros (H & H2 & H3); (split; [|split; auto]).
        -- constructor; auto. unfold digit. lia.
        -- now inversion H.
Qed.

Theorem C40_id_accepts : forall text n,
  id_UnmarshalText text = Ret n <-> text <> [] /\ Forall digit text /\ dec_value text = n /\ n < 65536.
Proof.
  intros text n. unfold id_UnmarshalText, ParseUint16. destruct text as [|c t].
  { cbn [obind]. split; [discriminate|]. now intros [H _]. }
  set (s := c :: t). assert (s <> []) by discriminate. destruct (parse_loop 0 s) as [m|e|w] eqn:E; cbn [obind].
  - apply parse_iff in E as (H1 & H2 & H3); [|lia]. pose proof (dec_from_ge s 0 ltac:(lia) H1) as G.
    rewrite (proj2 (Z.ltb_ge _ _)) by lia. rewrite Z.mod_small by lia. change (dec_value s) with (dec_from 0 s).
    split; [intros [= <-]; repeat split; auto; lia|]. intros (_ & _ & <- & _). congruence.
  - split; [discriminate|]. intros (_ & H1 & H2 & H3). exfalso.
    assert (parse_loop 0 s = Ret n) by (apply parse_iff; [lia|]; repeat split; auto; lia). congruence.
  - split; [discriminate|]. intros (_ & H1 & H2 & H3). exfalso.
    assert (parse_loop 0 s = Ret n) by (apply parse_iff; [lia|]; repeat split; auto; lia). congruence.
Qed.
Theorem C40_id_total : forall text, (exists n, id_UnmarshalText text = Ret n) \/ (exists e, id_UnmarshalText text = Fail e).
Proof.
  intros text. unfold id_UnmarshalText, ParseUint16. destruct text as [|c t]; [cbn; eauto|].
  generalize (c :: t). clear c t. intros s. generalize 0. induction s as [|c s IH]; intros n; cbn [parse_loop obind].
  - destruct (_ <? _); eauto.
  - destruct (_ || _); cbn [obind]; eauto. destruct (65535 <? _); cbn [obind]; eauto.
Qed.

Lemma chr_digit u : 0 <= u <= 9 -> b2z (chr (48 + u)) = 48 + u.
Proof. intros H. unfold chr. rewrite b2z_z2b. apply Z.mod_small. lia. Qed.
Lemma format_ok fuel : forall u acc, 0 <= u < 10 ^ Z.of_nat fuel -> (0 < fuel)%nat -> exists ds,
  format_loop fuel u acc = ds ++ acc /\ Forall digit ds /\ dec_value ds = u /\ (exists c ds', ds = c :: ds' /\ (b2z c = 48 -> ds' = [] /\ u = 0)).
Proof.
  induction fuel as [|k IH]; intros u acc Hu Hf; [lia|]. cbn [format_loop].
  destruct (u <? 10) eqn:E.
  - apply Z.ltb_lt in E. exists [chr (48 + u)]. split; [reflexivity|]. assert (D := chr_digit u ltac:(lia)). split; [|split].
    + constructor; [unfold digit; lia|constructor].
    + unfold dec_value. cbn [fold_left]. lia.
    + exists (chr (48 + u)), []. split; auto. intros. split; auto. lia.
  - apply Z.ltb_ge in E. assert (0 < k)%nat. { destruct k; [cbn in Hu; lia|lia]. }
    rewrite Nat2Z.inj_succ, Z.pow_succ_r in Hu by lia.
    pose proof (Z.div_mod u 10 ltac:(lia)) as DM. pose proof (Z.mod_pos_bound u 10 ltac:(lia)) as MB.
    destruct (IH (u / 10) (chr (48 + u mod 10) :: acc)) as (ds & E1 & E2 & E3 & c & ds' & E4 & E5); [|lia|].
    { split; [apply Z.div_pos; lia|]. apply Z.div_lt_upper_bound; lia. }
    assert (D := chr_digit (u mod 10) ltac:(lia)).
    exists (ds ++ [chr (48 + u mod 10)]). split; [now rewrite E1, <- app_assoc|]. split; [|split].
    + apply Forall_app. split; auto. constructor; [unfold digit; lia|constructor].
    + unfold dec_value in *. rewrite fold_left_app, E3. cbn [fold_left]. lia.
    + exists c, (ds' ++ [chr (48 + u mod 10)]). split; [now rewrite E4|]. intros C. destruct (E5 C) as [_ Z0]. lia.
Qed.
Lemma FormatUint_ok u : 0 <= u < 2 ^ 64 -> Forall digit (FormatUint u) /\ dec_value (FormatUint u) = u /\ shortest (FormatUint u).
Proof.
  intros H. destruct (format_ok 20 u []) as (ds & E1 & E2 & E3 & c & ds' & E4 & E5); [|lia|].
  { replace (10 ^ Z.of_nat 20) with 100000000000000000000 by reflexivity. change (2 ^ 64) with 18446744073709551616 in H. lia. }
  unfold FormatUint. rewrite E1, app_nil_r. refine (conj E2 (conj E3 _)). exists c, ds'. split; auto. intros C. now destruct (E5 C).
Qed.

Theorem C40_id_marshal : forall id, 0 <= id < 65536 ->
  Forall digit (id_MarshalText id) /\ dec_value (id_MarshalText id) = id /\ shortest (id_MarshalText id).
Proof. intros id H. apply FormatUint_ok. lia. Qed.
Theorem C40_id_round_trip : forall id, 0 <= id < 65536 -> id_UnmarshalText (id_MarshalText id) = Ret id.
Proof.
  intros id H. destruct (C40_id_marshal id H) as (H1 & H2 & c & t & H3 & _). apply C40_id_accepts. refine (conj _ (conj H1 (conj H2 _))); [|lia].
  rewrite H3. discriminate.
Qed.
Theorem C40_id_injective : forall i j, 0 <= i < 65536 -> 0 <= j < 65536 -> id_MarshalText i = id_MarshalText j -> i = j.
Proof. intros i j Hi Hj E. apply C40_id_round_trip in Hi, Hj. rewrite E in Hi. congruence. Qed.
(** A text with superfluous zeros is read as well, so the text of an ID is not unique. *)
Theorem C40_id_zeros : forall text n, id_UnmarshalText text = Ret n -> id_UnmarshalText ("0"%byte :: text) = Ret n.
Proof.
  intros text n H. apply C40_id_accepts in H as (H0 & H1 & H2 & H3). apply C40_id_accepts. refine (conj _ (conj _ (conj _ H3))); [discriminate| |].
  - constructor; auto. unfold digit. cbn. lia.
  - rewrite <- H2. unfold dec_value. cbn [fold_left]. f_equal.
Qed.

(** ** Base64 *)
Definition zrange (n : nat) : list Z := map Z.of_nat (seq 0 n).
Lemma in_zrange n i : 0 <= i < Z.of_nat n -> In i (zrange n).
Proof. intros H. apply in_map_iff. exists (Z.to_nat i). split; [lia|]. apply in_seq. lia. Qed.
Lemma b64_table : forallb (fun i => match b64_index (b64_char i) with Some j => i =? j | None => false end) (zrange 64) = true.
Proof. vm_compute. reflexivity. Qed.
Lemma b64_index_char i : 0 <= i < 64 -> b64_index (b64_char i) = Some i.
Proof.
  intros H. pose proof b64_table as T. rewrite forallb_forall in T. specialize (T i (in_zrange 64 i H)).
  destruct (b64_index (b64_char i)); [|discriminate]. apply Z.eqb_eq in T. congruence.
Qed.
Lemma b64_alphabet_ok i : 0 <= i < 64 -> nth_error b64_alphabet (Z.to_nat i) = Some (b64_char i).
Proof.
  assert (T : forallb (fun i => match nth_error b64_alphabet (Z.to_nat i) with Some c => Byte.eqb c (b64_char i) | None => false end) (zrange 64) = true) by (vm_compute; reflexivity).
  intros H. rewrite forallb_forall in T. specialize (T i (in_zrange 64 i H)).
  destruct (nth_error _ _); [|discriminate]. apply Byte_eqb_eq in T. congruence.
Qed.
Lemma b64_char_nl i : 0 <= i < 64 -> not_newline (b64_char i) = true.
Proof.
  assert (T : forallb (fun i => not_newline (b64_char i)) (zrange 64) = true) by (vm_compute; reflexivity).
  intros H. rewrite forallb_forall in T. exact (T i (in_zrange 64 i H)).
Qed.

(** Induction in steps of three. *)
Lemma list_ind3 {A} (P : list A -> Prop) : P [] -> (forall a, P [a]) -> (forall a b, P [a; b]) -> (forall a b c l, P l -> P (a :: b :: c :: l)) -> forall l, P l.
Proof.
  intros H0 H1 H2 H3. assert (forall l, P l /\ (forall a, P (a :: l)) /\ (forall a b, P (a :: b :: l))) as K; [|intros l; apply K].
  induction l as [|x l (IH1 & IH2 & IH3)]; auto.
Qed.
Lemma sext v k : 0 <= v / 2 ^ k mod 64 < 64. Proof. apply Z.mod_pos_bound. lia. Qed.
Lemma sext0 v : 0 <= v mod 64 < 64. Proof. apply Z.mod_pos_bound. lia. Qed.

Lemma nl_encode b : filter not_newline (b64_encode b) = b64_encode b.
Proof.
  induction b as [|a|a b|a b c l IH] using list_ind3; cbn [b64_encode app].
  - reflexivity.
  - cbn [filter]. rewrite !b64_char_nl by apply sext. reflexivity.
  - cbn [filter]. rewrite !b64_char_nl by apply sext. reflexivity.
  - cbn [filter]. rewrite !b64_char_nl by (apply sext || apply sext0). now rewrite IH.
Qed.

Lemma quantum v : 0 <= v < 2 ^ 24 -> v / 2 ^ 18 mod 64 * 2 ^ 18 + v / 2 ^ 12 mod 64 * 2 ^ 12 + v / 2 ^ 6 mod 64 * 2 ^ 6 + v mod 64 = v.
Proof.
  intros H. change (2 ^ 24) with 16777216 in H. change (2 ^ 18) with 262144. change (2 ^ 12) with 4096. change (2 ^ 6) with 64.
  Z.div_mod_to_equations. lia.
Qed.
Lemma bytes3 a b c : z2b ((b2z a * 65536 + b2z b * 256 + b2z c) / 65536) = a /\ z2b ((b2z a * 65536 + b2z b * 256 + b2z c) / 256) = b /\ z2b (b2z a * 65536 + b2z b * 256 + b2z c) = c.
Proof.
  pose proof (b2z_range a). pose proof (b2z_range b). pose proof (b2z_range c).
  refine (conj _ (conj _ _)); apply b2z_inj; rewrite b2z_z2b; Z.div_mod_to_equations; lia.
Qed.

Lemma decode_encode b : forall fuel, (List.length b < fuel)%nat -> decode_quanta fuel (b64_encode b) = Some b.
Proof.
  induction b as [|a|a b|a b c l IH] using list_ind3; intros [|k] Hk; try (cbn [List.length] in Hk; lia); cbn [b64_encode app decode_quanta].
  - reflexivity.
  - rewrite !b64_index_char by apply sext. cbn [b64_index pad]. pose proof (b2z_range a).
    set (v := b2z a * 65536). assert (Q := quantum v ltac:(lia)).
    change (b64_index pad) with (@None Z). change (Byte.eqb pad pad) with true. cbn [andb]. do 2 f_equal.
    assert (v / 2 ^ 6 mod 64 = 0 /\ v mod 64 = 0) as [E1 E2] by (unfold v; change (2 ^ 6) with 64; Z.div_mod_to_equations; lia).
    rewrite E1, E2 in Q. replace (v / 2 ^ 18 mod 64 * 2 ^ 18 + v / 2 ^ 12 mod 64 * 2 ^ 12) with v by lia.
    destruct (bytes3 a x00 x00) as (B & _ & _). change (b2z x00) with 0 in B. transitivity (z2b ((b2z a * 65536 + 0 * 256 + 0) / 65536)); [|exact B].
    f_equal. f_equal. unfold v. lia.
  - rewrite !b64_index_char by apply sext. pose proof (b2z_range a). pose proof (b2z_range b).
    set (v := b2z a * 65536 + b2z b * 256). assert (Q := quantum v ltac:(lia)).
    change (b64_index pad) with (@None Z). change (Byte.eqb pad pad) with true. cbn [andb].
    assert (v mod 64 = 0) as E2 by (unfold v; Z.div_mod_to_equations; lia).
    rewrite E2 in Q. replace (v / 2 ^ 18 mod 64 * 2 ^ 18 + v / 2 ^ 12 mod 64 * 2 ^ 12 + v / 2 ^ 6 mod 64 * 2 ^ 6) with v by lia.
    destruct (bytes3 a b x00) as (B1 & B2 & _). change (b2z x00) with 0 in *. rewrite Z.add_0_r in *. fold v in B1, B2. now rewrite B1, B2.
  - rewrite !b64_index_char by (apply sext || apply sext0). pose proof (b2z_range a). pose proof (b2z_range b). pose proof (b2z_range c).
    rewrite quantum by lia. cbn [List.length] in Hk. rewrite IH by lia. destruct (bytes3 a b c) as (-> & -> & ->). reflexivity.
Qed.
Lemma encode_len b : (List.length b <= List.length (b64_encode b))%nat.
Proof. induction b as [|a|a b|a b c l IH] using list_ind3; cbn [b64_encode app List.length]; lia. Qed.
Theorem C40_base64 : forall b, b64_decode (b64_encode b) = Some b.
Proof. intros b. unfold b64_decode. rewrite nl_encode. apply decode_encode. pose proof (encode_len b). lia. Qed.

Lemma number_app base ds : forall n, fold_left (fun n d => base * n + d) ds n = n * base ^ Z.of_nat (List.length ds) + number base ds.
Proof.
  unfold number. induction ds as [|d ds IH]; intros n; cbn [fold_left List.length]; [cbn; lia|].
  rewrite (IH (base * n + d)), (IH (base * 0 + d)), Nat2Z.inj_succ, Z.pow_succ_r by lia. ring.
Qed.
Lemma number_cons base d ds : number base (d :: ds) = d * base ^ Z.of_nat (List.length ds) + number base ds.
Proof. unfold number at 1. cbn [fold_left]. rewrite number_app. f_equal. ring. Qed.

Theorem C40_base64_spec : forall b, b64_of b (b64_encode b).
Proof.
  unfold b64_of. induction b as [|a|a b|a b c l IH] using list_ind3; cbn [b64_encode app].
  - exists [], [], 0%nat. repeat split; auto; constructor.
  - set (v := b2z a * 65536). pose proof (b2z_range a).
    exists [b64_char (v / 2 ^ 18 mod 64); b64_char (v / 2 ^ 12 mod 64)], [v / 2 ^ 18 mod 64; v / 2 ^ 12 mod 64], 2%nat.
    refine (conj eq_refl (conj _ (conj _ (conj eq_refl (conj eq_refl _))))); [|lia|].
    + repeat constructor; try apply sext; apply b64_alphabet_ok; apply sext.
    + unfold number. cbn [map fold_left]. change (4 ^ Z.of_nat 2) with 16. unfold v. change (2 ^ 18) with 262144. change (2 ^ 12) with 4096. Z.div_mod_to_equations. lia.
  - set (v := b2z a * 65536 + b2z b * 256). pose proof (b2z_range a). pose proof (b2z_range b).
    exists [b64_char (v / 2 ^ 18 mod 64); b64_char (v / 2 ^ 12 mod 64); b64_char (v / 2 ^ 6 mod 64)], [v / 2 ^ 18 mod 64; v / 2 ^ 12 mod 64; v / 2 ^ 6 mod 64], 1%nat.
    refine (conj eq_refl (conj _ (conj _ (conj eq_refl (conj eq_refl _))))); [|lia|].
    + repeat constructor; try apply sext; apply b64_alphabet_ok; apply sext.
    + unfold number. cbn [map fold_left]. change (4 ^ Z.of_nat 1) with 4. assert (Q := quantum v ltac:(lia)).
      assert (v mod 64 = 0) as E2 by (unfold v; Z.div_mod_to_equations; lia). rewrite E2 in Q. assert (V : v = b2z a * 65536 + b2z b * 256) by reflexivity. clearbody v.
      change (2 ^ 18) with 262144 in *. change (2 ^ 12) with 4096 in *. change (2 ^ 6) with 64 in *. lia.
  - set (v := b2z a * 65536 + b2z b * 256 + b2z c). pose proof (b2z_range a). pose proof (b2z_range b). pose proof (b2z_range c).
    destruct IH as (cs & ds & k & E & HS & Hk & Hm & Hl & HN).
    exists ([b64_char (v / 2 ^ 18 mod 64); b64_char (v / 2 ^ 12 mod 64); b64_char (v / 2 ^ 6 mod 64); b64_char (v mod 64)] ++ cs),
      ([v / 2 ^ 18 mod 64; v / 2 ^ 12 mod 64; v / 2 ^ 6 mod 64; v mod 64] ++ ds), k.
    assert (Ld : List.length cs = List.length ds) by (clear - HS; induction HS; cbn; auto).
    assert (Lc : (List.length (b64_encode l) = List.length cs + k)%nat) by (rewrite E, app_length, repeat_length; reflexivity).
    refine (conj _ (conj _ (conj Hk (conj _ (conj _ _))))).
    + now rewrite E, <- app_assoc.
    + apply Forall2_app; [|exact HS]. repeat constructor; try apply sext; try apply sext0; apply b64_alphabet_ok; apply sext || apply sext0.
    + cbn [List.length]. replace (S (S (S (List.length l))) + k)%nat with ((List.length l + k) + 1 * 3)%nat by lia. rewrite Nat.mod_add by lia. exact Hm.
    + cbn [List.length]. lia.
    + cbn [app map]. rewrite !number_cons, HN. cbn [List.length]. rewrite map_length, <- Ld.
      assert (Q := quantum v ltac:(lia)).
      assert (PW : 64 ^ Z.of_nat (List.length cs) = 256 ^ Z.of_nat (List.length l) * 4 ^ Z.of_nat k).
      { change 64 with (2 ^ 6). change 256 with (2 ^ 8). change 4 with (2 ^ 2). rewrite <- !Z.pow_mul_r, <- Z.pow_add_r by lia. f_equal. lia. }
      rewrite !Nat2Z.inj_succ, !Z.pow_succ_r by lia. rewrite PW. assert (V : v = b2z a * 65536 + b2z b * 256 + b2z c) by reflexivity. clearbody v.
      transitivity (256 ^ Z.of_nat (List.length l) * 4 ^ Z.of_nat k * (v / 2 ^ 18 mod 64 * 2 ^ 18 + v / 2 ^ 12 mod 64 * 2 ^ 12 + v / 2 ^ 6 mod 64 * 2 ^ 6 + v mod 64) + number 256 (map b2z l) * 4 ^ Z.of_nat k); [ring|].
      rewrite Q, V. ring.
Qed.

(** ** Elements *)
Theorem C40_element_round_trip : forall e, valid_element e ->
  exists e', r_UnmarshalText (r_MarshalText e) = Ret e' /\ valid_element e' /\ r_Equal e' e = true.
Proof.
  intros e H. unfold r_UnmarshalText, r_MarshalText. rewrite C40_base64. exact (C32_round_trip e H).
Qed.
Theorem C40_element_marshal : forall e, b64_of (r_Bytes e) (r_MarshalText e) /\ List.length (r_MarshalText e) = 44%nat.
Proof.
  intros e. assert (K := C40_base64_spec (r_Bytes e)). split; [exact K|]. destruct K as (cs & ds & k & _ & _ & Hk & Hm & Hl & _).
  unfold r_MarshalText. assert (List.length (r_Bytes e) = 32%nat) as E by apply le_bytes_length. rewrite E in *.
  destruct k as [|[|[|k]]]; [discriminate|lia|discriminate|lia].
Qed.
Theorem C40_element_accepts : forall text e, r_UnmarshalText text = Ret e -> valid_element e /\ b64_decode text = Some (r_Bytes e).
Proof.
  intros text e. unfold r_UnmarshalText. destruct (b64_decode text) as [b|] eqn:E; [|discriminate]. intros H.
  apply C32_canonical in H as [V <-]. auto.
Qed.
Theorem C40_element_total : forall text, (exists e, r_UnmarshalText text = Ret e) \/ (exists w, r_UnmarshalText text = Fail w).
Proof. intros text. unfold r_UnmarshalText. destruct (b64_decode text); [apply C32_total|eauto]. Qed.
Theorem C40_element_equal : forall e e', valid_element e -> valid_element e' -> (r_MarshalText e = r_MarshalText e' <-> r_Equal e e' = true).
Proof.
  intros e e' H H'. rewrite (C32_equal e e' H H'). unfold r_MarshalText. split; [|congruence]. intros E.
  apply (f_equal b64_decode) in E. rewrite !C40_base64 in E. congruence.
Qed.

(** The text of an element is not unique: line breaks anywhere are skipped. *)
Theorem C40_element_newlines : forall t1 t2 c, b2z c = 10 \/ b2z c = 13 -> r_UnmarshalText (t1 ++ c :: t2) = r_UnmarshalText (t1 ++ t2).
Proof.
  intros t1 t2 c H. unfold r_UnmarshalText, b64_decode. rewrite !filter_app. cbn [filter].
  assert (not_newline c = false) as ->; [|reflexivity]. assert (c = "010"%byte \/ c = "013"%byte) as [-> | ->]; [|reflexivity|reflexivity].
  destruct H; [left|right]; apply b2z_inj; assumption.
Qed.

(** ** Concrete cases *)
Example C40_id_example : id_MarshalText 65535 = ["6";"5";"5";"3";"5"]%byte /\ id_UnmarshalText ["0";"7"]%byte = Ret 7 /\
  id_UnmarshalText ["6";"5";"5";"3";"6"]%byte = Fail "value out of range" /\ id_UnmarshalText ["-";"1"]%byte = Fail "invalid syntax".
Proof. repeat split. Qed.
Example C40_element_example : exists e, r_UnmarshalText (r_MarshalText xbase) = Ret e /\ r_Equal e xbase = true /\
  firstn 4 (r_MarshalText xbase) = ["4";"v";"K";"u"]%byte /\ r_UnmarshalText ("010"%byte :: r_MarshalText xbase) = Ret e.
Proof.
  destruct (C40_element_round_trip xbase valid_base) as (e & A & _ & B). exists e. refine (conj A (conj B (conj _ _))).
  - unfold r_MarshalText. rewrite base_vector_ok. reflexivity.
  - rewrite <- A. exact (C40_element_newlines [] (r_MarshalText xbase) "010"%byte (or_introl eq_refl)).
Qed.

Print Assumptions C40_id_round_trip.
Print Assumptions C40_element_round_trip.
Print Assumptions C40_element_accepts.
