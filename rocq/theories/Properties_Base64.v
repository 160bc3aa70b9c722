(** C40: the texts that the base64 decoder accepts. *)
From Coq Require Import ZArith Lia List Bool String.
From Coq.Strings Require Import Byte.
From Verif Require Import ZField Primes Bytes Scalar Go Group Fp Edwards EdPoint Ristretto RistrettoGroup Spec_Ristretto Properties_Ristretto Text Spec_Text Properties_Text.
Import ListNotations.
Local Open Scope Z_scope.

Lemma no_line_break_ok c : not_newline c = no_line_break c.
Proof.
  unfold not_newline, no_line_break. f_equal. f_equal.
  - destruct (Z.eqb_spec (b2z c) 10) as [E|E].
    + change 10 with (b2z "010"%byte) in E. apply b2z_inj in E. subst. reflexivity.
    + destruct (Byte.eqb c "010"%byte) eqn:X; [|reflexivity]. apply Byte_eqb_eq in X. subst. now destruct E.
  - destruct (Z.eqb_spec (b2z c) 13) as [E|E].
    + change 13 with (b2z "013"%byte) in E. apply b2z_inj in E. subst. reflexivity.
    + destruct (Byte.eqb c "013"%byte) eqn:X; [|reflexivity]. apply Byte_eqb_eq in X. subst. now destruct E.
Qed.

Lemma index_all : forall c d, b64_index c = Some d -> 0 <= d < 64 /\ nth_error b64_alphabet (Z.to_nat d) = Some c.
Proof.
  assert (T : forallb (fun i => match b64_index (z2b i) with Some d => (0 <=? d) && (d <? 64) && match nth_error b64_alphabet (Z.to_nat d) with Some c => Byte.eqb c (z2b i) | None => false end | None => true end) (zrange 256) = true) by (vm_compute; reflexivity).
  intros c d E. rewrite forallb_forall in T. specialize (T (b2z c) (in_zrange 256 (b2z c) (b2z_range c))). rewrite z2b_b2z, E in T.
  apply andb_true_iff in T as [T1 T2]. apply andb_true_iff in T1 as [T0 T1]. apply Z.leb_le in T0. apply Z.ltb_lt in T1. split; [lia|].
  destruct (nth_error _ _); [|discriminate]. apply Byte_eqb_eq in T2. congruence.
Qed.
Lemma index_alphabet c d : 0 <= d -> nth_error b64_alphabet (Z.to_nat d) = Some c -> b64_index c = Some d.
Proof.
  intros H E. assert (Z.to_nat d < 64)%nat as Hd. { change 64%nat with (List.length b64_alphabet). apply nth_error_Some. congruence. }
  rewrite b64_alphabet_ok in E by lia. inversion E; subst. apply b64_index_char. lia.
Qed.
Lemma index_pad : b64_index pad = None. Proof. reflexivity. Qed.

Lemma number_bound base ds : 0 < base -> Forall (fun d => 0 <= d < base) ds -> 0 <= number base ds < base ^ Z.of_nat (List.length ds).
Proof.
  intros Hb. induction 1 as [|d ds Hd _ IH]; [cbn; lia|]. rewrite number_cons. cbn [List.length]. rewrite Nat2Z.inj_succ, Z.pow_succ_r by lia.
  pose proof (Z.pow_pos_nonneg base (Z.of_nat (List.length ds)) Hb ltac:(lia)). nia.
Qed.
Lemma bytes_digits b : Forall (fun d => 0 <= d < 256) (map b2z b).
Proof. induction b as [|x b IH]; constructor; auto. apply b2z_range. Qed.
Lemma sextets_digits cs ds : sextets cs ds -> Forall (fun d => 0 <= d < 64) ds /\ List.length cs = List.length ds.
Proof.
  induction 1 as [|c d cs ds [H0 H] _ [IH1 IH2]]; [split; [constructor|reflexivity]|]. split; [|cbn; congruence]. constructor; auto.
  assert (Z.to_nat d < 64)%nat as Hd. { change 64%nat with (List.length b64_alphabet). apply nth_error_Some. congruence. } lia.
Qed.

(** The same without line breaks. *)
Definition reads (b s : list byte) : Prop :=
  exists cs ds k r, s = cs ++ repeat "="%byte k /\ sextets cs ds /\ (k < 3)%nat /\ ((List.length b + k) mod 3 = 0)%nat /\
    (List.length s * 3 = (List.length b + k) * 4)%nat /\ 0 <= r < 4 ^ Z.of_nat k /\ number 64 ds = number 256 (map b2z b) * 4 ^ Z.of_nat k + r.

Lemma pow_eq n m k : (n * 6 = m * 8 + k * 2)%nat -> 64 ^ Z.of_nat n = 256 ^ Z.of_nat m * 4 ^ Z.of_nat k.
Proof. intros H. change 64 with (2 ^ 6). change 256 with (2 ^ 8). change 4 with (2 ^ 2). rewrite <- !Z.pow_mul_r, <- Z.pow_add_r by lia. f_equal. lia. Qed.

Lemma sext_inv c cs ds : sextets (c :: cs) ds -> exists d ds', ds = d :: ds' /\ b64_index c = Some d /\ 0 <= d < 64 /\ sextets cs ds'.
Proof.
  intros H. inversion H as [|? d ? ds' [H1 H2] H3]; subst. exists d, ds'. split; auto. pose proof (index_alphabet c d H1 H2) as E. split; auto. split; auto. apply (index_all c d E).
Qed.
Lemma sext_cons c cs d ds : b64_index c = Some d -> sextets cs ds -> sextets (c :: cs) (d :: ds).
Proof. intros E H. constructor; auto. destruct (index_all c d E) as [A B]. split; [lia|exact B]. Qed.

Lemma decode_reads : forall fuel s b, (List.length s < fuel)%nat -> (decode_quanta fuel s = Some b <-> reads b s).
Proof.
  induction fuel as [|fuel IH]; intros s b Hl; [lia|]. cbn [decode_quanta].
  destruct s as [|c0 [|c1 [|c2 [|c3 rest]]]].
  - split.
    + intros [= <-]. exists [], [], 0%nat, 0. repeat split; try constructor; cbn; lia.
    + intros (cs & ds & k & r & E & HS & Hk & Hm & HL & Hr & HN). cbn [List.length] in HL. destruct b; [reflexivity|cbn [List.length] in HL; lia].
  - split; [discriminate|]. intros (cs & ds & k & r & E & HS & Hk & Hm & HL & _). cbn [List.length] in HL. lia.
  - split; [discriminate|]. intros (cs & ds & k & r & E & HS & Hk & Hm & HL & _). cbn [List.length] in HL. lia.
  - split; [discriminate|]. intros (cs & ds & k & r & E & HS & Hk & Hm & HL & _). cbn [List.length] in HL. lia.
  - cbn [List.length] in Hl. split.
    + destruct (b64_index c0) as [d0|] eqn:E0; [|discriminate]. destruct (b64_index c1) as [d1|] eqn:E1; [|discriminate].
      destruct (index_all _ _ E0) as [R0 _]. destruct (index_all _ _ E1) as [R1 _].
      destruct (b64_index c2) as [d2|] eqn:E2.
      * destruct (index_all _ _ E2) as [R2 _]. destruct (b64_index c3) as [d3|] eqn:E3.
        -- destruct (index_all _ _ E3) as [R3 _]. destruct (decode_quanta fuel rest) as [l|] eqn:ER; [|discriminate]. cbv zeta. intros Hb. apply IH in ER; [|lia].
           destruct ER as (cs & ds & k & r & E & HS & Hk & Hm & HL & Hr & HN).
           set (v := d0 * 2 ^ 18 + d1 * 2 ^ 12 + d2 * 2 ^ 6 + d3) in Hb. injection Hb as <-.
           exists (c0 :: c1 :: c2 :: c3 :: cs), (d0 :: d1 :: d2 :: d3 :: ds), k, r. split; [cbn [app]; now rewrite <- E|]. split; [auto using sext_cons|]. split; [exact Hk|].
           split; [cbn [List.length]; replace (S (S (S (List.length l))) + k)%nat with ((List.length l + k) + 1 * 3)%nat by lia; rewrite Nat.mod_add by lia; exact Hm|].
           split; [cbn [List.length]; lia|]. split; [exact Hr|].
           destruct (sextets_digits _ _ HS) as [_ Ld].
           assert (PW : 64 ^ Z.of_nat (List.length ds) = 256 ^ Z.of_nat (List.length l) * 4 ^ Z.of_nat k).
           { apply pow_eq. rewrite <- Ld. rewrite E, app_length, repeat_length in HL. lia. }
           cbn [map]. rewrite !number_cons, HN. cbn [List.length]. rewrite map_length, !Nat2Z.inj_succ, !Z.pow_succ_r, PW by lia. rewrite !b2z_z2b.
           assert (v / 65536 mod 256 * 65536 + v / 256 mod 256 * 256 + v mod 256 = v) as Hv.
           { assert (0 <= v < 16777216) as Bv by (unfold v; change (2 ^ 18) with 262144; change (2 ^ 12) with 4096; change (2 ^ 6) with 64; lia). clearbody v. Z.div_mod_to_equations. lia. }
           transitivity (256 ^ Z.of_nat (List.length l) * 4 ^ Z.of_nat k * (d0 * 2 ^ 18 + d1 * 2 ^ 12 + d2 * 2 ^ 6 + d3) + (number 256 (map b2z l) * 4 ^ Z.of_nat k + r)); [ring|].
           fold v. rewrite <- Hv at 1. ring.
        -- destruct (Byte.eqb c3 pad) eqn:EP; [|discriminate]. apply Byte_eqb_eq in EP. subst c3. destruct rest; [|discriminate]. cbv zeta.
           set (v := d0 * 2 ^ 18 + d1 * 2 ^ 12 + d2 * 2 ^ 6). intros Hb. injection Hb as <-.
           exists [c0; c1; c2], [d0; d1; d2], 1%nat, (d2 mod 4). split; [reflexivity|]. split; [repeat apply sext_cons; auto; constructor|]. split; [lia|]. split; [reflexivity|]. split; [reflexivity|].
           change (4 ^ Z.of_nat 1) with 4. split; [apply Z.mod_pos_bound; lia|]. unfold number. cbn [map fold_left]. rewrite !b2z_z2b. unfold v. change (2 ^ 18) with 262144. change (2 ^ 12) with 4096. change (2 ^ 6) with 64.
           Z.div_mod_to_equations. lia.
      * destruct (Byte.eqb c2 pad) eqn:EP; [|discriminate]. destruct (Byte.eqb c3 pad) eqn:EP'; [|discriminate]. cbn [andb]. apply Byte_eqb_eq in EP, EP'. subst c2 c3. destruct rest; [|discriminate]. cbv zeta.
        set (v := d0 * 2 ^ 18 + d1 * 2 ^ 12). intros Hb. injection Hb as <-.
        exists [c0; c1], [d0; d1], 2%nat, (d1 mod 16). split; [reflexivity|]. split; [repeat apply sext_cons; auto; constructor|]. split; [lia|]. split; [reflexivity|]. split; [reflexivity|].
        change (4 ^ Z.of_nat 2) with 16. split; [apply Z.mod_pos_bound; lia|]. unfold number. cbn [map fold_left]. rewrite !b2z_z2b. unfold v. change (2 ^ 18) with 262144. change (2 ^ 12) with 4096.
        Z.div_mod_to_equations. lia.
    + intros (cs & ds & k & r & E & HS & Hk & Hm & HL & Hr & HN).
      assert (List.length (c0 :: c1 :: c2 :: c3 :: rest) = List.length cs + k)%nat as HLs by (rewrite E, app_length, repeat_length; reflexivity). cbn [List.length] in HLs, HL.
      destruct cs as [|x0 [|x1 cs]]; [cbn [List.length] in HLs; lia|cbn [List.length] in HLs; lia|]. cbn [app] in E. injection E as -> -> E.
      apply sext_inv in HS as (d0 & ds' & -> & E0 & R0 & HS). apply sext_inv in HS as (d1 & ds & -> & E1 & R1 & HS). rewrite E0, E1. cbn [List.length] in HLs.
      destruct cs as [|x2 cs].
      { inversion HS; subst. assert (k = 2%nat) as -> by (cbn [List.length] in HLs; lia). cbn [app repeat] in E. injection E as -> -> ->. change (b64_index "=") with (@None Z).
        change (Byte.eqb "=" pad) with true. cbn [andb]. cbv zeta. cbn [List.length] in HL. destruct b as [|y [|y' b]]; [cbn in HL; lia| |cbn [List.length] in HL; lia].
        unfold number in HN. cbn [map fold_left] in HN. change (4 ^ Z.of_nat 2) with 16 in *. pose proof (b2z_range y). do 2 f_equal. apply b2z_inj. rewrite b2z_z2b. change (2 ^ 18) with 262144. change (2 ^ 12) with 4096.
        Z.div_mod_to_equations. lia. }
      apply sext_inv in HS as (d2 & ds' & -> & E2 & R2 & HS). cbn [app] in E. injection E as -> E. rewrite E2. cbn [List.length] in HLs.
      destruct cs as [|x3 cs].
      { inversion HS; subst. assert (k = 1%nat) as -> by (cbn [List.length] in HLs; lia). cbn [app repeat] in E. injection E as -> ->. change (b64_index "=") with (@None Z).
        change (Byte.eqb "=" pad) with true. cbv zeta. cbn [List.length] in HL. destruct b as [|y [|y' [|y'' b]]]; [cbn in HL; lia|cbn in HL; lia| |cbn [List.length] in HL; lia].
        unfold number in HN. cbn [map fold_left] in HN. change (4 ^ Z.of_nat 1) with 4 in *. pose proof (b2z_range y). pose proof (b2z_range y').
        assert (z2b ((d0 * 2 ^ 18 + d1 * 2 ^ 12 + d2 * 2 ^ 6) / 65536) = y) as -> by (apply b2z_inj; rewrite b2z_z2b; change (2 ^ 18) with 262144; change (2 ^ 12) with 4096; change (2 ^ 6) with 64; Z.div_mod_to_equations; lia).
        do 3 f_equal. apply b2z_inj. rewrite b2z_z2b. change (2 ^ 18) with 262144. change (2 ^ 12) with 4096. change (2 ^ 6) with 64. Z.div_mod_to_equations. lia. }
      apply sext_inv in HS as (d3 & ds & -> & E3 & R3 & HS). cbn [app] in E. injection E as -> E. rewrite E3. cbn [List.length] in HLs. cbv zeta.
      destruct (sextets_digits _ _ HS) as [Dd Ld].
      assert (3 <= List.length b)%nat as Hb3 by lia. destruct b as [|y0 [|y1 [|y2 b]]]; try (cbn [List.length] in Hb3; lia). cbn [List.length] in HL, Hm.
      assert (PW : 64 ^ Z.of_nat (List.length ds) = 256 ^ Z.of_nat (List.length b) * 4 ^ Z.of_nat k) by (apply pow_eq; lia).
      cbn [map] in HN. rewrite !number_cons in HN. cbn [List.length] in HN. rewrite map_length, !Nat2Z.inj_succ, !Z.pow_succ_r, PW in HN by lia.
      set (M := 256 ^ Z.of_nat (List.length b) * 4 ^ Z.of_nat k) in *.
      pose proof (number_bound 64 ds ltac:(lia) Dd) as B1. rewrite PW in B1.
      pose proof (number_bound 256 (map b2z b) ltac:(lia) (bytes_digits b)) as B2. rewrite map_length in B2.
      pose proof (Z.pow_pos_nonneg 4 (Z.of_nat k) ltac:(lia) ltac:(lia)) as P4.
      assert (0 <= number 256 (map b2z b) * 4 ^ Z.of_nat k + r < M) as B3 by (unfold M; nia).
      set (v := d0 * 2 ^ 18 + d1 * 2 ^ 12 + d2 * 2 ^ 6 + d3). set (u := b2z y0 * 65536 + b2z y1 * 256 + b2z y2).
      assert (M * v + number 64 ds = M * u + (number 256 (map b2z b) * 4 ^ Z.of_nat k + r)) as HE.
      { unfold v, u. change (2 ^ 18) with 262144. change (2 ^ 12) with 4096. change (2 ^ 6) with 64.
        transitivity (d0 * (64 * (64 * (64 * M))) + (d1 * (64 * (64 * M)) + (d2 * (64 * M) + (d3 * M + number 64 ds)))); [ring|]. rewrite HN. unfold M. ring. }
      assert (v = u) as Huv. { clearbody M v u. nia. }
      assert (number 64 ds = number 256 (map b2z b) * 4 ^ Z.of_nat k + r) as HE' by (rewrite Huv in HE; lia).
      assert (decode_quanta fuel rest = Some b) as ->.
      { apply IH; [lia|]. exists cs, ds, k, r. split; [exact E|]. split; [exact HS|]. split; [exact Hk|]. split.
        - replace (S (S (S (List.length b))) + k)%nat with ((List.length b + k) + 1 * 3)%nat in Hm by lia. now rewrite Nat.mod_add in Hm by lia.
        - split; [lia|]. split; [exact Hr|exact HE']. }
      rewrite Huv. destruct (bytes3 y0 y1 y2) as (A & B & C). unfold u. now rewrite A, B, C.
Qed.

(** Exactly the texts of RFC 4648 are accepted, except that line breaks may stand anywhere and the unused bits may be set. *)
Theorem C40_base64_accepts : forall b t, b64_decode t = Some b <-> b64_text b t.
Proof.
  intros b t. unfold b64_decode, b64_text. cbv zeta. assert (List.filter not_newline t = List.filter no_line_break t) as ->.
  { induction t as [|c t IH]; [reflexivity|]. cbn [List.filter]. now rewrite no_line_break_ok, IH. }
  rewrite decode_reads by lia. unfold reads. split; intros (cs & ds & k & r & E & H); exists cs, ds, k, r; split; auto; rewrite E in *; exact H.
Qed.
Theorem C40_element_text : forall t e, r_UnmarshalText t = Ret e <-> exists b, b64_text b t /\ r_SetCanonicalBytes b = Ret e.
Proof.
  intros t e. unfold r_UnmarshalText. split.
  - destruct (b64_decode t) as [b|] eqn:E; [|discriminate]. intros H. exists b. split; [now apply C40_base64_accepts|exact H].
  - intros (b & H1 & H2). apply C40_base64_accepts in H1. now rewrite H1.
Qed.
(** A case: the last character of "QQ==" may carry any of 16 values; misplaced padding is refused. *)
Example C40_base64_example : b64_decode ["Q";"Q";"=";"="]%byte = Some ["A"]%byte /\ b64_decode ["Q";"f";"=";"013";"="]%byte = Some ["A"]%byte /\
  b64_text ["A"]%byte ["Q";"f";"=";"="]%byte /\ ~ b64_text ["A"]%byte ["Q";"Q";"=";"Q"]%byte.
Proof. split; [reflexivity|]. split; [reflexivity|]. split; [apply C40_base64_accepts; reflexivity|]. intros H. apply C40_base64_accepts in H. discriminate. Qed.

Print Assumptions C40_base64_accepts.
Print Assumptions C40_element_text.
