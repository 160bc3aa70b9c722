(** The parser of Json.v reads exactly the grammar of Spec_Json.v. *)
From Coq Require Import ZArith Lia List Bool String.
From Coq.Strings Require Import Byte.
From stdpp Require Import base gmap list.
From Verif Require Import Bytes Go Text Spec_Text Spec_Json Json.
Import ListNotations.
Local Open Scope Z_scope.

Lemma beq_true a b : beq a b = true <-> a = b. Proof. apply Byte_eqb_eq. Qed.
Lemma beq_false a b : beq a b = false <-> a <> b.
Proof. rewrite <- beq_true. destruct (beq a b); intuition congruence. Qed.
Lemma beq_refl a : beq a a = true. Proof. now apply beq_true. Qed.

Lemma in_range_iff lo hi c : in_range lo hi c = true <-> lo <= b2z c <= hi.
Proof. unfold in_range. rewrite andb_true_iff, !Z.leb_le. reflexivity. Qed.
Lemma in_range_no lo hi c : in_range lo hi c = false <-> ~ lo <= b2z c <= hi.
Proof. rewrite <- in_range_iff. destruct (in_range lo hi c); intuition congruence. Qed.
Lemma byte_ext c z : b2z c = z mod 256 -> c = z2b z.
Proof. intros H. apply b2z_inj. now rewrite b2z_z2b. Qed.

(** ** Unicode *)
Lemma lor_disjoint a b n : 0 <= n -> 0 <= b < 2 ^ n -> Z.lor (Z.shiftl a n) b = a * 2 ^ n + b.
Proof.
  intros Hn Hb. rewrite <- Z.shiftl_mul_pow2 by auto. assert (Z.land (Z.shiftl a n) b = 0) as L.
  { apply Z.bits_inj'. intros k Hk. rewrite Z.land_spec, Z.bits_0. destruct (Z.lt_ge_cases k n).
    - now rewrite Z.shiftl_spec_low.
    - destruct (Z.eq_dec b 0) as [->|Hb0]; [now rewrite Z.bits_0, andb_false_r|]. rewrite (Z.bits_above_log2 b k), andb_false_r; auto; [lia|].
      assert (Z.log2 b < n) by (apply Z.log2_lt_pow2; lia). lia. }
  rewrite <- Z.lxor_lor by exact L. symmetry. now apply Z.add_nocarry_lxor.
Qed.
Lemma lor_const c n b : 0 <= n -> 0 <= b < 2 ^ n -> (2 ^ n | c) -> Z.lor c b = c + b.
Proof.
  intros Hn Hb [a ->]. rewrite <- (lor_disjoint a b n) by auto. now rewrite Z.shiftl_mul_pow2.
Qed.
Lemma EncodeRune_utf8 r : 0 <= r < 0x110000 -> EncodeRune r = utf8 r.
Proof.
  intros H. unfold EncodeRune, utf8.
  rewrite !Z.shiftr_div_pow2 by lia. change 63 with (Z.ones 6). rewrite !Z.land_ones by lia.
  change (2 ^ 6) with 64. change (2 ^ 12) with 4096. change (2 ^ 18) with 262144.
  assert (forall x, Z.lor 128 (x mod 64) = 0x80 + x mod 64) as L0.
  { intros x. apply (lor_const 128 6); [lia|apply Z.mod_pos_bound; lia|now exists 2]. }
  destruct (Z.leb_spec r 127), (Z.ltb_spec r 0x80); try lia; auto.
  destruct (Z.leb_spec r 2047), (Z.ltb_spec r 0x800); try lia.
  { rewrite L0. rewrite (lor_const 192 5); auto; [lia| |now exists 6]. change (2 ^ 5) with 32. Z.div_mod_to_equations; lia. }
  destruct (Z.leb_spec r 65535), (Z.ltb_spec r 0x10000); try lia.
  { rewrite !L0. rewrite (lor_const 224 4); auto; [lia| |now exists 14]. change (2 ^ 4) with 16. Z.div_mod_to_equations; lia. }
  rewrite !L0. rewrite (lor_const 240 3); auto; [lia| |now exists 30]. change (2 ^ 3) with 8. Z.div_mod_to_equations; lia.
Qed.
Lemma RuneError_ok : EncodeRune RuneError = replacement. Proof. reflexivity. Qed.
Lemma DecodeSurrogates_ok r1 r2 : 0xD800 <= r1 < 0xDC00 -> 0xDC00 <= r2 < 0xE000 ->
  DecodeSurrogates r1 r2 = Some ((r1 - 0xD800) * 1024 + (r2 - 0xDC00) + 0x10000).
Proof.
  intros H1 H2. unfold DecodeSurrogates.
  rewrite (proj2 (Z.leb_le 0xD800 r1)), (proj2 (Z.ltb_lt r1 0xDC00)), (proj2 (Z.leb_le 0xDC00 r2)), (proj2 (Z.ltb_lt r2 0xE000)) by lia. cbn [andb].
  rewrite lor_disjoint by (change (2 ^ 10) with 1024; lia). change (2 ^ 10) with 1024. reflexivity.
Qed.
Lemma DecodeSurrogates_no r1 r2 : ~ (0xD800 <= r1 < 0xDC00 /\ 0xDC00 <= r2 < 0xE000) -> DecodeSurrogates r1 r2 = None.
Proof.
  intros H. unfold DecodeSurrogates.
  destruct (Z.leb_spec 0xD800 r1), (Z.ltb_spec r1 0xDC00), (Z.leb_spec 0xDC00 r2), (Z.ltb_spec r2 0xE000); cbn [andb]; auto; lia.
Qed.
Lemma IsSurrogate_iff r : IsSurrogate r = true <-> surrogate r.
Proof. unfold IsSurrogate, surrogate. rewrite andb_true_iff, Z.leb_le, Z.ltb_lt. reflexivity. Qed.

Ltac in_ranges := repeat match goal with
  | H : _ && _ = true |- _ => apply andb_true_iff in H as [? ?]
  | H : _ || _ = true |- _ => apply orb_true_iff in H as [?|?]
  | H : in_range _ _ _ = true |- _ => apply in_range_iff in H
  | H : is_cont _ = true |- _ => apply in_range_iff in H
  end.

Lemma utf8_len_some s n : utf8_len s = Some n -> exists u rest, s = u ++ rest /\ List.length u = n /\ multibyte u /\ Forall (fun c => 128 <= b2z c) u.
Proof.
  destruct s as [|a [|b s1]]; try discriminate. cbn [utf8_len]. destruct (in_range 0xC2 0xDF a && is_cont b) eqn:E2.
  { intros [= <-]. in_ranges. exists [a; b], s1. split; [reflexivity|]. split; [reflexivity|]. split.
    - exists ((b2z a - 0xC0) * 64 + (b2z b - 0x80)). split; [lia|]. split; [unfold surrogate; lia|]. unfold utf8.
      rewrite (proj2 (Z.ltb_ge _ 0x80)), (proj2 (Z.ltb_lt _ 0x800)) by lia. f_equal; [|f_equal]; apply byte_ext; Z.div_mod_to_equations; lia.
    - repeat constructor; lia. }
  destruct s1 as [|c s2]; try discriminate.
  match goal with |- (if ?x then _ else _) = _ -> _ => destruct x eqn:E3 end.
  { intros [= <-]. exists [a; b; c], s2. split; [reflexivity|]. split; [reflexivity|].
    assert (128 <= b2z b <= 191 /\ 128 <= b2z c <= 191 /\ 0xE0 <= b2z a <= 0xEF /\ (b2z a = 0xE0 -> 0xA0 <= b2z b) /\ (b2z a = 0xED -> b2z b <= 0x9F)) as HR.
    { in_ranges; lia. }
    clear E2 E3. split.
    - exists ((b2z a - 0xE0) * 4096 + (b2z b - 0x80) * 64 + (b2z c - 0x80)). split; [lia|]. split; [unfold surrogate; lia|]. unfold utf8.
      rewrite (proj2 (Z.ltb_ge _ 0x80)), (proj2 (Z.ltb_ge _ 0x800)), (proj2 (Z.ltb_lt _ 0x10000)) by lia.
      f_equal; [|f_equal; [|f_equal]]; apply byte_ext; Z.div_mod_to_equations; lia.
    - repeat constructor; lia. }
  destruct s2 as [|d s3]; try discriminate.
  match goal with |- (if ?x then _ else _) = _ -> _ => destruct x eqn:E4 end; [|discriminate].
  intros [= <-]. exists [a; b; c; d], s3. split; [reflexivity|]. split; [reflexivity|].
  assert (128 <= b2z b <= 191 /\ 128 <= b2z c <= 191 /\ 128 <= b2z d <= 191 /\ 0xF0 <= b2z a <= 0xF4 /\ (b2z a = 0xF0 -> 0x90 <= b2z b) /\ (b2z a = 0xF4 -> b2z b <= 0x8F)) as HR.
  { clear E2 E3. in_ranges; lia. }
  clear E2 E3 E4. split.
  - exists ((b2z a - 0xF0) * 262144 + (b2z b - 0x80) * 4096 + (b2z c - 0x80) * 64 + (b2z d - 0x80)). split; [lia|]. split; [unfold surrogate; lia|]. unfold utf8.
    rewrite (proj2 (Z.ltb_ge _ 0x80)), (proj2 (Z.ltb_ge _ 0x800)), (proj2 (Z.ltb_ge _ 0x10000)) by lia.
    f_equal; [|f_equal; [|f_equal; [|f_equal]]]; apply byte_ext; Z.div_mod_to_equations; lia.
  - repeat constructor; lia.
Qed.

Lemma utf8_len_multibyte u rest : multibyte u -> utf8_len (u ++ rest) = Some (List.length u).
Proof.
  intros (r & Hr & Hs & ->). unfold surrogate in Hs. unfold utf8. rewrite (proj2 (Z.ltb_ge r 0x80)) by lia.
  destruct (Z.ltb_spec r 0x800); [|destruct (Z.ltb_spec r 0x10000)]; cbn [app utf8_len List.length];
    unfold is_cont, in_range; rewrite !b2z_z2b.
  - rewrite !Z.mod_small by (Z.div_mod_to_equations; lia).
    assert (0xC2 <= 0xC0 + r / 64 <= 0xDF) by (Z.div_mod_to_equations; lia). assert (0 <= r mod 64 < 64) by (apply Z.mod_pos_bound; lia).
    rewrite !(proj2 (Z.leb_le _ _)) by lia. reflexivity.
  - rewrite !(Z.mod_small _ 256) by (Z.div_mod_to_equations; lia).
    assert (0 <= r mod 64 < 64) by (apply Z.mod_pos_bound; lia). assert (0 <= r / 64 mod 64 < 64) by (apply Z.mod_pos_bound; lia).
    assert (r = r / 4096 * 4096 + (r / 64 mod 64) * 64 + r mod 64) by (Z.div_mod_to_equations; lia).
    generalize dependent (r / 4096). generalize dependent (r / 64 mod 64). generalize dependent (r mod 64). intros x Hx y Hy z Hz.
    rewrite (proj2 (Z.leb_gt (0xE0 + z) 0xDF)) by lia. rewrite andb_false_r. cbn [andb].
    rewrite !(proj2 (Z.leb_le 128 (0x80 + _))), !(proj2 (Z.leb_le (0x80 + _) 191)) by lia. rewrite ?andb_true_r.
    repeat (match goal with |- context [?a <=? ?b] => destruct (Z.leb_spec a b); try (exfalso; lia); cbn [andb orb] end); reflexivity.
  - rewrite !(Z.mod_small _ 256) by (Z.div_mod_to_equations; lia).
    assert (0 <= r mod 64 < 64) by (apply Z.mod_pos_bound; lia). assert (0 <= r / 64 mod 64 < 64) by (apply Z.mod_pos_bound; lia).
    assert (0 <= r / 4096 mod 64 < 64) by (apply Z.mod_pos_bound; lia).
    assert (r = r / 262144 * 262144 + (r / 4096 mod 64) * 4096 + (r / 64 mod 64) * 64 + r mod 64) by (Z.div_mod_to_equations; lia).
    generalize dependent (r / 262144). generalize dependent (r / 4096 mod 64). generalize dependent (r / 64 mod 64). generalize dependent (r mod 64).
    intros x Hx y Hy w Hw z Hz.
    rewrite (proj2 (Z.leb_gt (0xF0 + z) 0xDF)), (proj2 (Z.leb_gt (0xF0 + z) 0xE0)), (proj2 (Z.leb_gt (0xF0 + z) 0xEC)), (proj2 (Z.leb_gt (0xF0 + z) 0xED)), (proj2 (Z.leb_gt (0xF0 + z) 0xEF)) by lia.
    rewrite !andb_false_r. cbn [andb orb].
    rewrite !(proj2 (Z.leb_le 128 (0x80 + _))), !(proj2 (Z.leb_le (0x80 + _) 191)) by lia. rewrite ?andb_true_r.
    repeat (match goal with |- context [?a <=? ?b] => destruct (Z.leb_spec a b); try (exfalso; lia); cbn [andb orb] end); reflexivity.
Qed.
Lemma multibyte_high u : multibyte u -> Forall (fun c => 128 <= b2z c) u /\ u <> [].
Proof.
  intros M. pose proof (utf8_len_multibyte u [] M) as E. rewrite app_nil_r in E. destruct (utf8_len_some _ _ E) as (u' & rest & E1 & E2 & _ & E3).
  assert (rest = []) as ->. { apply (f_equal (@List.length _)) in E1. rewrite app_length, E2 in E1. destruct rest; cbn in E1; [auto|lia]. }
  rewrite app_nil_r in E1. subst u'. split; auto. intros ->. discriminate.
Qed.

(** ** Hexadecimal digits and escapes *)
Definition all_bytes : list byte := map (fun n => z2b (Z.of_nat n)) (seq 0 256).
Lemma all_bytes_in c : In c all_bytes.
Proof.
  apply in_map_iff. exists (Z.to_nat (b2z c)). pose proof (b2z_range c). rewrite Z2Nat.id by lia. split; [apply z2b_b2z|]. apply in_seq. lia.
Qed.
Lemma hex_val_iff c d : hex_val c = Some d <-> hex c d.
Proof.
  assert (forallb (fun c => match hex_val c with
     | Some d => (0 <=? d) && (d <? 16) && (match nth_error hex_digits (Z.to_nat d) with Some x => beq x c | None => false end || match nth_error hex_digits_upper (Z.to_nat d) with Some x => beq x c | None => false end)
     | None => negb (existsb (beq c) (hex_digits ++ hex_digits_upper)) end) all_bytes = true) as T by (vm_compute; reflexivity).
  rewrite forallb_forall in T. assert (forallb (fun i => match nth_error hex_digits i, nth_error hex_digits_upper i with
      | Some a, Some b => match hex_val a, hex_val b with Some x, Some y => (x =? Z.of_nat i) && (y =? Z.of_nat i) | _, _ => false end | _, _ => false end) (seq 0 16) = true) as T2 by (vm_compute; reflexivity).
  rewrite forallb_forall in T2. split.
  - intros E. specialize (T c (all_bytes_in c)). rewrite E in T. apply andb_true_iff in T as [T1 T]. apply andb_true_iff in T1 as [T1 _]. apply Z.leb_le in T1. split; auto.
    apply orb_true_iff in T as [T|T]; [left|right]; destruct (nth_error _ _); try discriminate; apply beq_true in T; now subst.
  - intros [Hd H]. assert (Z.to_nat d < 16)%nat as Hlt by (destruct H as [H|H]; match type of H with nth_error ?l _ = _ => change 16%nat with (List.length l) end; apply nth_error_Some; rewrite H; discriminate).
    assert (In (Z.to_nat d) (seq 0 16)) as Hin by (apply in_seq; lia). specialize (T2 (Z.to_nat d) Hin). clear Hin. destruct (nth_error hex_digits _) as [a|]; [|discriminate]. destruct (nth_error hex_digits_upper _) as [b|]; [|discriminate].
    destruct (hex_val a) as [x|] eqn:Ea; [|discriminate]. destruct (hex_val b) as [y|] eqn:Eb; [|discriminate]. apply andb_true_iff in T2 as [X Y]. apply Z.eqb_eq in X, Y.
    rewrite Z2Nat.id in X, Y by auto. destruct H as [[= ->]|[= ->]]; congruence.
Qed.
Lemma hex_val_range c d : hex_val c = Some d -> 0 <= d < 16.
Proof. unfold hex_val. destruct (in_range 48 57 c) eqn:E1; [|destruct (in_range 97 102 c) eqn:E2; [|destruct (in_range 65 70 c) eqn:E3]]; intros [= <-]; in_ranges; lia. Qed.
Lemma hex4_some s r s' : hex4 s = Some (r, s') -> exists a b c d, s = a :: b :: c :: d :: s' /\ u_escape ["\"; "u"; a; b; c; d]%byte r /\ 0 <= r < 65536.
Proof.
  destruct s as [|a [|b [|c [|d s1]]]]; try discriminate. cbn [hex4].
  destruct (hex_val a) as [za|] eqn:Ea; [|discriminate]. destruct (hex_val b) as [zb|] eqn:Eb; [|discriminate].
  destruct (hex_val c) as [zc|] eqn:Ec; [|discriminate]. destruct (hex_val d) as [zd|] eqn:Ed; [|discriminate]. intros [= <- <-].
  exists a, b, c, d. split; auto. apply hex_val_range in Ea as Ra. apply hex_val_range in Eb as Rb. apply hex_val_range in Ec as Rc. apply hex_val_range in Ed as Rd. split; [|lia].
  exists a, b, c, d, za, zb, zc, zd. rewrite <- !hex_val_iff. auto 10.
Qed.
Lemma u_escape_hex4 t r rest : u_escape t r -> exists s, t ++ rest = backslash :: "u"%byte :: s /\ hex4 s = Some (r, rest) /\ List.length t = 6%nat.
Proof.
  intros (a & b & c & d & za & zb & zc & zd & -> & Ha & Hb & Hc & Hd & ->). exists (a :: b :: c :: d :: rest). split; [reflexivity|]. split; [|reflexivity].
  apply hex_val_iff in Ha, Hb, Hc, Hd. cbn [hex4]. now rewrite Ha, Hb, Hc, Hd.
Qed.
Lemma u_escape_six t r : u_escape t r -> exists a b c d, t = [backslash; "u"%byte; a; b; c; d] /\ hex4 [a; b; c; d] = Some (r, []).
Proof.
  intros H. destruct (u_escape_hex4 t r [] H) as (s & E & E2 & L). rewrite app_nil_r in E. subst t. destruct s as [|a [|b [|c [|d [|]]]]]; try discriminate L. eauto 10.
Qed.
Lemma esc_val_iff e c : esc_val e = Some c <-> In (e, c) escapes.
Proof.
  split.
  - unfold esc_val. intros H. repeat match type of H with (if ?x then _ else _) = _ => destruct x eqn:?E; [injection H as <-; apply beq_true in E; subst e; cbn; auto 12|clear E] end. discriminate.
  - cbn [In escapes]. intros H. repeat destruct H as [[= <- <-]|H]; try reflexivity. contradiction.
Qed.
Lemma esc_not_u e c : In (e, c) escapes -> beq e "u" = false.
Proof. cbn [In escapes]. intros H. repeat destruct H as [[= <- <-]|H]; try reflexivity. contradiction. Qed.

(** ** Strings *)
Definition add_raw (u : list byte) (x : option (list byte * list byte)) : option (list byte * list byte) :=
  match x with Some (raw, rest) => Some (u ++ raw, rest) | None => None end.
Lemma scan_char c s : 32 <= b2z c -> c <> quote -> c <> backslash -> scan_string (c :: s) = add_raw [c] (scan_string s).
Proof.
  intros H1 H2 H3. cbn [scan_string]. apply beq_false in H2, H3. rewrite H2, H3, (proj2 (Z.ltb_ge _ _)) by lia. reflexivity.
Qed.
Lemma high_char c : 128 <= b2z c -> 32 <= b2z c /\ c <> quote /\ c <> backslash.
Proof. intros H. split; [lia|]. split; intros ->; cbn in H; lia. Qed.
Lemma scan_high u s : Forall (fun c => 128 <= b2z c) u -> scan_string (u ++ s) = add_raw u (scan_string s).
Proof.
  induction 1 as [|c u Hc H IH]; [cbn [app]; now destruct (scan_string s) as [[]|]|]. rewrite <- app_comm_cons. destruct (high_char c Hc) as (A & B & C).
  rewrite scan_char, IH by auto. now destruct (scan_string s) as [[]|].
Qed.
Lemma scan_u t r s : u_escape t r -> scan_string (t ++ s) = add_raw t (scan_string s).
Proof.
  intros H. destruct (u_escape_six t r H) as (a & b & c & d & -> & E). cbn [app scan_string].
  change (beq backslash quote) with false. change (beq backslash backslash) with true. change (beq "u" "u") with true. cbv iota. rewrite E. reflexivity.
Qed.
Lemma scan_esc e c s : In (e, c) escapes -> scan_string (backslash :: e :: s) = add_raw [backslash; e] (scan_string s).
Proof.
  intros H. cbn [scan_string]. change (beq backslash quote) with false. change (beq backslash backslash) with true. cbv iota.
  rewrite (esc_not_u e c H). apply esc_val_iff in H. rewrite H. reflexivity.
Qed.
Lemma scan_complete raw v rest : jchars raw v -> scan_string (raw ++ quote :: rest) = Some (raw, rest).
Proof.
  induction 1 as [|c raw v H1 H2 H3 _ IH|u raw v M _ IH|c raw v H1 _ _ IH|e c raw v He _ IH|t r raw v Ht _ _ IH|t1 t2 r1 r2 raw v H1 H2 _ _ _ IH|t r raw v Ht _ _ _ IH].
  - reflexivity.
  - rewrite <- app_comm_cons, scan_char, IH by (auto; lia). reflexivity.
  - rewrite <- app_assoc, scan_high, IH by now apply multibyte_high. reflexivity.
  - destruct (high_char c H1) as (A & B & C). rewrite <- app_comm_cons, scan_char, IH by auto. reflexivity.
  - change "\"%byte with backslash. rewrite <- !app_comm_cons, (scan_esc e c), IH by auto. reflexivity.
  - rewrite <- app_assoc, (scan_u t r), IH by auto. reflexivity.
  - rewrite <- !app_assoc, (scan_u t1 r1), (scan_u t2 r2), IH by auto. reflexivity.
  - rewrite <- app_assoc, (scan_u t r), IH by auto. reflexivity.
Qed.

Lemma u_escape_range t r : u_escape t r -> 0 <= r < 65536.
Proof. intros H. destruct (u_escape_hex4 t r [] H) as (s & _ & E & _). destruct (hex4_some _ _ _ E) as (? & ? & ? & ? & _ & _ & X). exact X. Qed.
Lemma unquote_u k t r s : u_escape t r -> unquote_loop (S k) (t ++ s) =
  if IsSurrogate r then
    match s with
    | b :: u :: s4 =>
      match (if beq b backslash && beq u "u" then hex4 s4 else None) with
      | Some (r2, s5) => match DecodeSurrogates r r2 with Some dec => EncodeRune dec ++ unquote_loop k s5 | None => EncodeRune RuneError ++ unquote_loop k s end
      | None => EncodeRune RuneError ++ unquote_loop k s
      end
    | _ => EncodeRune RuneError ++ unquote_loop k s
    end
  else EncodeRune r ++ unquote_loop k s.
Proof.
  intros H. destruct (u_escape_hex4 t r s H) as (s0 & E1 & E2 & _). rewrite E1. cbn [unquote_loop].
  change (beq backslash backslash) with true. change (beq "u" "u") with true. cbv iota. now rewrite E2.
Qed.
(** The second half of a surrogate pair at the start of [s]. *)
Lemma pair_cases s : (exists t2 r2 rest, s = t2 ++ rest /\ u_escape t2 r2) \/ (forall t2 r2 rest, s = t2 ++ rest -> ~ u_escape t2 r2).
Proof.
  destruct s as [|b [|u s4]].
  1,2: right; intros t2 r2 rest E H; destruct (u_escape_six t2 r2 H) as (? & ? & ? & ? & -> & _); discriminate.
  destruct (beq b backslash && beq u "u") eqn:B.
  - apply andb_true_iff in B as [B1 B2]. apply beq_true in B1, B2. subst. destruct (hex4 s4) as [[r2 rest]|] eqn:E.
    + destruct (hex4_some _ _ _ E) as (a & b & c & d & -> & H & _). left. exists ["\"; "u"; a; b; c; d]%byte, r2, rest. split; [reflexivity|exact H].
    + right. intros t2 r2 rest E2 H. destruct (u_escape_hex4 t2 r2 rest H) as (s & E3 & E4 & _). rewrite <- E2 in E3. injection E3 as ->. congruence.
  - right. intros t2 r2 rest E2 H. destruct (u_escape_hex4 t2 r2 rest H) as (s & E3 & _). rewrite <- E2 in E3. injection E3 as -> -> ->. discriminate.
Qed.
Lemma unquote_lone k t r s : u_escape t r -> surrogate r ->
  (forall t2 r2 rest, s = t2 ++ rest -> u_escape t2 r2 -> r < 0xDC00 -> 0xDC00 <= r2 < 0xE000 -> False) ->
  unquote_loop (S k) (t ++ s) = replacement ++ unquote_loop k s.
Proof.
  intros Ht Hs HN. rewrite (unquote_u k t r s Ht). apply IsSurrogate_iff in Hs as ->. rewrite RuneError_ok. destruct s as [|b [|u s4]]; auto.
  destruct (beq b backslash && beq u "u") eqn:B; auto. apply andb_true_iff in B as [B1 B2]. apply beq_true in B1, B2. subst. destruct (hex4 s4) as [[r2 rest]|] eqn:E; auto.
  destruct (hex4_some _ _ _ E) as (a & b & c & d & -> & H & _). rewrite DecodeSurrogates_no; auto. intros [X Y].
  apply (HN ["\"; "u"; a; b; c; d]%byte r2 rest); auto; lia.
Qed.
Lemma unquote_pair k t1 t2 r1 r2 s : u_escape t1 r1 -> u_escape t2 r2 -> 0xD800 <= r1 < 0xDC00 -> 0xDC00 <= r2 < 0xE000 ->
  unquote_loop (S k) (t1 ++ t2 ++ s) = utf8 ((r1 - 0xD800) * 1024 + (r2 - 0xDC00) + 0x10000) ++ unquote_loop k s.
Proof.
  intros H1 H2 R1 R2. rewrite (unquote_u k t1 r1 _ H1). rewrite (proj2 (IsSurrogate_iff r1)) by (unfold surrogate; lia).
  destruct (u_escape_hex4 t2 r2 s H2) as (s0 & E1 & E2 & _). rewrite E1. change (beq backslash backslash && beq "u" "u") with true. cbv iota. rewrite E2.
  rewrite DecodeSurrogates_ok by auto. rewrite EncodeRune_utf8 by lia. reflexivity.
Qed.
Lemma unquote_esc k e c s : In (e, c) escapes -> unquote_loop (S k) (backslash :: e :: s) = c :: unquote_loop k s.
Proof.
  intros H. cbn [unquote_loop]. change (beq backslash backslash) with true. cbv iota. rewrite (esc_not_u e c H). apply esc_val_iff in H. now rewrite H.
Qed.
Lemma unquote_utf8 k u s : multibyte u -> unquote_loop (S k) (u ++ s) = u ++ unquote_loop k s.
Proof.
  intros M. destruct (multibyte_high u M) as [Hh Hne]. pose proof (utf8_len_multibyte u s M) as E. destruct u as [|c u]; [congruence|]. inversion Hh as [|? ? Hc _]; subst.
  destruct (high_char c Hc) as (_ & _ & Hb). rewrite <- app_comm_cons in *. cbn [unquote_loop]. apply beq_false in Hb. rewrite Hb, (proj2 (Z.ltb_ge _ _)) by lia.
  rewrite E, app_comm_cons. f_equal; [apply firstn_app_2' || (rewrite firstn_app, Nat.sub_diag, firstn_all; cbn; now rewrite app_nil_r)|].
  f_equal. rewrite skipn_app, Nat.sub_diag, skipn_all. reflexivity.
Qed.
Lemma unquote_bad k c s : 128 <= b2z c -> (forall u rest, multibyte u -> c :: s <> u ++ rest) -> unquote_loop (S k) (c :: s) = replacement ++ unquote_loop k s.
Proof.
  intros Hc HN. destruct (high_char c Hc) as (_ & _ & Hb). cbn [unquote_loop]. apply beq_false in Hb. rewrite Hb, (proj2 (Z.ltb_ge _ _)) by lia.
  destruct (utf8_len (c :: s)) as [n|] eqn:E; [|now rewrite RuneError_ok]. destruct (utf8_len_some _ _ E) as (u & rest & E1 & _ & M & _). now destruct (HN u rest M).
Qed.
Lemma unquote_ascii k c s : b2z c < 128 -> c <> backslash -> unquote_loop (S k) (c :: s) = c :: unquote_loop k s.
Proof. intros Hc Hb. cbn [unquote_loop]. apply beq_false in Hb. now rewrite Hb, (proj2 (Z.ltb_lt _ _)) by lia. Qed.

Lemma unquote_complete raw v : jchars raw v -> forall k, (List.length raw <= k)%nat -> unquote_loop k raw = v.
Proof.
  induction 1 as [|c raw v H1 H2 H3 _ IH|u raw v M _ IH|c raw v H1 H2 _ IH|e c raw v He _ IH|t r raw v Ht Hr _ IH|t1 t2 r1 r2 raw v H1 H2 H3 H4 _ IH|t r raw v Ht Hr HN _ IH];
    intros k Hk.
  - now destruct k.
  - cbn [List.length] in Hk. destruct k as [|k]; [lia|]. rewrite unquote_ascii, IH by (auto; lia). reflexivity.
  - rewrite app_length in Hk. destruct (multibyte_high u M) as [_ Hne]. destruct u as [|x u]; [congruence|]. cbn [List.length] in Hk. destruct k as [|k]; [lia|].
    rewrite unquote_utf8, IH by (auto; lia). reflexivity.
  - cbn [List.length] in Hk. destruct k as [|k]; [lia|]. rewrite unquote_bad, IH by (auto; lia). reflexivity.
  - cbn [List.length] in Hk. destruct k as [|k]; [lia|]. change "\"%byte with backslash. rewrite (unquote_esc k e c), IH by (auto; lia). reflexivity.
  - destruct (u_escape_six t r Ht) as (? & ? & ? & ? & E & _). rewrite app_length in Hk. assert (List.length t = 6%nat) as L by now rewrite E. destruct k as [|k]; [lia|].
    rewrite (unquote_u k t r raw Ht). destruct (IsSurrogate r) eqn:ES; [apply IsSurrogate_iff in ES; contradiction|]. pose proof (u_escape_range t r Ht). rewrite EncodeRune_utf8, IH by lia. reflexivity.
  - destruct (u_escape_six t1 r1 H1) as (? & ? & ? & ? & E & _). rewrite !app_length in Hk. assert (List.length t1 = 6%nat) as L by now rewrite E. destruct k as [|k]; [lia|].
    rewrite (unquote_pair k t1 t2 r1 r2), IH by (auto; lia). reflexivity.
  - destruct (u_escape_six t r Ht) as (? & ? & ? & ? & E & _). rewrite app_length in Hk. assert (List.length t = 6%nat) as L by now rewrite E. destruct k as [|k]; [lia|].
    rewrite (unquote_lone k t r), IH by (auto; lia). reflexivity.
Qed.

(** What scan_string accepts. *)
Inductive raw_ok : list byte -> Prop :=
| rk_nil : raw_ok []
| rk_char c raw : 32 <= b2z c -> c <> quote -> c <> backslash -> raw_ok raw -> raw_ok (c :: raw)
| rk_esc e c raw : In (e, c) escapes -> raw_ok raw -> raw_ok (backslash :: e :: raw)
| rk_u a b c d r raw : u_escape [backslash; "u"%byte; a; b; c; d] r -> raw_ok raw -> raw_ok (backslash :: "u"%byte :: a :: b :: c :: d :: raw).
Lemma scan_sound n : forall s raw rest, (List.length s < n)%nat -> scan_string s = Some (raw, rest) -> s = raw ++ quote :: rest /\ raw_ok raw.
Proof.
  induction n as [|n IH]; intros s raw rest Hn; [lia|]. destruct s as [|c s1]; [discriminate|]. cbn [scan_string]. cbn [List.length] in Hn.
  destruct (beq c quote) eqn:E1.
  { intros [= <- <-]. apply beq_true in E1 as ->. split; [reflexivity|constructor]. }
  apply beq_false in E1. destruct (beq c backslash) eqn:E2.
  - apply beq_true in E2 as ->. destruct s1 as [|e s2]; [discriminate|]. cbn [List.length] in Hn. destruct (beq e "u") eqn:E3.
    + apply beq_true in E3 as ->. destruct s2 as [|h1 [|h2 [|h3 [|h4 s3]]]]; try discriminate. cbn [List.length] in Hn.
      destruct (hex4 [h1; h2; h3; h4]) as [[r s']|] eqn:EH; [|discriminate]. destruct (scan_string s3) as [[raw' rest']|] eqn:ES; [|discriminate]. intros [= <- <-].
      apply IH in ES as [-> HR]; [|lia]. split; [reflexivity|]. destruct (hex4_some _ _ _ EH) as (a & b & c & d & EQ & HU & _). injection EQ as -> -> -> -> _. eapply rk_u; eauto.
    + destruct (esc_val e) as [x|] eqn:EE; [|discriminate]. destruct (scan_string s2) as [[raw' rest']|] eqn:ES; [|discriminate]. intros [= <- <-].
      apply IH in ES as [-> HR]; [|lia]. split; [reflexivity|]. apply esc_val_iff in EE. eapply rk_esc; eauto.
  - apply beq_false in E2. destruct (Z.ltb_spec (b2z c) 32) as [|Hc]; [discriminate|]. destruct (scan_string s1) as [[raw' rest']|] eqn:ES; [|discriminate]. intros [= <- <-].
    apply IH in ES as [-> HR]; [|lia]. split; [reflexivity|]. constructor; auto.
Qed.
Lemma raw_ok_high u s : Forall (fun c => 128 <= b2z c) u -> raw_ok (u ++ s) -> raw_ok s.
Proof.
  induction 1 as [|c u Hc _ IH]; auto. rewrite <- app_comm_cons. destruct (high_char c Hc) as (_ & _ & Hb). intros H. inversion H; subst; auto; congruence.
Qed.
Lemma raw_ok_u t r s : u_escape t r -> raw_ok (t ++ s) -> raw_ok s.
Proof.
  intros H. destruct (u_escape_six t r H) as (a & b & c & d & -> & _). cbn [app]. intros K. inversion K as [|? ? ? ? Hb|e x ? He|]; subst; auto; [congruence|].
  apply esc_not_u in He. discriminate.
Qed.
Lemma unquote_sound n : forall raw, (List.length raw < n)%nat -> raw_ok raw -> exists v, jchars raw v.
Proof.
  induction n as [|n IH]; intros raw Hn H; [lia|]. destruct H as [|c raw H1 H2 H3 H|e c raw He H|a b c d r raw Hu H].
  - eexists. constructor.
  - cbn [List.length] in Hn. destruct (Z.lt_ge_cases (b2z c) 128) as [Hlt|Hge].
    + destruct (IH raw ltac:(lia) H) as [v Hv]. exists (c :: v). constructor; auto.
    + destruct (utf8_len (c :: raw)) as [m|] eqn:E.
      * destruct (utf8_len_some _ _ E) as (u & rest & E1 & E2 & M & Hh). destruct (multibyte_high u M) as [_ Hne].
        assert (raw_ok rest) as HR. { apply (raw_ok_high u); auto. rewrite <- E1. now constructor. }
        destruct (IH rest) as [v Hv]; auto.
        { apply (f_equal (@List.length _)) in E1. rewrite app_length in E1. cbn [List.length] in E1. destruct u; [congruence|cbn [List.length] in E1; lia]. }
        rewrite E1. exists (u ++ v). now constructor.
      * destruct (IH raw ltac:(lia) H) as [v Hv]. exists (replacement ++ v). constructor; auto. intros u rest M E1. rewrite E1, utf8_len_multibyte in E; auto. discriminate.
  - cbn [List.length] in Hn. destruct (IH raw ltac:(lia) H) as [v Hv]. eexists. eapply jc_esc; eauto.
  - cbn [List.length] in Hn. destruct (IH raw ltac:(lia) H) as [v Hv]. change (backslash :: "u"%byte :: a :: b :: c :: d :: raw) with ([backslash; "u"%byte; a; b; c; d] ++ raw).
    destruct (IsSurrogate r) eqn:ES.
    + apply IsSurrogate_iff in ES. destruct (pair_cases raw) as [(t2 & r2 & rest & -> & Hu2)|HN].
      * destruct (Z.lt_ge_cases r 0xDC00) as [Hr|Hr]; [destruct (Z_le_dec 0xDC00 r2) as [Hr2|Hr2]; [destruct (Z_lt_dec r2 0xE000) as [Hr3|Hr3]|]|].
        -- destruct (IH rest) as [v2 Hv2]. { rewrite app_length in Hn. lia. } { eapply raw_ok_u; eauto. }
           eexists. eapply jc_pair; eauto. unfold surrogate in ES. lia.
        -- eexists. eapply jc_lone; eauto. intros t3 r3 rest3 E3 Hu3 _ HR. destruct (u_escape_hex4 _ _ rest Hu2) as (s1 & X1 & X2 & _). destruct (u_escape_hex4 _ _ rest3 Hu3) as (s2 & Y1 & Y2 & _).
           rewrite E3, Y1 in X1. injection X1 as ->. rewrite X2 in Y2. injection Y2 as -> _. lia.
        -- eexists. eapply jc_lone; eauto. intros t3 r3 rest3 E3 Hu3 _ HR. destruct (u_escape_hex4 _ _ rest Hu2) as (s1 & X1 & X2 & _). destruct (u_escape_hex4 _ _ rest3 Hu3) as (s2 & Y1 & Y2 & _).
           rewrite E3, Y1 in X1. injection X1 as ->. rewrite X2 in Y2. injection Y2 as -> _. lia.
        -- eexists. eapply jc_lone; eauto. intros; lia.
      * eexists. eapply jc_lone; eauto. intros t2 r2 rest E2 Hu2 _ _. exact (HN t2 r2 rest E2 Hu2).
    + eexists. eapply jc_u; eauto. intros X. apply IsSurrogate_iff in X. congruence.
Qed.
(** A scanned string literal is a string of the grammar, with the value [unquote]. *)
Theorem string_sound s raw rest : scan_string s = Some (raw, rest) -> s = raw ++ quote :: rest /\ jchars raw (unquote raw).
Proof.
  intros E. apply (scan_sound (S (List.length s))) in E as [E H]; [|lia]. split; auto. apply (unquote_sound (S (List.length raw))) in H as [v Hv]; [|lia].
  unfold unquote. now rewrite (unquote_complete raw v Hv (List.length raw)).
Qed.
Theorem string_complete raw v rest : jchars raw v -> scan_string (raw ++ quote :: rest) = Some (raw, rest) /\ unquote raw = v.
Proof. intros H. split; [eapply scan_complete; eauto|]. unfold unquote. now apply unquote_complete. Qed.

(** ** Numbers *)
Lemma isDigit_iff c : isDigit c = true <-> digit c. Proof. apply in_range_iff. Qed.
Definition no_digit (s : list byte) : Prop := match s with [] => True | c :: _ => isDigit c = false end.
Lemma scan_digits_ok s d r : scan_digits s = (d, r) -> s = d ++ r /\ Forall digit d /\ no_digit r.
Proof.
  revert d r. induction s as [|c s IH]; intros d r; cbn [scan_digits].
  - intros [= <- <-]. repeat constructor.
  - destruct (isDigit c) eqn:E.
    + destruct (scan_digits s) as [d' r']. intros [= <- <-]. destruct (IH d' r' eq_refl) as (-> & H & Hn). split; [reflexivity|]. split; auto. constructor; auto. now apply isDigit_iff.
    + intros [= <- <-]. split; [reflexivity|]. split; [constructor|exact E].
Qed.
Lemma scan_digits_complete d r : Forall digit d -> no_digit r -> scan_digits (d ++ r) = (d, r).
Proof.
  induction 1 as [|c d Hc _ IH]; intros Hr; cbn [app].
  - destruct r as [|c r]; auto. cbn [scan_digits]. cbn in Hr. now rewrite Hr.
  - cbn [scan_digits]. apply isDigit_iff in Hc. now rewrite Hc, IH.
Qed.
Lemma digit_0 : digit "0"%byte. Proof. unfold digit. cbn. lia. Qed.
Lemma scan_int_ok s d r : scan_int s = Some (d, r) -> s = d ++ r /\ digits1 d /\ shortest d.
Proof.
  destruct s as [|c s]; [discriminate|]. cbn [scan_int]. destruct (beq c "0") eqn:E0.
  - intros [= <- <-]. apply beq_true in E0 as ->. split; [reflexivity|]. split; [split; [discriminate|repeat constructor; apply digit_0]|]. now exists "0"%byte, [].
  - destruct (isDigit c) eqn:E; [|discriminate]. destruct (scan_digits s) as [d' r'] eqn:ED. intros [= <- <-]. destruct (scan_digits_ok _ _ _ ED) as (-> & H & _).
    split; [reflexivity|]. split; [split; [discriminate|constructor; auto; now apply isDigit_iff]|]. exists c, d'. split; auto. intros HC. exfalso. apply beq_false in E0. apply E0. apply b2z_inj. rewrite HC. reflexivity.
Qed.
Lemma scan_int_complete d r : digits1 d -> shortest d -> no_digit r -> scan_int (d ++ r) = Some (d, r).
Proof.
  intros [_ H] (c & d' & -> & Hs) Hr. inversion H as [|? ? Hc Hd]; subst. cbn [app scan_int]. destruct (beq c "0") eqn:E0.
  - apply beq_true in E0 as ->. rewrite Hs by reflexivity. reflexivity.
  - apply isDigit_iff in Hc. rewrite Hc, scan_digits_complete by auto. reflexivity.
Qed.
Definition frac_ok (f : list byte) : Prop := f = [] \/ exists ds, f = "."%byte :: ds /\ digits1 ds.
Lemma scan_frac_ok s d r : scan_frac s = Some (d, r) -> s = d ++ r /\ frac_ok d.
Proof.
  unfold frac_ok. destruct s as [|c s]; cbn [scan_frac]; [intros [= <- <-]; auto|]. destruct (beq c ".") eqn:E; [|intros [= <- <-]; auto].
  apply beq_true in E as ->. destruct (scan_digits s) as [[|x d'] r'] eqn:ED; [discriminate|]. intros [= <- <-]. destruct (scan_digits_ok _ _ _ ED) as (-> & H & _).
  split; [reflexivity|]. right. exists (x :: d'). split; auto. split; [discriminate|auto].
Qed.
Lemma scan_frac_complete d r : frac_ok d -> no_digit r -> (d = [] -> match r with c :: _ => c <> "."%byte | [] => True end) -> scan_frac (d ++ r) = Some (d, r).
Proof.
  intros [->|(ds & -> & [Hne H])] Hr Hd; cbn [app].
  - destruct r as [|c r]; auto. cbn [scan_frac]. specialize (Hd eq_refl). apply beq_false in Hd. now rewrite Hd.
  - cbn [scan_frac]. change (beq "." ".") with true. cbv iota. rewrite scan_digits_complete by auto. destruct ds; [congruence|reflexivity].
Qed.
Definition exp_ok (x : list byte) : Prop := x = [] \/ exists e s ds, x = e :: s ++ ds /\ (e = "e"%byte \/ e = "E"%byte) /\ (s = [] \/ s = ["+"%byte] \/ s = ["-"%byte]) /\ digits1 ds.
Lemma scan_exp_ok s d r : scan_exp s = Some (d, r) -> s = d ++ r /\ exp_ok d.
Proof.
  unfold exp_ok. destruct s as [|c s]; cbn [scan_exp]; [intros [= <- <-]; auto|]. destruct (beq c "e" || beq c "E") eqn:E; [|intros [= <- <-]; auto].
  assert (c = "e"%byte \/ c = "E"%byte) as HC by (apply orb_true_iff in E as [E|E]; apply beq_true in E; auto).
  destruct s as [|c2 s2]; [discriminate|]. destruct (beq c2 "+" || beq c2 "-") eqn:E2.
  - destruct (scan_digits s2) as [[|x d'] r'] eqn:ED; [discriminate|]. intros [= <- <-]. destruct (scan_digits_ok _ _ _ ED) as (-> & H & _). split; [reflexivity|]. right.
    exists c, [c2], (x :: d'). split; auto. split; auto. split; [|split; [discriminate|auto]]. apply orb_true_iff in E2 as [E2|E2]; apply beq_true in E2 as ->; auto.
  - destruct (scan_digits (c2 :: s2)) as [[|x d'] r'] eqn:ED; [discriminate|]. intros [= <- <-]. destruct (scan_digits_ok _ _ _ ED) as (-> & H & _). split; [reflexivity|]. right.
    exists c, [], (x :: d'). split; auto. split; auto. split; auto. split; [discriminate|auto].
Qed.
Lemma digit_sign c : digit c -> beq c "+" || beq c "-" = false.
Proof. intros H. unfold digit in H. destruct (beq c "+") eqn:E1; [apply beq_true in E1 as ->; cbn in H; lia|]. destruct (beq c "-") eqn:E2; [apply beq_true in E2 as ->; cbn in H; lia|reflexivity]. Qed.
Lemma scan_exp_complete d r : exp_ok d -> no_digit r -> (d = [] -> match r with c :: _ => c <> "e"%byte /\ c <> "E"%byte | [] => True end) -> scan_exp (d ++ r) = Some (d, r).
Proof.
  intros [->|(e & s & ds & -> & He & Hs & [Hne H])] Hr Hd; cbn [app].
  - destruct r as [|c r]; auto. cbn [scan_exp]. specialize (Hd eq_refl) as [H1 H2]. apply beq_false in H1, H2. now rewrite H1, H2.
  - cbn [scan_exp]. assert (beq e "e" || beq e "E" = true) as -> by (destruct He as [->| ->]; reflexivity). destruct ds as [|x ds]; [congruence|].
    destruct Hs as [->|[->| ->]]; cbn [app].
    + inversion H as [|? ? Hx _]; subst. rewrite (digit_sign x Hx), app_comm_cons, scan_digits_complete by auto. reflexivity.
    + change (beq "+" "+" || beq "+" "-") with true. cbv iota. rewrite app_comm_cons, scan_digits_complete by auto. reflexivity.
    + change (beq "-" "+" || beq "-" "-") with true. cbv iota. rewrite app_comm_cons, scan_digits_complete by auto. reflexivity.
Qed.
(** What may follow a number. *)
Definition num_end (s : list byte) : Prop := match s with [] => True | c :: _ => isDigit c = false /\ c <> "."%byte /\ c <> "e"%byte /\ c <> "E"%byte end.
Theorem number_sound s lit r : scan_number s = Some (lit, r) -> s = lit ++ r /\ number_lit lit.
Proof.
  unfold scan_number. set (x := match s with c :: s' => if beq c "-" then ([c], s') else ([], s) | [] => ([], []) end).
  assert (s = fst x ++ snd x /\ (fst x = [] \/ fst x = ["-"%byte])) as [ES HS].
  { unfold x. destruct s as [|c s]; auto. destruct (beq c "-") eqn:E; auto. apply beq_true in E as ->. auto. }
  destruct x as [sg s0]. cbn [fst snd] in *. destruct (scan_int s0) as [[i s1]|] eqn:E1; [|discriminate]. destruct (scan_frac s1) as [[f s2]|] eqn:E2; [|discriminate].
  destruct (scan_exp s2) as [[e s3]|] eqn:E3; [|discriminate]. intros [= <- <-]. apply scan_int_ok in E1 as (-> & H1 & H1'). apply scan_frac_ok in E2 as (-> & H2). apply scan_exp_ok in E3 as (-> & H3).
  split; [rewrite ES, <- !app_assoc; reflexivity|]. exists sg, i, f, e. auto 10.
Qed.
Theorem number_complete lit r : number_lit lit -> num_end r -> scan_number (lit ++ r) = Some (lit, r).
Proof.
  intros (sg & i & f & e & -> & Hsg & Hi & Hi' & Hf & He) Hr. rewrite <- !app_assoc.
  assert (no_digit r) as Nr by (destruct r; [exact I|apply Hr]).
  assert (no_digit (e ++ r)) as Ne. { destruct He as [->|(x & s & ds & -> & [->| ->] & _)]; auto; reflexivity. }
  assert (no_digit (f ++ e ++ r)) as Nf. { destruct Hf as [->|(ds & -> & _)]; auto; reflexivity. }
  assert (scan_int (i ++ f ++ e ++ r) = Some (i, f ++ e ++ r)) as E1 by now apply scan_int_complete.
  assert (scan_frac (f ++ e ++ r) = Some (f, e ++ r)) as E2.
  { apply scan_frac_complete; auto. intros _. destruct He as [->|(x & s & ds & -> & [->| ->] & _)]; [|discriminate|discriminate]. cbn [app]. destruct r; [auto|apply Hr]. }
  assert (scan_exp (e ++ r) = Some (e, r)) as E3.
  { apply scan_exp_complete; auto. intros _. destruct r; [auto|split; apply Hr]. }
  unfold scan_number. destruct Hsg as [->| ->]; cbn [app].
  - destruct Hi as [Hne Hi]. destruct i as [|c i]; [congruence|]. inversion Hi as [|? ? Hc _]; subst. pose proof (digit_sign c Hc) as Hd. apply orb_false_iff in Hd as [_ Hd]. cbn [app] in *.
    rewrite Hd, E1, E2, E3. reflexivity.
  - change (beq "-" "-") with true. cbv iota. rewrite E1, E2, E3. reflexivity.
Qed.

(** ** Values *)
Lemma isSpace_iff c : isSpace c = true <-> is_space c.
Proof.
  unfold isSpace, is_space. rewrite !orb_true_iff, !beq_true. cbn [In]. intuition congruence.
Qed.
Lemma skip_ws_ok s : exists w, s = w ++ skip_ws s /\ ws w /\ match skip_ws s with [] => True | c :: _ => ~ is_space c end.
Proof.
  induction s as [|c s (w & E & Hw & H)]; cbn [skip_ws].
  - exists []. repeat constructor.
  - destruct (isSpace c) eqn:EC.
    + exists (c :: w). split; [now rewrite <- app_comm_cons, <- E|]. split; [constructor; auto; now apply isSpace_iff|exact H].
    + exists []. split; [reflexivity|]. split; [constructor|]. intros X. apply isSpace_iff in X. congruence.
Qed.
Lemma skip_ws_app w s : ws w -> skip_ws (w ++ s) = skip_ws s.
Proof. induction 1 as [|c w Hc _ IH]; auto. cbn [app skip_ws]. apply isSpace_iff in Hc. now rewrite Hc. Qed.
Lemma skip_ws_cons c s : ~ is_space c -> skip_ws (c :: s) = c :: s.
Proof. intros H. cbn [skip_ws]. destruct (isSpace c) eqn:E; auto. apply isSpace_iff in E. contradiction. Qed.
Lemma strip_ok p s r : strip p s = Some r <-> s = p ++ r.
Proof.
  revert s. induction p as [|a p IH]; intros [|b s]; cbn [strip app].
  - split; congruence.
  - split; congruence.
  - split; discriminate.
  - destruct (beq a b) eqn:E; [apply beq_true in E as ->|apply beq_false in E].
    + rewrite IH. split; congruence.
    + split; [discriminate|]. intros [= ? ?]. congruence.
Qed.
Ltac byte_cases H := first [apply beq_true in H|apply beq_false in H].

Lemma parse_sound k :
  (forall s v r, p_value k s = Some (v, r) -> exists w t, s = w ++ t ++ r /\ ws w /\ jtext v t) /\
  (forall s l r, p_elems k s = Some (l, r) -> exists t, s = t ++ "]"%byte :: r /\ jelems l t) /\
  (forall s l r, p_members k s = Some (l, r) -> exists t, s = t ++ "}"%byte :: r /\ jmembers l t).
Proof.
  induction k as [|k (IHv & IHe & IHm)]; [repeat split; discriminate|]. refine (conj _ (conj _ _)).
  - intros s v r. cbn [p_value]. destruct (skip_ws_ok s) as (w & Es & Hw & _). destruct (skip_ws s) as [|c s1]; [discriminate|].
    destruct (beq c "{") eqn:B1; [apply beq_true in B1 as ->|].
    { destruct (skip_ws_ok s1) as (w1 & Es1 & Hw1 & _). destruct (skip_ws s1) as [|c2 s2]; [discriminate|]. destruct (beq c2 "}") eqn:B2.
      - intros [= <- <-]. apply beq_true in B2 as ->. exists w, ("{"%byte :: w1 ++ ["}"%byte]). split; [|split; [auto|now constructor]].
        rewrite Es, Es1. cbn [app]. rewrite <- app_assoc. reflexivity.
      - destruct (p_members k s1) as [[l r']|] eqn:E; [|discriminate]. intros [= <- <-]. destruct (IHm _ _ _ E) as (t & Et & Ht). exists w, ("{"%byte :: t ++ ["}"%byte]).
        split; [|split; [auto|now constructor]]. rewrite Es, Et. cbn [app]. rewrite <- app_assoc. reflexivity. }
    destruct (beq c "[") eqn:B2; [apply beq_true in B2 as ->|].
    { destruct (skip_ws_ok s1) as (w1 & Es1 & Hw1 & _). destruct (skip_ws s1) as [|c2 s2]; [discriminate|]. destruct (beq c2 "]") eqn:B3.
      - intros [= <- <-]. apply beq_true in B3 as ->. exists w, ("["%byte :: w1 ++ ["]"%byte]). split; [|split; [auto|now constructor]].
        rewrite Es, Es1. cbn [app]. rewrite <- app_assoc. reflexivity.
      - destruct (p_elems k s1) as [[l r']|] eqn:E; [|discriminate]. intros [= <- <-]. destruct (IHe _ _ _ E) as (t & Et & Ht). exists w, ("["%byte :: t ++ ["]"%byte]).
        split; [|split; [auto|now constructor]]. rewrite Es, Et. cbn [app]. rewrite <- app_assoc. reflexivity. }
    destruct (beq c quote) eqn:B3; [apply beq_true in B3 as ->|].
    { destruct (scan_string s1) as [[raw r']|] eqn:E; [|discriminate]. intros [= <- <-]. apply string_sound in E as [-> H]. exists w, (quote :: raw ++ [quote]).
      split; [|split; [auto|now constructor]]. rewrite Es. cbn [app]. rewrite <- app_assoc. reflexivity. }
    destruct (beq c "n") eqn:B4; [apply beq_true in B4 as ->|].
    { destruct (strip (bs "ull") s1) as [r'|] eqn:E; [|discriminate]. intros [= <- <-]. apply strip_ok in E as ->. exists w, (bs "null"). split; [rewrite Es; reflexivity|]. split; [auto|constructor]. }
    destruct (beq c "t") eqn:B5; [apply beq_true in B5 as ->|].
    { destruct (strip (bs "rue") s1) as [r'|] eqn:E; [|discriminate]. intros [= <- <-]. apply strip_ok in E as ->. exists w, (bs "true"). split; [rewrite Es; reflexivity|]. split; [auto|constructor]. }
    destruct (beq c "f") eqn:B6; [apply beq_true in B6 as ->|].
    { destruct (strip (bs "alse") s1) as [r'|] eqn:E; [|discriminate]. intros [= <- <-]. apply strip_ok in E as ->. exists w, (bs "false"). split; [rewrite Es; reflexivity|]. split; [auto|constructor]. }
    destruct (scan_number (c :: s1)) as [[lit r']|] eqn:E; [|discriminate]. intros [= <- <-]. apply number_sound in E as [E H]. exists w, lit. split; [rewrite Es, E; reflexivity|]. split; [auto|now constructor].
  - intros s l r. cbn [p_elems]. destruct (p_value k s) as [[v s1]|] eqn:E; [|discriminate]. destruct (IHv _ _ _ E) as (w & t & -> & Hw & Ht).
    destruct (skip_ws_ok s1) as (w1 & Es1 & Hw1 & _). destruct (skip_ws s1) as [|c s2]; [discriminate|]. destruct (beq c ",") eqn:B1.
    + apply beq_true in B1 as ->. destruct (p_elems k s2) as [[l' r']|] eqn:E2; [|discriminate]. intros [= <- <-]. destruct (IHe _ _ _ E2) as (t' & -> & Ht').
      exists (w ++ t ++ w1 ++ ","%byte :: t'). split; [|now constructor]. rewrite Es1, <- !app_assoc. reflexivity.
    + destruct (beq c "]") eqn:B2; [|discriminate]. apply beq_true in B2 as ->. intros [= <- <-]. exists (w ++ t ++ w1). split; [|now constructor]. rewrite Es1, <- !app_assoc. reflexivity.
  - intros s l r. cbn [p_members]. destruct (skip_ws_ok s) as (w & Es & Hw & _). destruct (skip_ws s) as [|q s0]; [discriminate|].
    destruct (beq q quote) eqn:B0; [apply beq_true in B0 as ->|discriminate]. cbn [negb]. destruct (scan_string s0) as [[raw s1]|] eqn:E0; [|discriminate]. apply string_sound in E0 as [-> HR].
    destruct (skip_ws_ok s1) as (w1 & Es1 & Hw1 & _). destruct (skip_ws s1) as [|c s2]; [discriminate|]. destruct (beq c ":") eqn:B1; [apply beq_true in B1 as ->|discriminate]. cbn [negb].
    destruct (p_value k s2) as [[v s3]|] eqn:E; [|discriminate]. destruct (IHv _ _ _ E) as (w2 & t & -> & Hw2 & Ht). destruct (skip_ws_ok s3) as (w3 & Es3 & Hw3 & _).
    destruct (skip_ws s3) as [|c3 s4]; [discriminate|]. destruct (beq c3 ",") eqn:B2.
    + apply beq_true in B2 as ->. destruct (p_members k s4) as [[l' r']|] eqn:E2; [|discriminate]. intros [= <- <-]. destruct (IHm _ _ _ E2) as (t' & -> & Ht').
      exists (w ++ quote :: raw ++ quote :: w1 ++ ":"%byte :: w2 ++ t ++ w3 ++ ","%byte :: t'). split; [|now constructor].
      rewrite Es, Es1, Es3. repeat (rewrite <- !app_assoc; cbn [app]). reflexivity.
    + destruct (beq c3 "}") eqn:B3; [|discriminate]. apply beq_true in B3 as ->. intros [= <- <-]. exists (w ++ quote :: raw ++ quote :: w1 ++ ":"%byte :: w2 ++ t ++ w3). split; [|now constructor].
      rewrite Es, Es1, Es3. repeat (rewrite <- !app_assoc; cbn [app]). reflexivity.
Qed.

Lemma not_space c : isSpace c = false -> ~ is_space c.
Proof. intros E H. apply isSpace_iff in H. congruence. Qed.
Lemma number_head lit : number_lit lit -> exists c t, lit = c :: t /\ (c = "-"%byte \/ digit c).
Proof.
  intros (sg & i & f & e & -> & Hsg & [Hne Hi] & _). destruct i as [|c i]; [congruence|]. inversion Hi; subst. destruct Hsg as [->| ->]; cbn [app]; eauto.
Qed.
Lemma digit_head c : c = "-"%byte \/ digit c -> isSpace c = false /\ beq c "]" = false /\ beq c "}" = false /\ beq c "{" = false /\ beq c "[" = false /\ beq c quote = false /\
  beq c "n" = false /\ beq c "t" = false /\ beq c "f" = false.
Proof.
  intros [->|H]; [repeat split|]. unfold digit in H.
  assert (forall x, b2z x < 48 \/ 57 < b2z x -> beq c x = false) as K by (intros x Hx; apply beq_false; intros ->; lia).
  assert (isSpace c = false) as HS. { unfold isSpace. rewrite !K by (cbn; lia). reflexivity. }
  repeat apply conj; auto; apply K; cbn; lia.
Qed.
Lemma jtext_head v t : jtext v t -> exists c t', t = c :: t' /\ isSpace c = false /\ beq c "]" = false /\ beq c "}" = false.
Proof.
  intros H. inversion H as [| | |lit HN| | | | |]; subst; try (eexists _, _; split; [reflexivity|repeat split; fail]; fail).
  all: try (eexists _, _; repeat split; fail).
  destruct (number_head _ HN) as (c & t' & -> & Hc). exists c, t'. split; auto. destruct (digit_head c Hc) as (A & B & C & _). auto.
Qed.
Lemma jelems_head l t : jelems l t -> exists w c t', t = w ++ c :: t' /\ ws w /\ isSpace c = false /\ beq c "]" = false.
Proof.
  intros H. inversion H as [w1 v t1 w2 H1 H2|w1 v t1 w2 l' t' H1 H2]; subst; destruct (jtext_head _ _ H2) as (c & t0 & -> & A & B & _); exists w1, c; eauto 10.
Qed.
Lemma jmembers_head l t : jmembers l t -> exists w t', t = w ++ quote :: t' /\ ws w.
Proof. intros H. inversion H; subst; eauto. Qed.
Lemma num_end_space w s : ws w -> num_end s -> num_end (w ++ s).
Proof. intros [|c w' Hc _] Hs; auto. cbn [app num_end]. destruct Hc as [<-|[<-|[<-|[<-|[]]]]]; repeat split; discriminate. Qed.

Scheme jtext_min := Minimality for jtext Sort Prop
  with jelems_min := Minimality for jelems Sort Prop
  with jmembers_min := Minimality for jmembers Sort Prop.
Combined Scheme json_ind from jtext_min, jelems_min, jmembers_min.

Ltac byte_eq a b := change (beq a b) with false || change (beq a b) with true.
Lemma parse_complete :
  (forall v t, jtext v t -> forall k w r, (2 * List.length t <= k)%nat -> ws w -> num_end r -> p_value k (w ++ t ++ r) = Some (v, r)) /\
  (forall l t, jelems l t -> forall k r, (2 * List.length t + 1 <= k)%nat -> p_elems k (t ++ "]"%byte :: r) = Some (l, r)) /\
  (forall l t, jmembers l t -> forall k r, (2 * List.length t + 1 <= k)%nat -> p_members k (t ++ "}"%byte :: r) = Some (l, r)).
Proof.
  apply json_ind.
  - intros k w r Hk Hw Hr. destruct k as [|k]; [cbn [List.length] in Hk; lia|]. cbn [p_value]. rewrite skip_ws_app by auto. reflexivity.
  - intros k w r Hk Hw Hr. destruct k as [|k]; [cbn [List.length] in Hk; lia|]. cbn [p_value]. rewrite skip_ws_app by auto. reflexivity.
  - intros k w r Hk Hw Hr. destruct k as [|k]; [cbn [List.length] in Hk; lia|]. cbn [p_value]. rewrite skip_ws_app by auto. reflexivity.
  - intros lit H k w r Hk Hw Hr. destruct (number_head _ H) as (c & t & E & Hc). destruct (digit_head c Hc) as (A & _ & _ & B1 & B2 & B3 & B4 & B5 & B6).
    destruct k as [|k]; [rewrite E in Hk; cbn [List.length] in Hk; lia|]. cbn [p_value]. rewrite skip_ws_app by auto. pose proof (number_complete lit r H Hr) as EN.
    rewrite E in *. cbn [app] in *. rewrite skip_ws_cons by now apply not_space. rewrite B1, B2, B3, B4, B5, B6, EN. reflexivity.
  - intros raw v H k w r Hk Hw Hr. destruct k as [|k]; [cbn [List.length] in Hk; lia|]. cbn [p_value]. rewrite skip_ws_app by auto. cbn [app]. rewrite <- app_assoc. cbn [app].
    rewrite skip_ws_cons by now apply not_space. change (beq "034" "{") with false. change (beq "034" "[") with false. change (beq "034" quote) with true. cbv iota.
    destruct (string_complete raw v r H) as [E1 E2]. unfold quote in E1. rewrite E1, E2. reflexivity.
  - intros w0 Hw0 k w r Hk Hw Hr. destruct k as [|k]; [cbn [List.length] in Hk; lia|]. cbn [p_value]. rewrite skip_ws_app by auto. cbn [app].
    rewrite skip_ws_cons by now apply not_space. change (beq "[" "{") with false. change (beq "[" "[") with true. cbv iota. rewrite <- app_assoc, skip_ws_app by auto.
    cbn [app]. rewrite skip_ws_cons by now apply not_space. reflexivity.
  - intros l t H IH k w r Hk Hw Hr. destruct k as [|k]; [cbn [List.length] in Hk; lia|]. cbn [p_value]. rewrite skip_ws_app by auto. cbn [app].
    rewrite skip_ws_cons by now apply not_space. change (beq "[" "{") with false. change (beq "[" "[") with true. cbv iota. rewrite <- app_assoc. cbn [app].
    rewrite IH by (cbn [List.length] in Hk; rewrite app_length in Hk; cbn [List.length] in Hk; lia).
    destruct (jelems_head l t H) as (w1 & c & t' & -> & Hw1 & A & B). rewrite <- app_assoc, skip_ws_app by auto. cbn [app]. rewrite skip_ws_cons by now apply not_space. now rewrite B.
  - intros w0 Hw0 k w r Hk Hw Hr. destruct k as [|k]; [cbn [List.length] in Hk; lia|]. cbn [p_value]. rewrite skip_ws_app by auto. cbn [app].
    rewrite skip_ws_cons by now apply not_space. change (beq "{" "{") with true. cbv iota. rewrite <- app_assoc, skip_ws_app by auto.
    cbn [app]. rewrite skip_ws_cons by now apply not_space. reflexivity.
  - intros l t H IH k w r Hk Hw Hr. destruct k as [|k]; [cbn [List.length] in Hk; lia|]. cbn [p_value]. rewrite skip_ws_app by auto. cbn [app].
    rewrite skip_ws_cons by now apply not_space. change (beq "{" "{") with true. cbv iota. rewrite <- app_assoc. cbn [app].
    rewrite IH by (cbn [List.length] in Hk; rewrite app_length in Hk; cbn [List.length] in Hk; lia).
    destruct (jmembers_head l t H) as (w1 & t' & -> & Hw1). rewrite <- app_assoc, skip_ws_app by auto. cbn [app]. rewrite skip_ws_cons by now apply not_space. reflexivity.
  - intros w1 v t w2 H1 Ht IH H2 k r Hk. rewrite !app_length in Hk. destruct k as [|k]; [lia|]. cbn [p_elems]. rewrite <- !app_assoc.
    rewrite IH; [|lia|auto|apply num_end_space; auto; repeat split; discriminate]. rewrite skip_ws_app by auto. rewrite skip_ws_cons by now apply not_space. reflexivity.
  - intros w1 v t w2 l t' H1 Ht IH H2 Hl IHl k r Hk. rewrite !app_length in Hk. cbn [List.length] in Hk. destruct k as [|k]; [lia|]. cbn [p_elems]. rewrite <- !app_assoc.
    rewrite IH; [|lia|auto|apply num_end_space; auto; repeat split; discriminate]. rewrite skip_ws_app by auto. rewrite <- app_comm_cons, skip_ws_cons by now apply not_space.
    change (beq "," ",") with true. cbv iota. rewrite IHl by lia. reflexivity.
  - intros w1 raw kk w2 w3 v t w4 H1 HR H2 H3 Ht IH H4 k r Hk. rewrite !app_length in Hk. cbn [List.length] in Hk. rewrite !app_length in Hk. cbn [List.length] in Hk. rewrite !app_length in Hk. cbn [List.length] in Hk.
    rewrite !app_length in Hk. destruct k as [|k]; [lia|]. cbn [p_members]. repeat (rewrite <- !app_assoc; cbn [app]). rewrite skip_ws_app by auto. rewrite skip_ws_cons by now apply not_space.
    change (beq "034" quote) with true. cbn [negb]. destruct (string_complete raw kk (w2 ++ ":"%byte :: w3 ++ t ++ w4 ++ "}"%byte :: r) HR) as [E1 E2]. unfold quote in E1. rewrite E1, E2.
    rewrite skip_ws_app by auto. rewrite skip_ws_cons by now apply not_space. change (beq ":" ":") with true. cbn [negb].
    rewrite IH; [|lia|auto|apply num_end_space; auto; repeat split; discriminate]. rewrite skip_ws_app by auto. rewrite skip_ws_cons by now apply not_space. reflexivity.
  - intros w1 raw kk w2 w3 v t w4 l t' H1 HR H2 H3 Ht IH H4 Hl IHl k r Hk. rewrite !app_length in Hk. cbn [List.length] in Hk. rewrite !app_length in Hk. cbn [List.length] in Hk. rewrite !app_length in Hk. cbn [List.length] in Hk.
    rewrite !app_length in Hk. cbn [List.length] in Hk. destruct k as [|k]; [lia|]. cbn [p_members]. repeat (rewrite <- !app_assoc; cbn [app]). rewrite skip_ws_app by auto. rewrite skip_ws_cons by now apply not_space.
    change (beq "034" quote) with true. cbn [negb]. destruct (string_complete raw kk (w2 ++ ":"%byte :: w3 ++ t ++ w4 ++ ","%byte :: t' ++ "}"%byte :: r) HR) as [E1 E2]. unfold quote in E1. rewrite E1, E2.
    rewrite skip_ws_app by auto. rewrite skip_ws_cons by now apply not_space. change (beq ":" ":") with true. cbn [negb].
    rewrite IH; [|lia|auto|apply num_end_space; auto; repeat split; discriminate]. rewrite skip_ws_app by auto. rewrite skip_ws_cons by now apply not_space.
    change (beq "," ",") with true. cbv iota. rewrite IHl by lia. reflexivity.
Qed.

(** The parser accepts exactly the texts of the grammar that are not nested too deeply. *)
Theorem parse_json_iff s v : parse_json s = Some v <-> json_text v s /\ (jdepth v <= maxNestingDepth)%nat.
Proof.
  unfold parse_json, json_text. split.
  - destruct (p_value _ s) as [[v' r]|] eqn:E; [|discriminate]. destruct (proj1 (parse_sound _) _ _ _ E) as (w & t & Es & Hw & Ht).
    destruct (skip_ws_ok r) as (w2 & Er & Hw2 & _). destruct (skip_ws r); [|discriminate]. rewrite app_nil_r in Er. subst r.
    destruct (Nat.leb_spec (jdepth v') maxNestingDepth) as [HD|]; [|discriminate]. intros [= <-]. split; auto. exists w, t, w2. auto.
  - intros [(w1 & t & w2 & -> & H1 & Ht & H2) HD]. rewrite (proj1 parse_complete v t Ht); auto.
    + rewrite <- (app_nil_r w2), skip_ws_app by auto. cbn [skip_ws]. apply Nat.leb_le in HD. now rewrite HD.
    + rewrite !app_length. lia.
    + rewrite <- (app_nil_r w2). apply num_end_space; [auto|exact I].
Qed.
