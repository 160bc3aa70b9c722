(** C46: the JSON texts of shares, public data and key files. *)
From Coq Require Import ZArith Lia List Bool String Permutation Sorted Setoid Morphisms.
From Coq.Strings Require Import Byte.
From stdpp Require Import base gmap list fin_maps.
From Verif Require Import ZField Primes Bytes Scalar Go Group ToyGroup Party Poly PolyFacts Eddsa Messages State StateFacts Keygen Sign Helpers Cmd Text Spec_Text Spec_Json Json JsonFacts
  Spec_Poly PolyAlg Spec_Group Spec_Public Properties_Algebra Properties_Keygen Properties_Public Properties_Text
  Net Properties_Helpers Spec_Sign SignFacts SignRun Spec_SignRun Properties_Sign Properties_HonestSign Properties_HonestKeygen Properties_Cmd
  RistrettoGroup Ed25519 Spec_Ed25519 Properties_Ed25519 Properties_Concrete.
Import ListNotations.
Local Open Scope Z_scope.

(** * Reading: exactly JSON *)
Lemma depth_ok v : (jdepth v <= maxNestingDepth)%nat <-> Z.of_nat (jdepth v) <= 10000.
Proof. unfold maxNestingDepth. lia. Qed.
Theorem C46_grammar : forall t v, parse_json t = Some v <-> json_text v t /\ Z.of_nat (jdepth v) <= 10000.
Proof. intros t v. rewrite <- depth_ok. apply parse_json_iff. Qed.
Corollary C46_unambiguous : forall t v v', json_text v t -> json_text v' t -> Z.of_nat (jdepth v) <= 10000 -> Z.of_nat (jdepth v') <= 10000 -> v = v'.
Proof.
  intros t v v' H H' D D'. pose proof (proj2 (C46_grammar t v) (conj H D)) as A. pose proof (proj2 (C46_grammar t v') (conj H' D')) as B. congruence.
Qed.

(** * Writing *)
(** Strings that need no escape, numbers that are numbers. *)
Definition plain (s : list byte) : Prop := Forall (fun c => 32 <= b2z c < 128 /\ c <> quote /\ c <> backslash) s.
Fixpoint printable (v : jval) : Prop :=
  match v with
  | JNum lit => number_lit lit
  | JStr s => plain s
  | JArr l => fold_right (fun x P => printable x /\ P) True l
  | JObj l => fold_right (fun kv P => plain (fst kv) /\ printable (snd kv) /\ P) True l
  | _ => True
  end.
Lemma jval_ind2 (P : jval -> Prop) : P JNull -> (forall b, P (JBool b)) -> (forall lit, P (JNum lit)) -> (forall s, P (JStr s)) ->
  (forall l, Forall P l -> P (JArr l)) -> (forall l, Forall (fun kv => P (snd kv)) l -> P (JObj l)) -> forall v, P v.
Proof.
  intros H1 H2 H3 H4 H5 H6. fix IH 1. intros [|b|lit|s|l|l].
  - exact H1.
  - apply H2.
  - apply H3.
  - apply H4.
  - apply H5. induction l as [|x l IHl]; constructor; [apply IH|exact IHl].
  - apply H6. induction l as [|[k x] l IHl]; constructor; [apply IH|exact IHl].
Qed.
Lemma plain_jchars s : plain s -> jchars s s.
Proof. induction 1 as [|c s (H1 & H2 & H3) _ IH]; constructor; auto. Qed.
Lemma nl_ws m : ws (nl m).
Proof. destruct m as [d|]; [|constructor]. constructor; [cbn; auto|]. induction d; constructor; auto. cbn; auto. Qed.
Lemma colon_ok m : exists w, colon m = ":"%byte :: w /\ ws w.
Proof. destruct m as [d|]; [exists [" "%byte]|exists []]; split; auto; repeat constructor; cbn; auto. Qed.
Lemma join_elems (pr : jval -> list byte) w w' l : l <> [] -> ws w -> ws w' -> Forall (fun v => jtext v (pr v)) l -> jelems l (w ++ join (","%byte :: w) (map pr l) ++ w').
Proof.
  intros Hne Hw Hw' H. induction H as [|v l Hv H IH]; [congruence|]. destruct l as [|v2 l]; cbn [map join].
  - now constructor.
  - rewrite <- !app_assoc. change (w ++ pr v ++ (","%byte :: w) ++ ?x) with (w ++ pr v ++ [] ++ ","%byte :: w ++ x). apply je_more; [exact Hw|exact Hv|constructor|].
    apply IH. discriminate.
Qed.
Lemma join_members (pr : jval -> list byte) col w w' l : l <> [] -> ws w -> ws w' -> (exists c, col = ":"%byte :: c /\ ws c) ->
  Forall (fun kv => plain (fst kv) /\ jtext (snd kv) (pr (snd kv))) l ->
  jmembers l (w ++ join (","%byte :: w) (map (fun kv => quoted (fst kv) ++ col ++ pr (snd kv)) l) ++ w').
Proof.
  intros Hne Hw Hw' (c & -> & Hc) H. induction H as [|[k v] l [Hk Hv] H IH]; [congruence|]. cbn [fst snd] in *. apply plain_jchars in Hk.
  assert (forall rest, quoted k ++ (":"%byte :: c) ++ pr v ++ rest = quote :: k ++ quote :: [] ++ ":"%byte :: c ++ pr v ++ rest) as Q.
  { intros rest. unfold quoted. repeat (rewrite <- ?app_assoc; cbn [app]). reflexivity. }
  destruct l as [|kv2 l].
  - cbn [map join fst snd]. rewrite <- !app_assoc, Q. apply (jm_one w k k [] c v (pr v) w'); auto. constructor.
  - specialize (IH ltac:(discriminate)). set (f := fun kv : list byte * jval => quoted (fst kv) ++ (":"%byte :: c) ++ pr (snd kv)) in *.
    change (join (","%byte :: w) (map f ((k, v) :: kv2 :: l))) with ((quoted k ++ (":"%byte :: c) ++ pr v) ++ (","%byte :: w) ++ join (","%byte :: w) (map f (kv2 :: l))).
    remember (join (","%byte :: w) (map f (kv2 :: l))) as J eqn:EJ. clear EJ.
    rewrite <- !app_assoc, Q. change (quote :: k ++ ?y) with (quote :: k ++ y).
    change (c ++ pr v ++ (","%byte :: w) ++ ?x) with (c ++ pr v ++ [] ++ ","%byte :: w ++ x).
    apply (jm_more w k k [] c v (pr v) [] (kv2 :: l)); [exact Hw|exact Hk|constructor|exact Hc|exact Hv|constructor|exact IH].
Qed.
(** Both layouts (Marshal and MarshalIndent) are JSON texts of the value. *)
Lemma jprint_jtext v : forall m, printable v -> jtext v (jprint m v).
Proof.
  induction v as [|b|lit|s|l IH|l IH] using jval_ind2; intros m H.
  - constructor.
  - destruct b; constructor.
  - constructor. exact H.
  - cbn [jprint]. unfold quoted, quote. constructor. now apply plain_jchars.
  - destruct l as [|v l].
    + apply (jt_arr0 []). constructor.
    + remember (v :: l) as l0 eqn:El. assert (l0 <> []) as Hne by (subst; discriminate).
      assert (jprint m (JArr l0) = "["%byte :: (nl (deeper m) ++ join (","%byte :: nl (deeper m)) (map (jprint (deeper m)) l0) ++ nl m) ++ ["]"%byte]) as ->.
      { subst. cbn [jprint]. now rewrite <- !app_assoc. }
      constructor. apply join_elems; auto using nl_ws. clear El Hne. cbn [printable] in H.
      induction l0 as [|x l0 IHl]; constructor; inversion IH; subst; destruct H; auto.
  - destruct l as [|v l].
    + apply (jt_obj0 []). constructor.
    + remember (v :: l) as l0 eqn:El. assert (l0 <> []) as Hne by (subst; discriminate).
      assert (jprint m (JObj l0) = "{"%byte :: (nl (deeper m) ++ join (","%byte :: nl (deeper m)) (map (fun kv => quoted (fst kv) ++ colon m ++ jprint (deeper m) (snd kv)) l0) ++ nl m) ++ ["}"%byte]) as ->.
      { subst. cbn [jprint]. now rewrite <- !app_assoc. }
      constructor. apply join_members; auto using nl_ws, colon_ok. clear El Hne. cbn [printable] in H.
      induction l0 as [|x l0 IHl]; constructor; inversion IH; subst; destruct H as (A & B & C); auto.
Qed.
Theorem C46_printed : forall m v, printable v -> json_text v (jprint m v).
Proof. intros m v H. exists [], (jprint m v), []. rewrite app_nil_r. repeat split; [constructor|now apply jprint_jtext|constructor]. Qed.
Theorem C46_print_parse : forall m v, printable v -> Z.of_nat (jdepth v) <= 10000 -> parse_json (jprint m v) = Some v.
Proof. intros m v H D. apply C46_grammar. split; auto. now apply C46_printed. Qed.

(** * Numbers, base64 strings, keys *)
Lemma dec_loop_ok ds : forall n, Forall digit ds -> dec_loop n ds = Some (fold_left (fun n c => 10 * n + (b2z c - 48)) ds n).
Proof. induction ds as [|c ds IH]; intros n H; auto. inversion H as [|? ? Hc Hd]; subst. cbn [dec_loop fold_left]. apply isDigit_iff in Hc. rewrite Hc, IH by auto. do 2 f_equal. lia. Qed.
Lemma ParseDec_ok ds : ds <> [] -> Forall digit ds -> ParseDec ds = Some (dec_value ds).
Proof. intros Hne H. unfold ParseDec. destruct ds; [congruence|]. now apply dec_loop_ok. Qed.
Lemma shortest_ne ds : shortest ds -> ds <> []. Proof. intros (c & d & -> & _). discriminate. Qed.
Lemma FormatInt_lit z : - 2 ^ 63 <= z < 2 ^ 63 -> number_lit (FormatInt z).
Proof.
  intros H. unfold FormatInt. destruct (Z.ltb_spec z 0).
  - destruct (FormatUint_ok (- z)) as (A & _ & B); [lia|]. exists ["-"%byte], (FormatUint (- z)), [], []. rewrite !app_nil_r. repeat split; auto. now apply shortest_ne.
  - destruct (FormatUint_ok z) as (A & _ & B); [lia|]. exists [], (FormatUint z), [], []. rewrite !app_nil_r. repeat split; auto. now apply shortest_ne.
Qed.
Lemma ParseInt64_FormatInt z : - 2 ^ 63 <= z < 2 ^ 63 -> ParseInt64 (FormatInt z) = Some z.
Proof.
  intros H. unfold FormatInt, ParseInt64. destruct (Z.ltb_spec z 0).
  - destruct (FormatUint_ok (- z)) as (A & B & C); [lia|]. change (beq "-" "-") with true. cbv iota. rewrite ParseDec_ok, B by auto using shortest_ne.
    rewrite (proj2 (Z.leb_le (- z) (2 ^ 63))) by lia. f_equal. lia.
  - destruct (FormatUint_ok z) as (A & B & C); [lia|]. destruct (FormatUint z) as [|c ds] eqn:E; [now apply shortest_ne in C|].
    pose proof (List.Forall_inv A) as Hc. pose proof (digit_sign c Hc) as Hd. apply orb_false_iff in Hd as [Hd1 Hd2]. rewrite Hd1, Hd2, ParseDec_ok, B by (auto; discriminate).
    now rewrite (proj2 (Z.ltb_lt z (2 ^ 63))) by lia.
Qed.
Lemma digit_plain ds : Forall digit ds -> plain ds.
Proof. intros H. eapply List.Forall_impl; [|exact H]. unfold digit. intros c Hc. split; [lia|]. split; intros ->; cbn in Hc; lia. Qed.
Lemma b64_plain b : plain (b64_encode b).
Proof.
  assert (forall i, 0 <= i < 64 -> 32 <= b2z (b64_char i) < 128 /\ b64_char i <> quote /\ b64_char i <> backslash) as K.
  { assert (forallb (fun i => (32 <=? b2z (b64_char i)) && (b2z (b64_char i) <? 128) && negb (beq (b64_char i) quote) && negb (beq (b64_char i) backslash)) (zrange 64) = true) as T by (vm_compute; reflexivity).
    rewrite forallb_forall in T. intros i Hi. specialize (T i (in_zrange 64 i Hi)). rewrite !andb_true_iff, !negb_true_iff, Z.leb_le, Z.ltb_lt, !beq_false in T. tauto. }
  assert (32 <= b2z Text.pad < 128 /\ Text.pad <> quote /\ Text.pad <> backslash) as KP by (split; [cbn; lia|split; discriminate]).
  induction b as [|a|a b|a b c l IH] using list_ind3; cbn [b64_encode app]; repeat (constructor; [first [exact KP|apply K; first [apply sext|apply sext0]]|]); try constructor. exact IH.
Qed.
Lemma id_text_ok id : 0 <= id < 65536 -> plain (id_MarshalText id) /\ id_UnmarshalText (id_MarshalText id) = Ret id.
Proof. intros H. destruct (C40_id_marshal id H) as (A & _). split; [now apply digit_plain|now apply C40_id_round_trip]. Qed.

(** * Maps: the members are written in the order of their key texts *)
Lemma insert_key_perm {A} (x : list byte * A) l : Permutation (insert_key x l) (x :: l).
Proof. induction l as [|y l IH]; auto. cbn [insert_key]. destruct (bytes_ltb _ _); auto. rewrite IH. apply perm_swap. Qed.
Lemma sort_keys_perm {A} (l : list (list byte * A)) : Permutation (sort_keys l) l.
Proof. induction l as [|x l IH]; auto. cbn [sort_keys fold_right]. rewrite insert_key_perm. now constructor. Qed.
Lemma enc_map_list {A} (g : A -> jval) (m : gmap Z A) :
  exists l, Permutation l (map_to_list m) /\ enc_map g m = JObj (map (fun kv => (id_MarshalText (fst kv), g (snd kv))) l).
Proof.
  unfold enc_map. match goal with |- context [sort_keys ?x] => pose proof (sort_keys_perm x) as P end. apply Permutation_map_inv in P as (l & E & P).
  exists l. split; [now symmetry|]. now rewrite E.
Qed.
Lemma bytes_ltb_irrefl a : bytes_ltb a a = false.
Proof. induction a as [|x a IH]; auto. cbn [bytes_ltb]. rewrite Z.ltb_irrefl, beq_refl, IH. reflexivity. Qed.
Lemma bytes_ltb_trans a : forall b c, bytes_ltb a b = true -> bytes_ltb b c = true -> bytes_ltb a c = true.
Proof.
  induction a as [|x a IH]; intros [|y b] [|z c]; cbn [bytes_ltb]; auto; try discriminate. rewrite !orb_true_iff, !andb_true_iff, !Z.ltb_lt, !beq_true.
  intros [H|[-> H]] [H'|[-> H']]; [left; lia|left; lia|left; lia|right; split; eauto].
Qed.
Lemma bytes_ltb_total a : forall b, a <> b -> bytes_ltb a b = false -> bytes_ltb b a = true.
Proof.
  induction a as [|x a IH]; intros [|y b]; cbn [bytes_ltb]; auto; try congruence. intros Hne. rewrite orb_false_iff, orb_true_iff, andb_false_iff, andb_true_iff, Z.ltb_ge, Z.ltb_lt, beq_false, beq_true.
  intros [H1 [H2|H2]].
  - left. assert (b2z x <> b2z y) by (intros E; apply H2; now apply b2z_inj). lia.
  - destruct (Z.eq_dec (b2z x) (b2z y)) as [E|]; [|left; lia]. apply b2z_inj in E. subst y. right. split; auto. apply IH; auto. congruence.
Qed.
Definition key_lt {A} (x y : list byte * A) : Prop := bytes_ltb (fst x) (fst y) = true.
Lemma insert_key_sorted {A} (x : list byte * A) l : StronglySorted key_lt l -> (forall y, In y l -> fst y <> fst x) -> StronglySorted key_lt (insert_key x l).
Proof.
  induction 1 as [|y l H IH HF]; intros Hne; cbn [insert_key]; [repeat constructor|]. destruct (bytes_ltb (fst y) (fst x)) eqn:E.
  - constructor; [apply IH; intros z Hz; apply Hne; now right|]. rewrite insert_key_perm. constructor; [exact E|exact HF].
  - assert (key_lt x y) as L by (apply bytes_ltb_total; [apply Hne; now left|exact E]). constructor; [now constructor|]. constructor; auto.
    eapply List.Forall_impl; [|exact HF]. intros z Hz. eapply bytes_ltb_trans; eauto.
Qed.
Lemma sort_keys_sorted {A} (l : list (list byte * A)) : List.NoDup (map fst l) -> StronglySorted key_lt (sort_keys l).
Proof.
  induction l as [|x l IH]; intros H; [constructor|]. inversion H as [|? ? H1 H2]; subst. cbn [sort_keys fold_right]. apply insert_key_sorted; [now apply IH|].
  intros y Hy E. apply H1. rewrite <- E. apply in_map. now rewrite (sort_keys_perm l) in Hy.
Qed.

Lemma ofold_members {A B} (f : jval -> outcome B) (g : A -> jval) (h : A -> B) (l : list (Z * A)) : forall acc : gmap Z B,
  List.NoDup (map fst l) -> (forall i x, In (i, x) l -> 0 <= i < 65536 /\ f (g x) = Ret (h x)) -> exists m,
  ofold (fun (acc : gmap ID B) kv => let* id := id_UnmarshalText (fst kv) in let* x := f (snd kv) in Ret (<[id := x]> acc)) acc
    (map (fun kv => (id_MarshalText (fst kv), g (snd kv))) l) = Ret m /\
  (forall i x, In (i, x) l -> m !! i = Some (h x)) /\ (forall i, ~ In i (map fst l) -> m !! i = acc !! i).
Proof.
  induction l as [|[k x] l IH]; intros acc ND H; cbn [map ofold fst snd].
  - exists acc. split; [reflexivity|]. split; [intros i x []|auto].
  - destruct (H k x (or_introl eq_refl)) as [Hk Hx]. rewrite (proj2 (id_text_ok k Hk)). cbn [obind]. rewrite Hx. cbn [obind].
    cbn [map fst] in ND. inversion ND as [|? ? Hni ND']; subst.
    destruct (IH (<[k := h x]> acc) ND') as (m & E & A' & B'). { intros i y Hi. apply H. now right. }
    exists m. split; [exact E|]. split.
    + intros i y [Hi|Hi]; [|auto]. injection Hi as <- <-. rewrite B' by auto. apply lookup_insert.
    + intros i Hi. cbn [In] in Hi. rewrite B' by tauto. apply lookup_insert_ne. tauto.
Qed.
(** What is written for a map is read back as the map with its values read back. *)
Lemma d_map_enc {A B} (f : jval -> outcome B) (g : A -> jval) (h : A -> B) (m : gmap Z A) :
  (forall i x, m !! i = Some x -> 0 <= i < 65536 /\ f (g x) = Ret (h x)) -> d_map f ∅ (enc_map g m) = Ret (h <$> m).
Proof.
  intros H. destruct (enc_map_list g m) as (l & P & ->). cbn [d_map].
  assert (forall i x, In (i, x) l <-> m !! i = Some x) as HI.
  { intros i x. rewrite <- elem_of_list_In, P, elem_of_map_to_list. reflexivity. }
  destruct (ofold_members f g h l ∅) as (m' & -> & H1 & H2).
  - apply (Permutation_NoDup (l := map fst (map_to_list m))); [apply Permutation_map; now symmetry|]. apply NoDup_ListNoDup, NoDup_fst_map_to_list.
  - intros i x Hi. apply H. now apply HI.
  - f_equal. apply map_eq. intros i. rewrite lookup_fmap. destruct (m !! i) as [x|] eqn:E.
    + cbn. apply H1. now apply HI.
    + rewrite H2; [now rewrite lookup_empty|]. intros Hi. apply in_map_iff in Hi as ([j x] & Ej & Hi). cbn in Ej. subst j. apply HI in Hi. congruence.
Qed.
Lemma enc_map_printable {A} (g : A -> jval) (m : gmap Z A) : (forall i x, m !! i = Some x -> 0 <= i < 65536 /\ printable (g x)) -> printable (enc_map g m).
Proof.
  intros H. destruct (enc_map_list g m) as (l & P & ->). cbn [printable].
  assert (forall i x, In (i, x) l -> 0 <= i < 65536 /\ printable (g x)) as HI.
  { intros i x Hi. apply (H i x). apply elem_of_map_to_list. rewrite <- P. now apply elem_of_list_In. }
  clear P. induction l as [|[k x] l IH]; cbn [map fold_right fst snd]; auto. destruct (HI k x (or_introl eq_refl)) as [A1 A2].
  split; [now apply id_text_ok|]. split; auto. apply IH. intros i y Hi. apply HI. now right.
Qed.
Lemma enc_map_depth {A} (g : A -> jval) (m : gmap Z A) d : (forall i x, m !! i = Some x -> (jdepth (g x) <= d)%nat) -> (jdepth (enc_map g m) <= S d)%nat.
Proof.
  intros H. destruct (enc_map_list g m) as (l & P & ->). cbn [jdepth]. apply le_n_S.
  assert (forall i x, In (i, x) l -> (jdepth (g x) <= d)%nat) as HI.
  { intros i x Hi. apply (H i x). apply elem_of_map_to_list. rewrite <- P. now apply elem_of_list_In. }
  clear P. induction l as [|[k x] l IH]; cbn [map fold_right fst snd]; [lia|]. apply Nat.max_lub; [apply (HI k x); now left|]. apply IH. intros i y Hi. apply (HI i y). now right.
Qed.
(** Exactly the members of the map, each once, in increasing order of the key texts. *)
Theorem C46_map_members : forall {A} (g : A -> jval) (m : gmap Z A), (forall i x, m !! i = Some x -> 0 <= i < 65536) ->
  exists l, enc_map g m = JObj l /\ StronglySorted (fun x y => bytes_ltb (fst x) (fst y) = true) l /\
    forall k v, In (k, v) l <-> exists i x, m !! i = Some x /\ k = id_MarshalText i /\ v = g x.
Proof.
  intros A g m H. unfold enc_map. eexists. split; [reflexivity|]. split.
  - apply sort_keys_sorted. rewrite map_map. cbn [fst].
    assert (forall l : list (Z * A), List.NoDup (map fst l) -> (forall kv, In kv l -> 0 <= fst kv < 65536) -> List.NoDup (map (fun x => id_MarshalText (fst x)) l)) as X.
    { induction l as [|[k x] l IH]; intros ND HI; cbn [map fst]; constructor.
      - intros Hin. apply in_map_iff in Hin as ([k' x'] & E & Hin). cbn [fst] in E. cbn [map fst] in ND. inversion ND as [|? ? Hni _]; subst. apply Hni.
        assert (k' = k) as <-. { pose proof (HI _ (or_introl eq_refl)) as R1. pose proof (HI _ (or_intror Hin)) as R2. cbn [fst] in R1, R2.
          pose proof (proj2 (id_text_ok k R1)) as E1. rewrite <- E, (proj2 (id_text_ok k' R2)) in E1. congruence. }
        apply in_map_iff. exists (k', x'). auto.
      - cbn [map fst] in ND. inversion ND; subst. apply IH; auto. intros kv Hkv. apply HI. now right. }
    apply X; [apply NoDup_ListNoDup, NoDup_fst_map_to_list|]. intros [k x] Hkv. apply (H k x). apply elem_of_map_to_list. now apply elem_of_list_In.
  - intros k v. match goal with |- context [sort_keys ?z] => pose proof (sort_keys_perm z) as P end. split.
    + intros Hi. rewrite P in Hi. apply in_map_iff in Hi as ([i x] & E & Hi). injection E as <- <-. exists i, x. split; auto. apply elem_of_map_to_list. now apply elem_of_list_In.
    + intros (i & x & E & -> & ->). rewrite P. apply in_map_iff. exists (i, x). split; auto. apply elem_of_list_In. now apply elem_of_map_to_list.
Qed.

(** * Shares, public data, files *)
Lemma plain_lit s : forallb (fun c => (32 <=? b2z c) && (b2z c <? 128) && negb (beq c quote) && negb (beq c backslash)) s = true -> plain s.
Proof.
  intros H. apply List.Forall_forall. intros c Hc. rewrite forallb_forall in H. specialize (H c Hc).
  rewrite !andb_true_iff, !negb_true_iff, Z.leb_le, Z.ltb_lt, !beq_false in H. tauto.
Qed.
Section Texts.
  Context `{L : group_laws} `{Hf : hash_fn}.

  Definition fits (z : Z) : Prop := - 2 ^ 63 <= z < 2 ^ 63.
  Lemma u16_fits z : is_u16 z -> fits z. Proof. unfold is_u16, fits. lia. Qed.
  Lemma b64_back b : b64_decode (b64_encode b) = Some b. Proof. apply C40_base64. Qed.

  Lemma enc_share_ok x : fits (fst x) -> printable (enc_share x) /\ jdepth (enc_share x) = 1%nat /\ d_share (enc_share x) = Ret x.
  Proof.
    destruct x as [z b]. unfold fits. cbn [fst]. intros H. split; [|split; [reflexivity|]].
    - cbn [enc_share printable fold_right fst snd]. split; [apply plain_lit; reflexivity|]. split; [now apply FormatInt_lit|]. split; [apply plain_lit; reflexivity|]. split; [apply b64_plain|exact I].
    - unfold enc_share, d_share. cbn [ofold fst snd].
      change (fold_eq (bs "id") (bs "id")) with true. change (fold_eq (bs "id") (bs "secret")) with false. change (fold_eq (bs "secret") (bs "secret")) with true.
      cbv iota. cbn [d_int d_bytes obind fst snd]. rewrite ParseInt64_FormatInt by exact H. cbn [oret_option obind fst snd]. rewrite b64_back. reflexivity.
  Qed.

  (** The text of a share. *)
  Theorem C46_share_text : forall sk, share_MarshalJSON_text sk =
    bs "{""id"":" ++ FormatInt (sh_ID sk) ++ bs ",""secret"":""" ++ b64_encode (scalar_bytes (sh_Secret sk)) ++ bs """}".
  Proof.
    intros sk. unfold share_MarshalJSON_text, share_MarshalJSON, enc_share. cbn [fst snd jprint map join nl deeper colon app]. unfold quoted.
    repeat (rewrite <- ?app_assoc; cbn [app bs list_byte_of_string]). reflexivity.
  Qed.
  Theorem C46_share_round_trip : forall id s, is_u16 id -> share_UnmarshalJSON_text (share_MarshalJSON_text (NewSecretShare id s)) = Ret (NewSecretShare id s).
  Proof.
    intros id s H. unfold share_UnmarshalJSON_text, share_MarshalJSON_text.
    destruct (enc_share_ok (share_MarshalJSON (NewSecretShare id s))) as (A & B & C); [now apply u16_fits|].
    rewrite C46_print_parse by (auto; rewrite B; lia). unfold share_of_json. rewrite C. cbn [obind]. now apply C29_share_json_round_trip.
  Qed.

  (** Elements: read back as the same group element. *)
  Definition reread_el (e : G) : G := default e (gdec (genc e)).
  Lemma reread_el_eq e : geq (reread_el e) e.
  Proof. unfold reread_el. destruct (gdec_genc e) as (e' & -> & H). exact H. Qed.
  Lemma d_el_enc e : d_el (enc_el e) = Ret (Some (reread_el e)).
  Proof.
    unfold d_el, enc_el, el_UnmarshalText, el_MarshalText, reread_el. rewrite b64_back. destruct (gdec_genc e) as (e' & -> & _). reflexivity.
  Qed.
  (** The same Public with every element read back. *)
  Definition reread_pub (p : Public) : Public := mkPublic (pub_PartyIDs p) (pub_Threshold p) (reread_el <$> pub_Shares p) (reread_el (pub_GroupKey p)).
  Definition map_u16 {A} (m : gmap Z A) : Prop := forall i x, m !! i = Some x -> 0 <= i < 65536.
  Lemma enc_public_ok p : fits (pub_Threshold p) -> map_u16 (pub_Shares p) ->
    printable (enc_public (pub_MarshalJSON p)) /\ (jdepth (enc_public (pub_MarshalJSON p)) <= 2)%nat /\ d_public (enc_public (pub_MarshalJSON p)) = Ret (pub_MarshalJSON (reread_pub p)).
  Proof.
    intros Ht Hm. unfold pub_MarshalJSON, enc_public. cbn [js_t js_groupkey js_shares enc_ptr].
    assert (forall i (x : option G), (Some <$> pub_Shares p) !! i = Some x -> exists e, x = Some e /\ 0 <= i < 65536) as K.
    { intros i x E. rewrite lookup_fmap in E. apply fmap_Some in E as (e & E & ->). exists e. split; auto. eapply Hm; eauto. }
    split; [|split].
    - cbn [printable fold_right fst snd]. split; [apply plain_lit; reflexivity|]. split; [now apply FormatInt_lit|].
      split; [apply plain_lit; reflexivity|]. split; [apply b64_plain|]. split; [apply plain_lit; reflexivity|]. split; auto.
      apply enc_map_printable. intros i x E. destruct (K i x E) as (e & -> & Hi). split; auto. apply b64_plain.
    - cbn [jdepth map fold_right fst snd enc_el]. apply le_n_S. repeat apply Nat.max_lub; try lia. apply enc_map_depth. intros i x E. destruct (K i x E) as (e & -> & Hi). reflexivity.
    - unfold d_public. cbn [ofold fst snd].
      change (fold_eq (bs "t") (bs "t")) with true. change (fold_eq (bs "t") (bs "groupkey")) with false. change (fold_eq (bs "t") (bs "shares")) with false.
      change (fold_eq (bs "groupkey") (bs "groupkey")) with true. change (fold_eq (bs "groupkey") (bs "shares")) with false. change (fold_eq (bs "shares") (bs "shares")) with true.
      cbv iota. cbn [d_int obind]. rewrite ParseInt64_FormatInt by exact Ht. cbn [oret_option obind js_t js_groupkey js_shares]. rewrite d_el_enc. cbn [obind js_t js_groupkey js_shares].
      rewrite (d_map_enc d_el (enc_ptr enc_el) (fun x => reread_el <$> x)).
      + cbn [obind]. unfold reread_pub. cbn [pub_Threshold pub_GroupKey pub_Shares]. do 2 f_equal. rewrite <- !map_fmap_compose. reflexivity.
      + intros i x E. destruct (K i x E) as (e & -> & Hi). split; auto. apply d_el_enc.
  Qed.
  Lemma reread_pub_ok p : well_formed p -> usable (pub_Shares p) -> geq (pub_GroupKey p) (interpolated (pub_PartyIDs p) (pub_Shares p)) ->
    well_formed (reread_pub p) /\ usable (pub_Shares (reread_pub p)) /\ geq (pub_GroupKey (reread_pub p)) (interpolated (pub_PartyIDs (reread_pub p)) (pub_Shares (reread_pub p))) /\
    size (pub_Shares (reread_pub p)) = size (pub_Shares p) /\ pub_Equal p (reread_pub p) = Ret true.
  Proof.
    intros W U HK. assert (well_formed (reread_pub p)) as W'.
    { destruct W as [S W]. split; auto. intros j. rewrite W. cbn [reread_pub pub_Shares]. rewrite lookup_fmap. split; intros [P E].
      - rewrite E. cbn. eauto.
      - apply fmap_Some in E as (P0 & E & _). eauto. }
    split; auto. split.
    { intros j P E. cbn [reread_pub pub_Shares] in E. rewrite lookup_fmap in E. apply fmap_Some in E as (P0 & E & _). eauto. }
    split; [|split].
    - cbn [reread_pub pub_GroupKey pub_PartyIDs pub_Shares]. rewrite reread_el_eq, HK. unfold interpolated.
      apply Gsum_map_ext. intros j _. rewrite lookup_fmap. destruct (pub_Shares p !! j) as [P|]; cbn; [now rewrite reread_el_eq|reflexivity].
    - apply map_size_fmap.
    - destruct (C29_Equal p (reread_pub p) W W') as (b & -> & Hb). f_equal. apply Hb. split; [reflexivity|]. split; [reflexivity|].
      split; [symmetry; apply reread_el_eq|]. intros j P P2 E1 E2. cbn [reread_pub pub_Shares] in E2. rewrite lookup_fmap in E2. setoid_rewrite E1 in E2. injection E2 as <-.
      symmetry. apply reread_el_eq.
  Qed.
  (** The text of public data: the shares in the order of the texts of their IDs. *)
  Theorem C46_public_text : forall p, map_u16 (pub_Shares p) -> exists l, pub_MarshalJSON_text p =
      bs "{""t"":" ++ FormatInt (pub_Threshold p) ++ bs ",""groupkey"":""" ++ b64_encode (genc (pub_GroupKey p)) ++ bs """,""shares"":" ++ jprint None (JObj l) ++ bs "}" /\
    StronglySorted (fun x y => bytes_ltb (fst x) (fst y) = true) l /\
    forall k v, In (k, v) l <-> exists i e, pub_Shares p !! i = Some e /\ k = id_MarshalText i /\ v = JStr (b64_encode (genc e)).
  Proof.
    intros p H. unfold pub_MarshalJSON_text, pub_MarshalJSON, enc_public. cbn [js_t js_groupkey js_shares enc_ptr].
    destruct (C46_map_members (enc_ptr enc_el) (Some <$> pub_Shares p)) as (l & -> & HS & HI).
    { intros i x E. rewrite lookup_fmap in E. apply fmap_Some in E as (e & E & _). eapply H; eauto. }
    exists l. split; [|split; [exact HS|]].
    - remember (JObj l) as v eqn:E. clear E. cbn [fst snd jprint map join nl deeper colon app enc_el]. unfold quoted, el_MarshalText.
      repeat (rewrite <- ?app_assoc; cbn [app bs list_byte_of_string]). reflexivity.
    - intros k v. rewrite HI. split.
      + intros (i & x & E & -> & ->). rewrite lookup_fmap in E. apply fmap_Some in E as (e & E & ->). exists i, e. auto.
      + intros (i & e & E & -> & ->). exists i, (Some e). rewrite lookup_fmap. setoid_rewrite E. auto.
  Qed.
  Theorem C46_public_round_trip : forall sched p, well_formed p -> usable (pub_Shares p) ->
    0 <= pub_Threshold p < Z.of_nat (size (pub_Shares p)) -> geq (pub_GroupKey p) (interpolated (pub_PartyIDs p) (pub_Shares p)) ->
    exists p', pub_UnmarshalJSON_text sched (pub_MarshalJSON_text p) = Ret p' /\ pub_Equal p p' = Ret true.
  Proof.
    intros sched p W U Ht HK. destruct (reread_pub_ok p W U HK) as (W' & U' & HK' & Hs & HE).
    pose proof (key_list_size _ _ W) as Hsz. pose proof (valid_len _ (key_list_valid _ _ W U)) as Hn.
    destruct (enc_public_ok p) as (A & B & C); [unfold fits; lia|intros i x E; apply U in E; lia|].
    unfold pub_UnmarshalJSON_text, pub_MarshalJSON_text. rewrite C46_print_parse by (auto; lia). unfold public_of_json. rewrite C. cbn [obind].
    destruct (C29_json_round_trip sched (reread_pub p)) as (p' & E1 & E2); auto; [rewrite Hs; exact Ht|].
    exists p'. split; auto. destruct (C29_json_decode sched (pub_Threshold p) (pub_GroupKey (reread_pub p)) (pub_Shares (reread_pub p)) U') as (H1 & _).
    destruct (H1 p' E1) as (Et & Es & K & Hg & _). assert (well_formed p') as W2 by (red; now rewrite Es).
    destruct (C29_Equal p p' W W2) as (b & -> & Hb). f_equal. apply Hb.
    split; [change (pub_PartyIDs p) with (pub_PartyIDs (reread_pub p)); rewrite <- (key_list_unique _ _ [] W'), <- (key_list_unique _ _ [] K); reflexivity|].
    split; [rewrite Et; symmetry; apply Z.mod_small; lia|]. split; [rewrite Hg; symmetry; apply reread_el_eq|].
    intros j P P2 E3 E4. rewrite Es in E4. cbn [reread_pub pub_Shares] in E4. rewrite lookup_fmap in E4. setoid_rewrite E3 in E4. injection E4 as <-. symmetry. apply reread_el_eq.
  Qed.

  (** * Key files *)
  Lemma d_secret_enc sk : fits (sh_ID sk) -> d_secret (enc_share (share_MarshalJSON sk)) = Ret (Some (reread sk)).
  Proof.
    intros H. destruct (enc_share_ok (share_MarshalJSON sk)) as (_ & _ & C); [exact H|]. unfold d_secret, share_of_json.
    destruct (enc_share (share_MarshalJSON sk)) eqn:E; try discriminate E. rewrite C. cbn [obind]. now rewrite reread_ok.
  Qed.
  (** Reading the text that was written gives what decoding the struct gives ([Cmd.kf_decode]), on read-back elements. *)
  Theorem C46_file : forall sched secrets public, map_u16 secrets -> (forall i sk, secrets !! i = Some sk -> fits (sh_ID sk)) ->
    fits (pub_Threshold public) -> map_u16 (pub_Shares public) ->
    read_file sched (file_text (secrets, public)) = kf_decode sched (kf_encode (secrets, reread_pub public)).
  Proof.
    intros sched secrets public H1 H2 H3 H4. destruct (enc_public_ok public H3 H4) as (A & B & C).
    assert (forall i (x : option (Z * list byte)), ((fun sk => Some (share_MarshalJSON sk)) <$> secrets) !! i = Some x ->
      exists sk, x = Some (share_MarshalJSON sk) /\ 0 <= i < 65536 /\ fits (sh_ID sk)) as K.
    { intros i x E. rewrite lookup_fmap in E. apply fmap_Some in E as (sk & E & ->). exists sk. split; auto. split; [eapply H1; eauto|eapply H2; eauto]. }
    assert (printable (enc_file (kf_encode (secrets, public)))) as P.
    { unfold enc_file, kf_encode. cbn [fst snd kf_Secrets kf_Shares printable fold_right]. split; [apply plain_lit; reflexivity|].
      split; [|split; [apply plain_lit; reflexivity|split; [exact A|exact I]]].
      apply enc_map_printable. intros i x E. destruct (K i x E) as (sk & -> & Hi & Hs). split; auto. now apply enc_share_ok. }
    assert (jdepth (enc_file (kf_encode (secrets, public))) <= 3)%nat as D.
    { unfold enc_file, kf_encode. cbn [fst snd kf_Secrets kf_Shares jdepth map fold_right]. apply le_n_S. repeat apply Nat.max_lub; [|exact B|lia].
      apply enc_map_depth. intros i x E. destruct (K i x E) as (sk & -> & Hi & Hs). cbn [enc_ptr]. now rewrite (proj1 (proj2 (enc_share_ok (share_MarshalJSON sk) Hs))). }
    unfold read_file, file_text. rewrite C46_print_parse by (auto; lia).
    unfold enc_file, kf_encode. cbn [fst snd kf_Secrets kf_Shares enc_ptr file_of_json ofold]. unfold file_fields at 1. cbn [fst snd].
    change (fold_eq (bs "Secrets") (bs "Secrets")) with true. cbv iota.
    pose proof (d_map_enc d_secret (enc_ptr enc_share) (fun x => match x with Some j => match share_UnmarshalJSON j with Ret sk => Some sk | _ => None end | None => None end)
      ((fun sk => Some (share_MarshalJSON sk)) <$> secrets)) as X. destruct (enc_map (enc_ptr enc_share) _) eqn:EM; try discriminate EM. rewrite X; clear X.
    2:{ intros i x E. destruct (K i x E) as (sk & -> & Hi & Hs). split; auto. cbn [enc_ptr]. rewrite d_secret_enc by auto. now rewrite reread_ok. }
    cbn [obind]. unfold file_fields. cbn [fst snd]. change (fold_eq (bs "Secrets") (bs "Shares")) with false. change (fold_eq (bs "Shares") (bs "Shares")) with true. cbv iota.
    unfold public_of_json. remember (enc_public (pub_MarshalJSON public)) as E eqn:EE. destruct E; try discriminate EE. rewrite C. cbn [obind].
    unfold kf_decode. cbn [kf_Secrets kf_Shares]. destruct (decode_secrets_ok secrets) as (m & -> & Hm). cbn [obind].
    destruct (pub_UnmarshalJSON _ _); cbn [obind snd fst]; auto. do 2 f_equal. apply map_eq. intros i. rewrite Hm, !lookup_fmap.
    destruct (secrets !! i) as [sk|] eqn:Es; cbn; [now rewrite reread_ok|reflexivity].
  Qed.
  Lemma dealt_reread n t F secrets public : dealt_keys n t F secrets public -> dealt_keys n t F secrets (reread_pub public).
  Proof.
    intros [K1 K2 K3 K4 K5 K6]. split; auto; cbn [reread_pub pub_Shares pub_GroupKey].
    - intros i Hi. destruct (K2 i Hi) as [A B]. split; auto. rewrite lookup_fmap. setoid_rewrite B. reflexivity.
    - intros i Hi. destruct (K5 i Hi) as (A & E & H). exists (reread_el A). rewrite lookup_fmap. setoid_rewrite E. split; [reflexivity|]. now rewrite reread_el_eq.
    - now rewrite reread_el_eq.
  Qed.
  (** The text written by the keygen command holds the keys. *)
  Theorem C46_key_file : forall sched n t f secrets public, 0 <= t < n -> n < 65536 -> degree_le (Z.to_nat t) f -> dealt_keys n t (spoly f) secrets public ->
    exists secrets' public', read_file sched (file_text (secrets, public)) = Ret (secrets', Some public') /\ key_data n t (spoly f) secrets' public'.
  Proof.
    intros sched n t f secrets public Ht Hn Hd HK. rewrite C46_file.
    - apply (C31_file n t f secrets (reread_pub public)); auto. now apply dealt_reread.
    - intros i sk E. destruct HK as [K1 K2 _ _ _ _]. assert (1 <= i <= n \/ ~ 1 <= i <= n) as [Hr|Hr] by lia; [lia|]. destruct (K2 i Hr) as [X _]. congruence.
    - intros i sk E. destruct HK as [K1 K2 _ _ _ _]. assert (1 <= i <= n) as Hi.
      { assert (1 <= i <= n \/ ~ 1 <= i <= n) as [Hr|Hr] by lia; [lia|]. destruct (K2 i Hr) as [X _]. congruence. }
      destruct (K1 i Hi) as (sk' & E' & E2 & _). assert (sk' = sk) as -> by congruence. rewrite E2. unfold fits. lia.
    - destruct HK as [_ _ _ K4 _ _]. unfold fits. lia.
    - intros i A E. destruct HK as [_ K2 _ _ _ _]. assert (1 <= i <= n \/ ~ 1 <= i <= n) as [Hr|Hr] by lia; [lia|]. destruct (K2 i Hr) as [_ X]. congruence.
  Qed.
End Texts.

(** * Command line arguments *)
(** What strconv.Atoi reads: digits with an optional sign, within int64. *)
Definition int_text (s : list byte) (z : Z) : Prop :=
  exists sign ds, s = sign ++ ds /\ ds <> [] /\ Forall digit ds /\
    ((sign = [] \/ sign = ["+"%byte]) /\ z = dec_value ds \/ sign = ["-"%byte] /\ z = - dec_value ds) /\ - 2 ^ 63 <= z < 2 ^ 63.
Lemma dec_loop_inv ds : forall n m, dec_loop n ds = Some m -> Forall digit ds /\ m = fold_left (fun n c => 10 * n + (b2z c - 48)) ds n.
Proof.
  induction ds as [|c ds IH]; intros n m; cbn [dec_loop fold_left]; [intros [= <-]; auto|]. destruct (isDigit c) eqn:E; [|discriminate]. intros H. apply IH in H as [A ->].
  split; [constructor; auto; now apply isDigit_iff|]. f_equal. lia.
Qed.
Lemma ParseDec_inv ds m : ParseDec ds = Some m -> ds <> [] /\ Forall digit ds /\ m = dec_value ds.
Proof. destruct ds as [|c ds]; [discriminate|]. unfold ParseDec. intros H. split; [discriminate|]. now apply dec_loop_inv. Qed.
Lemma dec_value_nonneg ds : Forall digit ds -> 0 <= dec_value ds.
Proof. intros H. apply (dec_from_ge ds 0); [lia|exact H]. Qed.
Theorem C46_Atoi : forall s z, Atoi s = Some z <-> int_text s z.
Proof.
  intros s z. unfold Atoi, ParseInt64. split.
  - destruct s as [|c s].
    + intros [=].
    + destruct (beq c "-") eqn:E1; [|destruct (beq c "+") eqn:E2].
      * apply beq_true in E1 as ->. destruct (ParseDec s) as [n|] eqn:E; [|discriminate]. apply ParseDec_inv in E as (A & B & ->).
        destruct (Z.leb_spec (dec_value s) (2 ^ 63)); [|discriminate]. intros [= <-]. pose proof (dec_value_nonneg _ B).
        exists ["-"%byte], s. split; [reflexivity|]. split; auto. split; auto. split; [now right|lia].
      * apply beq_true in E2 as ->. destruct (ParseDec s) as [n|] eqn:E; [|discriminate]. apply ParseDec_inv in E as (A & B & ->).
        destruct (Z.ltb_spec (dec_value s) (2 ^ 63)); [|discriminate]. intros [= <-]. pose proof (dec_value_nonneg _ B).
        exists ["+"%byte], s. split; [reflexivity|]. split; auto. split; auto. split; [left; auto|lia].
      * destruct (ParseDec (c :: s)) as [n|] eqn:E; [|discriminate]. apply ParseDec_inv in E as (A & B & ->).
        destruct (Z.ltb_spec (dec_value (c :: s)) (2 ^ 63)); [|discriminate]. intros [= <-]. pose proof (dec_value_nonneg _ B).
        exists [], (c :: s). split; [reflexivity|]. split; auto. split; auto. split; [left; auto|lia].
  - intros (sign & ds & -> & Hne & HD & HV & HR). pose proof (dec_value_nonneg _ HD) as Hp.
    destruct HV as [[[->| ->] ->]|[-> ->]]; cbn [app].
    + destruct ds as [|c ds]; [congruence|]. pose proof (List.Forall_inv HD) as Hc. pose proof (digit_sign c Hc) as Hd. apply orb_false_iff in Hd as [-> ->].
      rewrite ParseDec_ok by auto. now rewrite (proj2 (Z.ltb_lt _ _)) by lia.
    + change (beq "+" "-") with false. change (beq "+" "+") with true. cbv iota. rewrite ParseDec_ok by auto. now rewrite (proj2 (Z.ltb_lt _ _)) by lia.
    + change (beq "-" "-") with true. cbv iota. rewrite ParseDec_ok by auto. now rewrite (proj2 (Z.leb_le _ _)) by lia.
Qed.
Lemma int_text_FormatInt z : - 2 ^ 63 <= z < 2 ^ 63 -> int_text (FormatInt z) z.
Proof. intros H. apply C46_Atoi. now apply ParseInt64_FormatInt. Qed.

(** * Decoding texts that others wrote *)
Section Decode.
  Context `{L : group_laws} `{Hf : hash_fn}.

  (** Only the JSON value counts: white space and escapes do not. *)
  Theorem C46_layout : forall sched t t' v, json_text v t -> json_text v t' -> Z.of_nat (jdepth v) <= 10000 ->
    share_UnmarshalJSON_text t = share_UnmarshalJSON_text t' /\ pub_UnmarshalJSON_text sched t = pub_UnmarshalJSON_text sched t' /\ read_file sched t = read_file sched t'.
  Proof.
    intros sched t t' v H H' D. unfold share_UnmarshalJSON_text, pub_UnmarshalJSON_text, read_file.
    rewrite (proj2 (C46_grammar t v)), (proj2 (C46_grammar t' v)) by auto. auto.
  Qed.
  (** Not JSON: an error. *)
  Theorem C46_rejects : forall sched t, (forall v, ~ json_text v t) -> share_UnmarshalJSON_text t = Fail "json: syntax error" /\
    pub_UnmarshalJSON_text sched t = Fail "json: syntax error" /\ read_file sched t = Fail "json: syntax error".
  Proof.
    intros sched t H. unfold share_UnmarshalJSON_text, pub_UnmarshalJSON_text, read_file. destruct (parse_json t) as [v|] eqn:E; auto.
    apply C46_grammar in E as [E _]. now destruct (H v).
  Qed.

  (** No text makes the decoder of shares panic. *)
  Lemma d_share_total v : (exists x, d_share v = Ret x) \/ (exists e, d_share v = Fail e).
  Proof.
    destruct v as [|b|lit|s|l|l]; cbn [d_share]; eauto. generalize (0, @nil byte). induction l as [|[k v] l IH]; intros [z b]; cbn [ofold fst snd obind]; eauto.
    destruct (fold_eq (bs "id") k).
    { destruct v as [| |lit| | |]; cbn [d_int obind]; eauto. destruct (ParseInt64 lit); cbn [oret_option obind]; eauto. }
    destruct (fold_eq (bs "secret") k); [|cbn [obind]; eauto].
    destruct v as [| | |s|lv|]; cbn [d_bytes obind]; eauto.
    - destruct (b64_decode s); cbn [oret_option obind]; eauto.
    - assert ((exists r, d_byte_elems b lv = Ret r) \/ exists e, d_byte_elems b lv = Fail e) as [[r ->]|[e ->]]; cbn [obind]; eauto.
      clear IH. revert b. induction lv as [|v lv IH]; intros b; cbn [d_byte_elems]; eauto.
      destruct v as [| |lit| | |]; cbn [obind]; eauto.
      + destruct (IH (tl b)) as [[r ->]|[e ->]]; cbn [obind]; eauto.
      + destruct (ParseUint8 lit); cbn [obind]; eauto. destruct (IH (tl b)) as [[r ->]|[e ->]]; cbn [obind]; eauto.
  Qed.
  Theorem C46_share_total : forall t, (exists sk, share_UnmarshalJSON_text t = Ret sk /\ is_u16 (sh_ID sk) /\ sh_Public sk = gbmul (sh_Secret sk)) \/ (exists e, share_UnmarshalJSON_text t = Fail e).
  Proof.
    intros t. unfold share_UnmarshalJSON_text. destruct (parse_json t) as [v|]; eauto. unfold share_of_json.
    destruct (d_share_total v) as [[[z b] ->]|[e ->]]; cbn [obind]; eauto. unfold share_UnmarshalJSON. cbn [fst snd]. destruct (scalar_set_canonical b); eauto.
    left. eexists. split; [reflexivity|]. cbn. split; auto. unfold is_u16, u16. apply Z.mod_pos_bound. lia.
  Qed.

  (** A share is read from any object with one "id" and one "secret" (upper or lower case), in any order, among other members. *)
  Definition unrelated (l : list (list byte * jval)) : Prop := Forall (fun kv => fold_eq (bs "id") (fst kv) = false /\ fold_eq (bs "secret") (fst kv) = false) l.
  Lemma skip_unrelated l r acc : unrelated l ->
    ofold (fun (acc : Z * list byte) kv =>
        if fold_eq (bs "id") (fst kv) then let* z := d_int (fst acc) (snd kv) in Ret (z, snd acc)
        else if fold_eq (bs "secret") (fst kv) then let* b := d_bytes (snd acc) (snd kv) in Ret (fst acc, b)
        else Ret acc) acc (l ++ r) =
    ofold (fun (acc : Z * list byte) kv =>
        if fold_eq (bs "id") (fst kv) then let* z := d_int (fst acc) (snd kv) in Ret (z, snd acc)
        else if fold_eq (bs "secret") (fst kv) then let* b := d_bytes (snd acc) (snd kv) in Ret (fst acc, b)
        else Ret acc) acc r.
  Proof. induction 1 as [|kv l [A B] _ IH]; auto. cbn [app ofold]. rewrite A, B. cbn [obind]. exact IH. Qed.
  Lemma fold_id_secret k : fold_eq (bs "secret") k = true -> fold_eq (bs "id") k = false.
  Proof.
    destruct k as [|c k]; [discriminate|]. change (bs "secret") with ("s"%byte :: bs "ecret"). change (bs "id") with ("i"%byte :: bs "d"). cbn [fold_eq]. destruct (Z.ltb_spec (b2z c) 128).
    - change (lower (b2z "s")) with 115. change (lower (b2z "i")) with 105. destruct (Z.eqb_spec 115 (lower (b2z c))); [|cbn [andb]; discriminate]. intros _. now rewrite (proj2 (Z.eqb_neq 105 _)) by lia.
    - intros _. reflexivity.
  Qed.
  Theorem C46_share_members : forall l1 l2 l3 k1 lit k2 s z b, unrelated l1 -> unrelated l2 -> unrelated l3 ->
    fold_eq (bs "id") k1 = true -> fold_eq (bs "secret") k2 = true -> ParseInt64 lit = Some z -> b64_decode s = Some b ->
    share_of_json (JObj (l1 ++ (k1, JNum lit) :: l2 ++ (k2, JStr s) :: l3)) = share_UnmarshalJSON (z, b) /\
    share_of_json (JObj (l1 ++ (k2, JStr s) :: l2 ++ (k1, JNum lit) :: l3)) = share_UnmarshalJSON (z, b).
  Proof.
    intros l1 l2 l3 k1 lit k2 s z b U1 U2 U3 K1 K2 Hz Hb. pose proof (fold_id_secret k2 K2) as K3. unfold share_of_json, d_share.
    split; (rewrite skip_unrelated by auto; cbn [ofold fst snd]; rewrite ?K1, ?K2, ?K3; cbn [d_int d_bytes]; rewrite ?Hz, ?Hb; cbn [oret_option obind];
      rewrite skip_unrelated by auto; cbn [ofold fst snd]; rewrite ?K1, ?K2, ?K3; cbn [d_int d_bytes]; rewrite ?Hz, ?Hb; cbn [oret_option obind fst snd];
      rewrite <- (app_nil_r l3); rewrite skip_unrelated by auto; reflexivity).
  Qed.
  (** The secret may also be an array of numbers: exactly those are taken that are written in decimal and fit in a byte. *)
  Theorem C46_byte_array : forall cur lits b, d_bytes cur (JArr (map JNum lits)) = Ret b <->
    Forall2 (fun lit x => lit <> [] /\ Forall digit lit /\ dec_value lit = b2z x) lits b.
  Proof.
    intros cur lits. cbn [d_bytes]. revert cur. induction lits as [|lit lits IH]; intros cur b; cbn [map d_byte_elems].
    - split; [intros E; apply Ret_inj in E; subst; constructor|]. intros H. now inversion H.
    - unfold ParseUint8. split.
      + intros E. destruct (ParseDec lit) as [n|] eqn:EP; [|discriminate]. apply ParseDec_inv in EP as (A & B & ->). pose proof (dec_value_nonneg _ B) as Hn.
        destruct (Z.ltb_spec (dec_value lit) 256); [|discriminate]. cbn [obind] in E. apply obind_ret in E as (r & Er & E). apply Ret_inj in E. subst b. constructor.
        * split; [exact A|]. split; [exact B|]. rewrite b2z_z2b, Z.mod_small by lia. reflexivity.
        * now apply (IH (tl cur)).
      + intros H. inversion H as [|? x ? bt (A & B & E) HT]; subst. rewrite (ParseDec_ok lit A B), E. pose proof (b2z_range x) as Hx.
        rewrite (proj2 (Z.ltb_lt _ _)) by lia. cbn [obind]. rewrite (proj2 (IH (tl cur) bt) HT). cbn [obind]. now rewrite z2b_b2z.
  Qed.
  (** A key names a field exactly if it spells the name up to folding, character by character. *)
  Theorem C46_field_names : forall name, Forall (fun a => b2z a < 128) name -> forall key,
    fold_eq name key = true <-> exists us, key = List.concat us /\ Forall2 folds_to name us.
  Proof.
    assert (utf8 0x17F = [xc5; xbf]) as U1 by reflexivity. assert (utf8 0x212A = [xe2; x84; xaa]) as U2 by reflexivity.
    assert (forall a, lower (b2z a) = 115 <-> In a [x53; x73]) as L1 by (intros a; destruct a; vm_compute; intuition discriminate).
    assert (forall a, lower (b2z a) = 107 <-> In a [x4b; x6b]) as L2 by (intros a; destruct a; vm_compute; intuition discriminate).
    induction name as [|a name IH]; intros HA key.
    - destruct key; cbn [fold_eq].
      + split; auto. intros _. exists []. auto.
      + split; [discriminate|]. intros (us & E & H). inversion H; subst. discriminate E.
    - pose proof (Forall_inv HA) as Ha. specialize (IH (Forall_inv_tail HA)). split.
      + destruct key as [|b key]; cbn [fold_eq]; [discriminate|].
        assert (forall u k, fold_eq name k = true -> folds_to a u -> exists us, u ++ k = List.concat us /\ Forall2 folds_to (a :: name) us) as Step.
        { intros u k Ek Hu. destruct (proj1 (IH k) Ek) as (us & -> & H). exists (u :: us). split; auto. }
        destruct (Z.ltb_spec (b2z b) 128) as [Hb|Hb].
        * intros E. apply andb_true_iff in E as [E1 E2]. apply Z.eqb_eq in E1. apply (Step [b] key E2). unfold folds_to.
          unfold lower in E1. pose proof (b2z_range a). pose proof (b2z_range b).
          destruct (Z.leb_spec 65 (b2z a)), (Z.leb_spec (b2z a) 90), (Z.leb_spec 65 (b2z b)), (Z.leb_spec (b2z b) 90); cbn [andb] in E1;
            first [lia|left; f_equal; apply b2z_inj; lia|right; left; exists b; split; [reflexivity|lia] ].
        * destruct (Z.eqb_spec (lower (b2z a)) 115) as [Ea|_].
          -- destruct key as [|b2 key]; [discriminate|]. intros E. apply andb_true_iff in E as [E E2]. apply andb_true_iff in E as [E1 E3]. apply beq_true in E1, E3. subst.
             apply (Step [xc5; xbf] key E2). right. right. left. split; [now apply L1|auto].
          -- destruct (Z.eqb_spec (lower (b2z a)) 107) as [Ea|_]; [|discriminate]. destruct key as [|b2 [|b3 key] ]; try discriminate.
             intros E. apply andb_true_iff in E as [E E2]. apply andb_true_iff in E as [E E4]. apply andb_true_iff in E as [E1 E3]. apply beq_true in E1, E3, E4. subst.
             apply (Step [xe2; x84; xaa] key E2). right. right. right. split; [now apply L2|auto].
      + intros (us & -> & H). inversion H as [|? u ? us' Hu HT]; subst. cbn [List.concat]. assert (fold_eq name (List.concat us') = true) as E by (apply IH; eauto).
        destruct Hu as [->|[(b & -> & Hb)|[ [Hin ->]|[Hin ->] ] ] ].
        * cbn [app fold_eq]. rewrite (proj2 (Z.ltb_lt _ _) Ha), Z.eqb_refl. exact E.
        * cbn [app fold_eq]. rewrite (proj2 (Z.ltb_lt (b2z b) 128)) by lia. rewrite (proj2 (Z.eqb_eq (lower (b2z a)) (lower (b2z b)))); [exact E|].
          unfold lower. destruct (Z.leb_spec 65 (b2z a)), (Z.leb_spec (b2z a) 90), (Z.leb_spec 65 (b2z b)), (Z.leb_spec (b2z b) 90); cbn [andb]; lia.
        * rewrite U1. cbn [app fold_eq]. change (b2z xc5 <? 128) with false. cbv iota. rewrite (proj2 (L1 a) Hin). exact E.
        * rewrite U2. cbn [app fold_eq]. change (b2z xe2 <? 128) with false. cbv iota. rewrite (proj2 (L2 a) Hin). exact E.
  Qed.
  (** A null leaves a number that was read before as it is. *)
  Theorem C46_null_number : forall sched l k, (fold_eq (bs "id") k = true -> share_of_json (JObj (l ++ [(k, JNull)])) = share_of_json (JObj l)) /\
    (fold_eq (bs "t") k = true -> public_of_json sched (JObj (l ++ [(k, JNull)])) = public_of_json sched (JObj l)).
  Proof.
    intros sched l k. split; intros K.
    - unfold share_of_json. f_equal. cbn [d_share]. rewrite ofold_app. destruct (ofold _ _ l) as [[z b]|e|e]; cbn [obind]; auto. cbn [ofold fst snd]. rewrite K. reflexivity.
    - unfold public_of_json. f_equal. cbn [d_public]. rewrite ofold_app. destruct (ofold _ _ l) as [[z g m]|e|e]; cbn [obind]; auto. cbn [ofold fst snd]. rewrite K. reflexivity.
  Qed.
  (** A null in such an array keeps the byte that is already there (0 if there is none). *)
  Theorem C46_null_element : forall cur l1 l2 b1 b2, d_bytes cur (JArr l1) = Ret b1 -> d_bytes (skipn (S (length l1)) cur) (JArr l2) = Ret b2 ->
    d_bytes cur (JArr (l1 ++ JNull :: l2)) = Ret (b1 ++ nth (length l1) cur x00 :: b2).
  Proof.
    cbn [d_bytes]. intros cur l1. revert cur. induction l1 as [|v l1 IH]; intros cur l2 b1 b2 E1 E2.
    - cbn [d_byte_elems] in E1. apply Ret_inj in E1. subst b1. cbn [app d_byte_elems obind length nth]. destruct cur as [|x cur]; cbn [tl hd skipn length] in *; [|rewrite drop_0 in E2]; now rewrite E2.
    - cbn [app d_byte_elems] in *. apply obind_ret in E1 as (b & Eb & E1). apply obind_ret in E1 as (r & Er & E1). apply Ret_inj in E1. subst b1. rewrite Eb. cbn [obind].
      rewrite (IH (tl cur) l2 r b2 Er); [|destruct cur; [rewrite skipn_nil in *|]; exact E2]. cbn [obind app length]. do 2 f_equal. destruct cur; [|reflexivity]. cbn [tl]. now destruct (length l1).
  Qed.
  (** A null share in the file: the pointer is nil. *)
  Theorem C46_null_secret : forall sched l key k id secrets public, fold_eq (bs "Secrets") key = true -> id_UnmarshalText k = Ret id ->
    file_of_json sched (JObj l) = Ret (secrets, public) -> file_of_json sched (JObj (l ++ [(key, JObj [(k, JNull)])])) = Ret (<[id := None]> secrets, public).
  Proof.
    intros sched l key k id secrets public K Hk. cbn [file_of_json]. rewrite ofold_app. destruct (ofold _ _ l) as [[[m p] bad]|e|e]; cbn [obind]; try discriminate.
    cbn [ofold file_fields fst snd]. rewrite K. cbn [d_map ofold fst snd]. rewrite Hk. cbn [obind d_secret fst snd]. destruct bad; [discriminate|]. intros E. apply Ret_inj in E. now injection E as -> ->.
  Qed.
  (** The signer command crashes when party 1 has no share, or null. *)
  Theorem C46_no_secret_refuted : forall edv fuel sched rg now v fs prog name message data secrets public, fs name = Some data ->
    read_file sched data = Ret (secrets, Some public) -> 1 <= N_ids (pub_PartyIDs public) < 65535 -> (Z.to_nat (N_ids (pub_PartyIDs public)) < fuel)%nat ->
    (secrets !! 1 = None \/ secrets !! 1 = Some None) ->
    signer_main edv fuel sched rg now v fs [prog; name; message] = Some (Panics "nil SecretShare").
  Proof.
    intros edv fuel sched rg now v fs prog name message data secrets public Hfs Hr HN HF HS. unfold signer_main. rewrite Hfs, Hr. unfold signer_run. rewrite C30_set by (auto; lia).
    assert (exists k, Z.to_nat (N_ids (pub_PartyIDs public)) = S k) as (k & Ek) by (exists (Z.to_nat (N_ids (pub_PartyIDs public) - 1)); lia). unfold upto. rewrite Ek. cbn [seq map ofold].
    change (Z.of_nat 1) with 1.
    destruct HS as [-> | ->]; reflexivity.
  Qed.
  (** No "id" is needed: the ID is then 0, which no party can have. *)
  Theorem C46_missing_id_refuted : forall s sc, share_UnmarshalJSON_text (jprint None (JObj [(bs "secret", JStr (b64_encode s))])) = Ret sc -> sh_ID sc = 0.
  Proof.
    intros s sc. unfold share_UnmarshalJSON_text. rewrite C46_print_parse.
    - unfold share_of_json, d_share. cbn [ofold fst snd]. change (fold_eq (bs "id") (bs "secret")) with false. change (fold_eq (bs "secret") (bs "secret")) with true. cbv iota.
      cbn [d_bytes]. rewrite (proj2 (C40_base64 s)) || rewrite b64_back. cbn [oret_option obind fst snd]. unfold share_UnmarshalJSON. cbn [fst snd].
      destruct (scalar_set_canonical s); [|discriminate]. intros H. apply Ret_inj in H as <-. reflexivity.
    - cbn [printable fold_right fst snd]. split; [apply plain_lit; reflexivity|]. split; [apply b64_plain|exact I].
    - cbn. lia.
  Qed.
  (** The signer command crashes on every JSON object without "Shares". *)
  Theorem C46_missing_public_refuted : forall edv fuel sched rg now v fs prog name message l t, fs name = Some t -> json_text (JObj l) t -> Z.of_nat (jdepth (JObj l)) <= 10000 ->
    Forall (fun kv => fold_eq (bs "Secrets") (fst kv) = false /\ fold_eq (bs "Shares") (fst kv) = false) l ->
    signer_main edv fuel sched rg now v fs [prog; name; message] = Some (Panics "nil Public").
  Proof.
    intros edv fuel sched rg now v fs prog name message l t Hfs Ht HD HU. unfold signer_main. rewrite Hfs. unfold read_file. rewrite (proj2 (C46_grammar t (JObj l))) by auto.
    cbn [file_of_json]. assert (ofold (file_fields sched) (∅, None, false) l = Ret (∅, None, false)) as ->.
    { clear -HU. induction HU as [|kv l [A B] _ IH]; auto. cbn [ofold]. unfold file_fields at 1. rewrite A, B. cbn [obind]. exact IH. }
    reflexivity.
  Qed.

  (** A file that is read is an object (or null) and its members of the two names are objects (or null). *)
  Definition obj_or_null (v : jval) : Prop := v = JNull \/ exists l, v = JObj l.
  Theorem C46_file_kinds : forall sched data r, read_file sched data = Ret r -> exists v, parse_json data = Some v /\
    (v = JNull /\ r = (∅, None) \/ exists l, v = JObj l /\
      Forall (fun kv => fold_eq (bs "Secrets") (fst kv) = true \/ fold_eq (bs "Shares") (fst kv) = true -> obj_or_null (snd kv)) l).
  Proof.
    intros sched data r. unfold read_file. destruct (parse_json data) as [v|]; [|discriminate]. intros E. exists v. split; [reflexivity|].
    destruct v as [| | | | |l]; try discriminate; [left; split; [reflexivity|now apply Ret_inj in E]|]. right. exists l. split; [reflexivity|].
    cbn [file_of_json] in E. apply obind_ret in E as (x & E1 & E2).
    assert (forall a x, ofold (file_fields sched) a l = Ret x -> snd x = false -> snd a = false /\ Forall (fun kv => fold_eq (bs "Secrets") (fst kv) = true \/ fold_eq (bs "Shares") (fst kv) = true -> obj_or_null (snd kv)) l) as X.
    { clear. induction l as [|kv l IH]; intros a x E Hx; cbn [ofold] in E; [apply Ret_inj in E; subst; auto|]. apply obind_ret in E as (a1 & E1 & E2). destruct (IH a1 x E2 Hx) as [H1 H2].
      unfold file_fields in E1. destruct a as [[secrets public] bad]. destruct (fold_eq (bs "Secrets") (fst kv)) eqn:F1.
      - destruct (snd kv) as [| | | | |l'] eqn:Ek; try (apply Ret_inj in E1; subst a1; discriminate H1).
        + apply obind_ret in E1 as (m & _ & E1). apply Ret_inj in E1. subst a1. split; [exact H1|]. constructor; auto. intros _. now left.
        + apply obind_ret in E1 as (m & _ & E1). apply Ret_inj in E1. subst a1. split; [exact H1|]. constructor; auto. intros _. right. rewrite Ek. eauto.
      - destruct (fold_eq (bs "Shares") (fst kv)) eqn:F2.
        + destruct (snd kv) as [| | | | |l'] eqn:Ek; try discriminate.
          * apply Ret_inj in E1. subst a1. split; [exact H1|]. constructor; auto. intros _. now left.
          * apply obind_ret in E1 as (m & _ & E1). apply Ret_inj in E1. subst a1. split; [exact H1|]. constructor; auto. intros _. right. rewrite Ek. eauto.
        + apply Ret_inj in E1. subst a1. split; [exact H1|]. constructor; auto. intros [H|H]; rewrite H in *; discriminate. }
    destruct (snd x) eqn:Ex; [discriminate|]. apply (X _ _ E1 Ex).
  Qed.

  (** A printed signature is one that both verifications accepted, whatever is in the file. *)
  Theorem C31_printed : forall edv fuel sched rg now v fs args sig, signer_main edv fuel sched rg now v fs args = Some (Ret sig) ->
    exists prog name message data secrets public, args = [prog; name; message] /\ fs name = Some data /\ read_file sched data = Ret (secrets, Some public) /\
      Verify (pub_GroupKey public) message sig = true /\ edv (pk_ToEd25519 (pub_GroupKey public)) message (sig_ToEd25519 sig) = true.
  Proof.
    intros edv fuel sched rg now v fs args sig. unfold signer_main. destruct args as [|prog [|name [|message [|]]]]; try discriminate.
    destruct (fs name) as [data|] eqn:Efs; [|discriminate]. unfold signer_run. destruct (read_file sched data) as [[secrets [public|]]|e|w] eqn:Er; try discriminate.
    destruct (GenerateSet _ _) as [ids|]; [|discriminate]. intros [= H]. exists prog, name, message, data, secrets, public. repeat (split; [auto; fail|]).
    destruct (ofold _ ∅ ids) as [sts|e|w]; try discriminate. cbn [obind] in H. destruct (drive3 _ _ _) as [sts'|e|w]; try discriminate. cbn [obind] in H.
    destruct ids as [|id0 ids]; [discriminate|]. destruct (sts' !! id0) as [[s|]|]; try discriminate. destruct (sg_output s) as [sg|]; [|discriminate].
    destruct (edv _ _ _) eqn:E1; [|discriminate]. cbn [negb] in H. destruct (Verify _ _ _) eqn:E2; [|discriminate]. cbn [negb] in H. apply Ret_inj in H as ->. auto.
  Qed.
  (** Wrong arguments: the usage or an error, no file. *)
  Theorem C31_keygen_usage : forall fuel rg now v args, ~ (exists prog a1 a2 t n, args = [prog; a1; a2] /\ int_text a1 t /\ int_text a2 n) ->
    exists e, keygen_main fuel rg now v args = Some (Fail e).
  Proof.
    intros fuel rg now v args H. unfold keygen_main. destruct args as [|prog [|a1 [|a2 [|]]]]; eauto.
    destruct (Atoi a1) as [t|] eqn:E1; eauto. destruct (Atoi a2) as [n|] eqn:E2; eauto. destruct H. exists prog, a1, a2, t, n. rewrite <- !C46_Atoi. auto.
  Qed.
End Decode.

(** * The two commands, from the arguments to the signature, through the text of the file *)
Section Main.
  Context `{L : group_laws} `{Hf : hash_fn} (HH : hash_ok Hf).
  (** Partial as C31_flow_partial: crypto/ed25519.Verify is a parameter, and the nonces are assumed not to be 0. *)
  Theorem C31_main_partial : forall edv fuel rg now v prog a1 a2 t n fuel' sched rg' now' v' prog' name message, int_text a1 t -> int_text a2 n ->
    0 < t < n -> n <= 100 -> (Z.to_nat n < fuel)%nat -> (Z.to_nat n < fuel')%nat ->
    (forall i, 1 <= i <= n -> SetScalarRandom (rg' i) 0 <> f0 /\ SetScalarRandom (rg' i) 1 <> f0) ->
    (forall Y sig, Verify Y message sig = true -> edv (pk_ToEd25519 Y) message (sig_ToEd25519 sig) = true) ->
    exists text public sig, keygen_main fuel rg now v [prog; a1; a2] = Some (Ret text) /\
      (exists secrets, keygen_cmd fuel rg now v t n = Some (Ret (secrets, public)) /\ text = file_text (secrets, public)) /\
      (forall fs, fs name = Some text -> signer_main edv fuel' sched rg' now' v' fs [prog'; name; message] = Some (Ret sig)) /\
      Verify (pub_GroupKey public) message sig = true.
  Proof.
    intros edv fuel rg now v prog a1 a2 t n fuel' sched rg' now' v' prog' name message A1 A2 Ht Hn F1 F2 NZ ED.
    apply C46_Atoi in A1, A2. unfold keygen_main. rewrite A1, A2.
    destruct (C31_keygen fuel rg now v t n Ht Hn F1) as (secrets & public & E & K). rewrite E.
    destruct (C04_degree (upto n) t rg) as (g & G1 & G2).
    assert (dealt_keys n t (spoly g) secrets public) as K'.
    { destruct K as [K1 K2 K3 K4 K5 K6]. split; auto.
      - intros i Hi. destruct (K1 i Hi) as (sk & B1 & B2 & B3 & B4). exists sk. rewrite <- G2. auto.
      - intros i Hi. rewrite <- G2. auto.
      - now rewrite <- G2. }
    destruct (C46_key_file sched n t g secrets public ltac:(lia) ltac:(lia) G1 K') as (secrets' & public' & ER & KD).
    destruct (signer_run_ok HH edv fuel' rg' now' v' n t g secrets' public' message ltac:(lia) ltac:(lia) F2 G1 KD NZ ED) as (sig & B1 & B2 & _).
    exists (file_text (secrets, public)), public, sig. split; [reflexivity|]. split; [eauto|]. split.
    - intros fs Hfs. unfold signer_main. rewrite Hfs, ER. exact B1.
    - apply Verify_iff; auto. apply Verify_iff in B2; auto. eapply schnorr_valid_proper; [|reflexivity|exact B2]. destruct K' as [_ _ _ _ _ K6]. exact K6.
  Qed.
End Main.

(** ** With the ristretto group and crypto/ed25519.Verify as modelled in Ed25519.v *)
Section MainConcrete.
  Local Existing Instance ristretto_group.
  Local Existing Instance ristretto_laws.
  Context `{Hf : hash_fn} (HH : hash_ok Hf).
  Theorem C31_main : forall fuel rg now v prog a1 a2 t n fuel' sched rg' now' v' prog' name message, int_text a1 t -> int_text a2 n ->
    0 < t < n -> n <= 100 -> (Z.to_nat n < fuel)%nat -> (Z.to_nat n < fuel')%nat ->
    (forall i, 1 <= i <= n -> SetScalarRandom (rg' i) 0 <> f0 /\ SetScalarRandom (rg' i) 1 <> f0) ->
    exists text public sig, keygen_main fuel rg now v [prog; a1; a2] = Some (Ret text) /\
      (exists secrets, keygen_cmd fuel rg now v t n = Some (Ret (secrets, public)) /\ text = file_text (secrets, public)) /\
      (forall fs, fs name = Some text -> signer_main go_edv fuel' sched rg' now' v' fs [prog'; name; message] = Some (Ret sig)) /\
      rfc_verify (pk_ToEd25519 (pub_GroupKey public)) message (sig_ToEd25519 sig).
  Proof.
    intros fuel rg now v prog a1 a2 t n fuel' sched rg' now' v' prog' name message A1 A2 Ht Hn F1 F2 NZ.
    assert (ED : forall Y sig, Verify Y message sig = true -> go_edv (pk_ToEd25519 Y) message (sig_ToEd25519 sig) = true).
    { intros Y sig E. rewrite (go_edv_ok HH). exact E. }
    destruct (C31_main_partial HH go_edv fuel rg now v prog a1 a2 t n fuel' sched rg' now' v' prog' name message A1 A2 Ht Hn F1 F2 NZ ED) as (text & public & sig & B1 & B2 & B3 & B4).
    exists text, public, sig. refine (conj B1 (conj B2 (conj B3 _))). apply (C03_rfc HH); assumption.
  Qed.
  (** Whatever the file contains: what is printed is an Ed25519 signature under the group key of the file. *)
  Theorem C31_printed_rfc : forall fuel sched rg now v fs args sig, signer_main go_edv fuel sched rg now v fs args = Some (Ret sig) ->
    exists prog name message data secrets public, args = [prog; name; message] /\ fs name = Some data /\ read_file sched data = Ret (secrets, Some public) /\
      rfc_verify (pk_ToEd25519 (pub_GroupKey public)) message (sig_ToEd25519 sig).
  Proof.
    intros fuel sched rg now v fs args sig H. destruct (C31_printed _ _ _ _ _ _ _ _ _ H) as (prog & name & message & data & secrets & public & A & B & C & D & _).
    exists prog, name, message, data, secrets, public. refine (conj A (conj B (conj C _))). apply (C03_rfc HH); assumption.
  Qed.
End MainConcrete.

(** * Cases meeting the hypotheses *)
Example C46_grammar_example : parse_json (bs " { ""a\u0041"" : [ 1 , -2.5e3, true ,null], ""b"":""x\n"" } ") =
  Some (JObj [(bs "aA", JArr [JNum (bs "1"); JNum (bs "-2.5e3"); JBool true; JNull]); (bs "b", JStr (bs "x" ++ ["010"%byte]))]).
Proof. vm_compute. reflexivity. Qed.
Example C46_grammar_rejects_example : map parse_json (map bs ["01"; "[1,]"; "{""a"" 1}"; "nul"; "1 2"; "{a:1}"; "'x'"; "+1"; ".5"; "[1"]%string) = repeat None 10.
Proof. vm_compute. reflexivity. Qed.
Example C46_print_example : jprint (Some 0%nat) (JObj [(bs "a", JArr [JNum (bs "1"); JNum (bs "2")]); (bs "b", JObj [])]) =
  bs "{" ++ ["010"%byte] ++ bs " ""a"": [" ++ ["010"%byte] ++ bs "  1," ++ ["010"%byte] ++ bs "  2" ++ ["010"%byte] ++ bs " ]," ++ ["010"%byte] ++ bs " ""b"": {}" ++ ["010"%byte] ++ bs "}".
Proof. vm_compute. reflexivity. Qed.
Example C46_map_example : enc_map (fun z : Z => JNum (FormatInt z)) (<[10 := 1]> (<[9 := 2]> (<[100 := 3]> (∅ : gmap Z Z)))) =
  JObj [(bs "10", JNum (bs "1")); (bs "100", JNum (bs "3")); (bs "9", JNum (bs "2"))].
Proof. vm_compute. reflexivity. Qed.
Example C46_Atoi_example : map (fun s => Atoi (bs s)) ["12"; "+7"; "-5"; "007"; "9223372036854775807"; "9223372036854775808"; "-9223372036854775808"; ""; "-"; "1_0"; " 1"]%string =
  [Some 12; Some 7; Some (-5); Some 7; Some (2 ^ 63 - 1); None; Some (- 2 ^ 63); None; None; None; None].
Proof. vm_compute. reflexivity. Qed.
Section ToyTexts.
  Local Existing Instance toy_group.
  Example C46_share_example : share_MarshalJSON_text (NewSecretShare 3 (qof 5)) = bs "{""id"":3,""secret"":""BQAAAAAAAAAAAAAAAAAAAAAAAAAAAAAAAAAAAAAAAAA=""}".
  Proof. vm_compute. reflexivity. Qed.
  (** Another order, another case, other white space, an escape, an unknown member. *)
  Example C46_share_members_example : match share_UnmarshalJSON_text (bs " {""SECRET"" : ""BQAAAAAAAAAAAAAAAAAAAAAAAAAAAAAAAAAAAAAAAAA="", ""x"":[{}],""Id"":3 } ") with Ret sk => (sh_ID sk =? 3) && feqb (sh_Secret sk) (qof 5) | _ => false end = true.
  Proof. vm_compute. reflexivity. Qed.
  Example C46_missing_id_example : match share_UnmarshalJSON_text (bs "{""secret"":""BQAAAAAAAAAAAAAAAAAAAAAAAAAAAAAAAAAAAAAAAAA=""}") with Ret sk => (sh_ID sk =? 0) && feqb (sh_Secret sk) (qof 5) | _ => false end = true.
  Proof. vm_compute. reflexivity. Qed.
  (** A null share crashes the decoder of public data. *)
  Theorem C46_null_share_refuted : exists t w, pub_UnmarshalJSON_text [] t = Panics w.
  Proof.
    exists (bs "{""t"":0,""shares"":{""1"":null}}"), "nil element"%string. unfold pub_UnmarshalJSON_text, public_of_json.
    assert (parse_json (bs "{""t"":0,""shares"":{""1"":null}}") = Some (JObj [(bs "t", JNum (bs "0")); (bs "shares", JObj [(bs "1", JNull)])])) as -> by (vm_compute; reflexivity).
    assert (d_public (JObj [(bs "t", JNum (bs "0")); (bs "shares", JObj [(bs "1", JNull)])]) = Ret (mkSharesJSON 0 None {[1 := None]})) as -> by reflexivity.
    cbn [obind]. unfold pub_UnmarshalJSON. cbn [js_shares]. rewrite bool_decide_eq_false_2; [reflexivity|]. intros H. apply map_Forall_singleton in H. congruence.
  Qed.
End ToyTexts.
Example C46_missing_public_example : json_text (JObj []) (bs "{}") /\ Forall (fun kv : list byte * jval => fold_eq (bs "Secrets") (fst kv) = false /\ fold_eq (bs "Shares") (fst kv) = false) [].
Proof. split; [apply (C46_printed None (JObj [])); exact I|constructor]. Qed.
Example C46_byte_array_example : d_bytes [] (JArr (map JNum [bs "255"; bs "0"; bs "7"])) = Ret [xff; x00; x07] /\ exists e, d_bytes [] (JArr (map JNum [bs "256"])) = Fail e.
Proof. split; [vm_compute; reflexivity|]. eexists. vm_compute. reflexivity. Qed.
(** Arguments and randomness as in C31_concrete_example. *)
Example C31_main_example : int_text (bs "1") 1 /\ int_text (bs "3") 3.
Proof. split; apply C46_Atoi; vm_compute; reflexivity. Qed.

(** "ſecret" and "SECRET" name the field secret, a key ending in half a character does not. *)
Example C46_field_names_example : Forall (fun a => b2z a < 128) (bs "secret") /\ fold_eq (bs "secret") ([xc5; xbf] ++ bs "ecret") = true /\
  fold_eq (bs "secret") (bs "SECRET") = true /\ fold_eq (bs "shares") (bs "share" ++ [xc5]) = false.
Proof. repeat split; repeat constructor. Qed.
Print Assumptions C46_grammar.
Print Assumptions C46_file.
Print Assumptions C31_main.
