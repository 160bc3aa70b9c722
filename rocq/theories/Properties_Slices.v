(** C61: slices. *)
From Coq Require Import ZArith Lia List Bool String.
From Coq.Strings Require Import Byte.
From stdpp Require Import base gmap list.
From Verif Require Import ZField Primes Bytes Scalar Go Group Party Poly Zk Eddsa Messages State Keygen Sign Slices CodecFacts Properties_Codec ToyGroup.
Import ListNotations.
Local Open Scope nat_scope.

Section Mem.
  Context {A : Type} (zero : A).
  Notation arrs := (arrays A).

  Lemma put_length (l : list A) i xs : i + List.length xs <= List.length l -> List.length (put l i xs) = List.length l.
  Proof. intros H. unfold put. rewrite !app_length, firstn_length, skipn_length. lia. Qed.
  Lemma put_nth (l : list A) i xs k d : i + List.length xs <= List.length l ->
    nth k (put l i xs) d = if Nat.ltb k i then nth k l d else if Nat.ltb k (i + List.length xs) then nth (k - i) xs d else nth k l d.
  Proof.
    intros H. unfold put. destruct (Nat.ltb_spec k i).
    - rewrite app_nth1 by (rewrite firstn_length; lia). rewrite <- (firstn_skipn i l) at 2. rewrite app_nth1; [reflexivity|rewrite firstn_length; lia].
    - rewrite app_nth2 by (rewrite firstn_length; lia). rewrite firstn_length, Nat.min_l by lia. destruct (Nat.ltb_spec k (i + List.length xs)).
      + rewrite app_nth1 by lia. reflexivity.
      + rewrite app_nth2 by lia. rewrite <- (firstn_skipn (i + List.length xs) l) at 2. rewrite app_nth2 by (rewrite firstn_length; lia).
        rewrite firstn_length, Nat.min_l by lia. f_equal. lia.
  Qed.
  Lemma set_array_length (h : arrs) a l : List.length (set_array h a l) = List.length h.
  Proof. revert a. induction h as [|x h IH]; intros [|a]; cbn; auto. Qed.
  Lemma set_array_same (h : arrs) a l : a < List.length h -> array (set_array h a l) a = l.
  Proof. unfold array. revert a. induction h as [|x h IH]; intros [|a] H; cbn in *; try lia; auto. apply IH. lia. Qed.
  Lemma set_array_other (h : arrs) a b l : a <> b -> array (set_array h a l) b = array h b.
  Proof. unfold array. revert a b. induction h as [|x h IH]; intros [|a] [|b] H; cbn in *; try congruence; auto. Qed.
  Lemma array_old (h : arrs) ls a : a < List.length h -> array (h ++ ls) a = array h a.
  Proof. intros H. unfold array. now rewrite app_nth1. Qed.
  Lemma array_new (h : arrs) l : array (h ++ [l]) (List.length h) = l.
  Proof. unfold array. rewrite app_nth2 by lia. now rewrite Nat.sub_diag. Qed.
  Lemma array_none (h : arrs) a : List.length h <= a -> array h a = [].
  Proof. intros H. unfold array. now apply nth_overflow. Qed.

  (** What is visible of an array depends on the window only. *)
  Lemma list_ext (l m : list A) : List.length l = List.length m -> (forall k d, k < List.length l -> nth k l d = nth k m d) -> l = m.
  Proof. intros H1 H2. destruct l as [|x l]; [destruct m; [reflexivity|discriminate]|]. apply (nth_ext _ _ x x); auto. Qed.
  Lemma nth_window (l : list A) o n k d : k < n -> nth k (firstn n (skipn o l)) d = nth (o + k) l d.
  Proof.
    intros H. assert (nth k (firstn n (skipn o l)) d = nth k (skipn o l) d) as ->.
    { revert n k H. induction (skipn o l) as [|x r IH]; intros [|n] [|k] H; cbn; auto; try lia. apply IH. lia. }
    revert l. induction o as [|o IH]; intros l; [reflexivity|]. destruct l as [|x l]; cbn; [now destruct k|]. apply IH.
  Qed.
  Lemma window_length (l : list A) o n : o + n <= List.length l -> List.length (firstn n (skipn o l)) = n.
  Proof. intros H. rewrite firstn_length, skipn_length. lia. Qed.

  Lemma contents_length (h : arrs) s : slice_ok h s -> List.length (contents h s) = sl_len s.
  Proof. intros [H1 H2]. apply window_length. lia. Qed.
  Lemma contents_empty (h : arrs) s : sl_len s = 0 -> contents h s = [].
  Proof. intros H. unfold contents. now rewrite H. Qed.
  Lemma ok_bound (h : arrs) s : slice_ok h s -> sl_cap s <> 0 -> sl_arr s < List.length h.
  Proof. intros [H1 H2] H. destruct (Nat.lt_ge_cases (sl_arr s) (List.length h)); auto. rewrite array_none in H2 by auto. cbn in H2. lia. Qed.

  (** [t] shows nothing of the [n] places behind [s] (as far as the capacity goes). *)
  Definition clear_of (s : slice) (n : nat) (t : slice) : Prop :=
    sl_arr t <> sl_arr s \/ sl_off t + sl_len t <= sl_off s + sl_len s \/ sl_off s + Nat.min (sl_cap s) (sl_len s + n) <= sl_off t.
  (** The result of appending [xs] to [s]: the contents; nothing else that could be seen has changed; no allocation if it fits. *)
  Record appended (h : arrs) (s : slice) (xs : list A) (r : arrs * slice) : Prop := {
    ap_contents : contents (fst r) (snd r) = contents h s ++ xs;
    ap_ok : slice_ok (fst r) (snd r);
    ap_len : sl_len (snd r) = sl_len s + List.length xs;
    ap_others : forall t, slice_ok h t -> clear_of s (List.length xs) t -> contents (fst r) t = contents h t;
    ap_fits : sl_len s + List.length xs <= sl_cap s ->
      List.length (fst r) = List.length h /\ snd r = mkSlice (sl_arr s) (sl_off s) (sl_len s + List.length xs) (sl_cap s);
    ap_more : List.length h <= List.length (fst r);
    ap_sizes : forall a, a < List.length h -> List.length (array (fst r) a) = List.length (array h a);
    ap_where : snd r = mkSlice (sl_arr s) (sl_off s) (sl_len s + List.length xs) (sl_cap s) \/ (sl_cap s < sl_len (snd r) /\ List.length h <= sl_arr (snd r) /\ sl_off (snd r) = 0)
  }.

  Lemma appended_nil h s : slice_ok h s -> appended h s [] (h, s).
  Proof.
    intros H. split; cbn [fst snd List.length]; rewrite ?app_nil_r, ?Nat.add_0_r; auto. destruct s; auto. left. now destruct s.
  Qed.

  Lemma append_ok grow h s xs : slice_ok h s -> appended h s xs (append zero grow h s xs).
  Proof.
    intros O. pose proof O as [H1 H2]. unfold append. destruct (Nat.leb_spec (sl_len s + List.length xs) (sl_cap s)) as [F|F].
    - destruct xs as [|x xs].
      { assert (set_array h (sl_arr s) (put (array h (sl_arr s)) (sl_off s + sl_len s) []) = h) as ->.
        { unfold put. cbn [List.length app]. rewrite Nat.add_0_r, firstn_skipn. unfold array. clear. generalize (sl_arr s). intros a. revert a.
          induction h as [|y h IH]; intros [|a]; cbn; auto. f_equal. apply IH. }
        cbn [List.length]. rewrite Nat.add_0_r. replace (mkSlice _ _ _ _) with s by now destruct s. now apply appended_nil. }
      set (ys := x :: xs) in *. assert (0 < List.length ys) as HP by (cbn; lia). assert (sl_arr s < List.length h) as B by (apply ok_bound; [auto|lia]).
      assert (PL : List.length (put (array h (sl_arr s)) (sl_off s + sl_len s) ys) = List.length (array h (sl_arr s))) by (apply put_length; lia).
      split; cbn [fst snd sl_len sl_arr sl_off sl_cap]; auto.
      + unfold contents at 1. cbn [sl_len sl_arr sl_off]. rewrite set_array_same by auto. apply list_ext.
        * rewrite app_length, contents_length by auto. rewrite window_length; [lia|]. rewrite PL. lia.
        * intros k d. rewrite window_length by (rewrite PL; lia). intros K. rewrite nth_window by lia. rewrite put_nth by lia.
          destruct (Nat.lt_ge_cases k (sl_len s)) as [L|L].
          -- rewrite app_nth1 by (rewrite contents_length; auto). unfold contents. rewrite nth_window by lia.
             destruct (Nat.ltb_spec (sl_off s + k) (sl_off s + sl_len s)); [reflexivity|lia].
          -- rewrite app_nth2 by (rewrite contents_length; auto). rewrite contents_length by auto.
             destruct (Nat.ltb_spec (sl_off s + k) (sl_off s + sl_len s)); [lia|]. destruct (Nat.ltb_spec (sl_off s + k) (sl_off s + sl_len s + List.length ys)); [|lia]. f_equal. lia.
      + split; cbn [sl_len sl_cap sl_off sl_arr]; [lia|]. rewrite set_array_same by auto. lia.
      + intros t [T1 T2] C. unfold contents. destruct (Nat.eq_dec (sl_arr t) (sl_arr s)) as [E|E]; [|now rewrite set_array_other by auto].
        rewrite E, set_array_same by auto. rewrite E in T2. destruct C as [C|C]; [congruence|]. apply list_ext.
        * rewrite !window_length; auto; lia.
        * intros k d. rewrite window_length by lia. intros K. rewrite !nth_window by lia. rewrite put_nth by lia. destruct (Nat.ltb_spec (sl_off t + k) (sl_off s + sl_len s)); [reflexivity|]. destruct (Nat.ltb_spec (sl_off t + k) (sl_off s + sl_len s + List.length ys)); [lia|reflexivity].
      + intros _. rewrite set_array_length. auto.
      + now rewrite set_array_length.
      + intros a Ha. destruct (Nat.eq_dec (sl_arr s) a) as [<-|E]; [rewrite set_array_same by auto; exact PL|now rewrite set_array_other by auto].
    - split; cbn [fst snd sl_len sl_arr sl_off sl_cap]; auto.
      + unfold contents at 1. cbn [sl_len sl_arr sl_off]. rewrite array_new. cbn [skipn]. rewrite app_assoc. apply firstn_exact.
        rewrite app_length, contents_length by auto. reflexivity.
      + split; cbn [sl_len sl_cap sl_off sl_arr]; [lia|]. rewrite array_new, !app_length, contents_length, repeat_length by auto. lia.
      + intros t T C. destruct (Nat.eq_dec (sl_len t) 0) as [Z|Z]; [now rewrite !contents_empty|]. assert (sl_arr t < List.length h) by (apply ok_bound; [auto|destruct T; lia]).
        unfold contents. now rewrite array_old by auto.
      + lia.
      + rewrite app_length. lia.
      + intros a Ha. now rewrite array_old by auto.
  Qed.

  Lemma appended_keeps h s xs r t : appended h s xs r -> slice_ok h t -> slice_ok (fst r) t.
  Proof.
    intros P [T1 T2]. split; auto. destruct (Nat.lt_ge_cases (sl_arr t) (List.length h)) as [L|L].
    - now rewrite (ap_sizes _ _ _ _ P) by auto.
    - rewrite array_none in T2 by auto. cbn in T2. lia.
  Qed.
  Lemma appended_trans h s xs r ys r' : slice_ok h s -> appended h s xs r -> appended (fst r) (snd r) ys r' -> appended h s (xs ++ ys) r'.
  Proof.
    intros O P Q. split.
    - rewrite (ap_contents _ _ _ _ Q), (ap_contents _ _ _ _ P). now rewrite app_assoc.
    - exact (ap_ok _ _ _ _ Q).
    - rewrite (ap_len _ _ _ _ Q), (ap_len _ _ _ _ P), app_length. lia.
    - intros t T C. rewrite app_length in C. destruct (Nat.eq_dec (sl_len t) 0) as [Z|Z]; [now rewrite !contents_empty|].
      rewrite (ap_others _ _ _ _ Q); [apply (ap_others _ _ _ _ P); auto; unfold clear_of in *; lia|eapply appended_keeps; eauto|].
      destruct (ap_where _ _ _ _ P) as [E|(W1 & W2 & W3)].
      + rewrite E. unfold clear_of in *. cbn. destruct C as [C|C]; [left; auto|right; lia].
      + left. assert (sl_arr t < List.length h) by (apply ok_bound; [auto|destruct T; lia]). lia.
    - rewrite app_length. intros F. destruct (ap_fits _ _ _ _ P) as [E1 E2]; [lia|]. destruct (ap_fits _ _ _ _ Q) as [E3 E4]; [rewrite E2; cbn; lia|].
      rewrite E2 in E4. cbn in E4. rewrite E4. split; [congruence|]. f_equal. lia.
    - pose proof (ap_more _ _ _ _ Q). pose proof (ap_more _ _ _ _ P). lia.
    - intros a Ha. rewrite (ap_sizes _ _ _ _ Q), (ap_sizes _ _ _ _ P); auto. pose proof (ap_more _ _ _ _ P). lia.
    - pose proof (ap_len _ _ _ _ Q) as LQ. pose proof (ap_len _ _ _ _ P) as LP. pose proof (ap_more _ _ _ _ P) as MP. rewrite app_length.
      destruct (ap_where _ _ _ _ P) as [E|(W1 & W2 & W3)]; destruct (ap_where _ _ _ _ Q) as [E'|(V1 & V2 & V3)].
      + left. rewrite E', E. cbn. f_equal. lia.
      + right. rewrite E in V1. cbn in V1. split; [auto|]. split; [lia|auto].
      + right. rewrite E'. cbn. rewrite LP in *. split; [lia|]. auto.
      + right. split; [lia|]. split; [lia|auto].
  Qed.
  Lemma appends_ok grow xss h s : slice_ok h s -> appended h s (List.concat xss) (appends zero grow h s xss).
  Proof.
    revert h s. induction xss as [|xs xss IH]; intros h s O.
    - now apply appended_nil.
    - unfold appends. cbn [fold_left fst snd List.concat]. pose proof (append_ok grow h s xs O) as P. destruct (append zero grow h s xs) as [h1 s1] eqn:E.
      eapply appended_trans; [exact O|exact P|]. apply IH. exact (ap_ok _ _ _ _ P).
  Qed.
  Lemma make_ok h l c : l <= c -> slice_ok (fst (make zero h l c)) (snd (make zero h l c)) /\ contents (fst (make zero h l c)) (snd (make zero h l c)) = repeat zero l.
  Proof.
    intros H. unfold make, slice_ok, contents. cbn [fst snd sl_len sl_cap sl_off sl_arr]. rewrite array_new, repeat_length. split; [lia|]. cbn [skipn].
    replace c with (l + (c - l)) by lia. rewrite repeat_app. apply firstn_exact, repeat_length.
  Qed.
  Lemma make_others h l c t : slice_ok h t -> contents (fst (make zero h l c)) t = contents h t.
  Proof.
    intros T. destruct (Nat.eq_dec (sl_len t) 0) as [Z|Z]; [now rewrite !contents_empty|]. unfold contents, make. cbn [fst].
    rewrite array_old; [reflexivity|]. apply ok_bound; [auto|destruct T; lia].
  Qed.
  Lemma make_keeps h l c t : slice_ok h t -> slice_ok (fst (make zero h l c)) t.
  Proof.
    intros [T1 T2]. split; auto. unfold make. cbn [fst]. destruct (Nat.lt_ge_cases (sl_arr t) (List.length h)) as [L|L]; [now rewrite array_old|].
    rewrite array_none in T2 by auto. cbn in T2. lia.
  Qed.
  Lemma copy_ok (h : arrs) s xs : slice_ok h s -> List.length xs <= sl_len s ->
    contents (copy_into h s xs) s = xs ++ skipn (List.length xs) (contents h s) /\ slice_ok (copy_into h s xs) s /\ List.length (copy_into h s xs) = List.length h /\
    forall t, slice_ok h t -> (sl_arr t <> sl_arr s \/ sl_off t + sl_len t <= sl_off s \/ sl_off s + sl_len s <= sl_off t) -> contents (copy_into h s xs) t = contents h t.
  Proof.
    intros O HX. unfold copy_into. rewrite firstn_all2 by auto. rewrite set_array_length.
    destruct (Nat.eq_dec (sl_len s) 0) as [Z|Z].
    { assert (xs = []) as -> by (destruct xs; [auto|cbn in HX; lia]). assert (set_array h (sl_arr s) (put (array h (sl_arr s)) (sl_off s) []) = h) as ->.
      { unfold put. cbn [List.length app]. rewrite Nat.add_0_r, firstn_skipn. unfold array. clear. generalize (sl_arr s). intros a. revert a.
        induction h as [|y h IH]; intros [|a]; cbn; auto. f_equal. apply IH. }
      cbn. auto. }
    pose proof O as [H1 H2]. assert (sl_arr s < List.length h) as B by (apply ok_bound; [auto|lia]).
    assert (PL : List.length (put (array h (sl_arr s)) (sl_off s) xs) = List.length (array h (sl_arr s))) by (apply put_length; lia).
    split; [|split; [|split; [reflexivity|]]].
    - unfold contents at 1. rewrite set_array_same by auto. apply list_ext.
      + rewrite app_length, skipn_length, contents_length by auto. rewrite window_length; [lia|]. rewrite PL. lia.
      + intros k d. rewrite window_length by (rewrite PL; lia). intros K. rewrite nth_window by lia. rewrite put_nth by lia.
        destruct (Nat.ltb_spec (sl_off s + k) (sl_off s)); [lia|]. destruct (Nat.ltb_spec (sl_off s + k) (sl_off s + List.length xs)).
        * rewrite app_nth1 by lia. f_equal. lia.
        * rewrite app_nth2 by lia. pose proof (nth_window (contents h s) (List.length xs) (sl_len s) (k - List.length xs) d ltac:(lia)) as W.
          rewrite firstn_all2 in W by (rewrite skipn_length, contents_length by auto; lia). rewrite W. unfold contents. rewrite nth_window by lia. f_equal. lia.
    - split; auto. rewrite set_array_same by auto. lia.
    - intros t [T1 T2] C. unfold contents. destruct (Nat.eq_dec (sl_arr t) (sl_arr s)) as [E|E]; [|now rewrite set_array_other by auto].
      rewrite E, set_array_same by auto. rewrite E in T2. apply list_ext.
      + rewrite !window_length; auto; lia.
      + intros k d. rewrite window_length by lia. intros K. rewrite !nth_window by lia. rewrite put_nth by lia.
        destruct (Nat.ltb_spec (sl_off t + k) (sl_off s)); [reflexivity|]. destruct (Nat.ltb_spec (sl_off t + k) (sl_off s + List.length xs)); [lia|reflexivity].
  Qed.
End Mem.

(** * C61: the byte strings *)
(** A result in memory of its own, allocated in one piece of exactly the size needed. *)
Record fresh {A} (h : arrays A) (xs : list A) (r : arrays A * slice) : Prop := {
  fr_contents : contents (fst r) (snd r) = xs;
  fr_slice : snd r = mkSlice (List.length h) 0 (List.length xs) (List.length xs);
  fr_once : List.length (fst r) = S (List.length h);
  fr_ok : slice_ok (fst r) (snd r);
  fr_others : forall t, slice_ok h t -> slice_ok (fst r) t /\ contents (fst r) t = contents h t
}.

Section Made.
  Context {A : Type} (zero : A).
  Lemma clear_new (h : arrays A) l n t : slice_ok h t -> sl_len t <> 0 -> clear_of (mkSlice (List.length h) 0 l l) n t.
  Proof. intros T Z. left. cbn. assert (sl_arr t < List.length h) by (apply ok_bound; [auto|destruct T; lia]). lia. Qed.
  Lemma made h n (xs : list A) r : List.length xs = n -> appended (fst (make zero h 0 n)) (snd (make zero h 0 n)) xs r -> fresh h xs r.
  Proof.
    intros HL P. destruct (make_ok zero h 0 n ltac:(lia)) as [M1 M2]. destruct (ap_fits _ _ _ _ P) as [F1 F2]; [cbn; lia|]. split.
    - rewrite (ap_contents _ _ _ _ P), M2. reflexivity.
    - rewrite F2. cbn [make fst snd sl_arr sl_off sl_len sl_cap]. rewrite Nat.add_0_l, HL. reflexivity.
    - rewrite F1. cbn. rewrite app_length. cbn. lia.
    - exact (ap_ok _ _ _ _ P).
    - intros t T. pose proof (make_keeps zero h 0 n t T) as T'. split; [eapply appended_keeps; eauto|].
      destruct (Nat.eq_dec (sl_len t) 0) as [Z|Z]; [now rewrite !contents_empty|].
      rewrite (ap_others _ _ _ _ P); auto; [now apply make_others|]. left. cbn. assert (sl_arr t < List.length h) by (apply ok_bound; [auto|destruct T; lia]). lia.
  Qed.

  Theorem C61_append : forall grow h s (xss : list (list A)), slice_ok h s -> appended h s (List.concat xss) (appends zero grow h s xss).
  Proof. intros. now apply appends_ok. Qed.
End Made.

Section Codec.
  Context `{L : group_laws}.
  Notation arrs := (arrays byte).

  Lemma bappends_ok grow (h : arrs) s xss : slice_ok h s -> appended h s (List.concat xss) (bappends grow h s xss).
  Proof. apply appends_ok. Qed.

  (** What BytesAppend leaves behind, for a result [o] and the bytes [b] of the functional model. *)
  Definition appends_bytes (h : arrs) (s : slice) (b : outcome (list byte)) (o : outcome (arrs * slice)) : Prop :=
    match b, o with
    | Ret xs, Ret r => appended h s xs r
    | Fail e, Fail e' => e = e'
    | _, _ => False
    end.

  Theorem C61_header : forall grow h s hd, slice_ok h s -> appends_bytes h s (header_bytes hd) (header_BytesAppend grow h s hd).
  Proof.
    intros grow h s hd O. unfold header_bytes, header_BytesAppend. destruct (header_check_cases "Header.BytesAppend" hd) as [->|[e ->]]; cbn [obind appends_bytes]; auto.
    pose proof (bappends_ok grow h s [[z2b (h_Type hd)]; id_bytes (h_From hd); id_bytes (h_To hd)] O) as P. cbn [List.concat] in P. rewrite app_nil_r in P. exact P.
  Qed.

  Lemma schnorr_append grow h s p : slice_ok h s -> appended h s (schnorr_bytes p) (schnorr_BytesAppend grow h s p).
  Proof. intros O. pose proof (bappends_ok grow h s [scalar_bytes (pr_S p); scalar_bytes (pr_R p)] O) as P. cbn [List.concat] in P. rewrite app_nil_r in P. exact P. Qed.
  Lemma exp_append grow h s p : slice_ok h s -> appended h s (exp_bytes p) (exp_BytesAppend grow h s p).
  Proof. intros O. pose proof (bappends_ok grow h s (id_bytes (exp_degree p) :: map genc p) O) as P. cbn [List.concat] in P. rewrite <- flat_map_concat_map in P. exact P. Qed.
  Lemma k1_append grow h s k : slice_ok h s -> appended h s (k1_bytes k) (k1_BytesAppend grow h s k).
  Proof.
    intros O. unfold k1_BytesAppend, k1_bytes. pose proof (schnorr_append grow h s (k1_Proof k) O) as P. destruct (schnorr_BytesAppend _ _ _ _) as [h1 s1].
    eapply appended_trans; [exact O|exact P|]. cbn [fst snd]. apply exp_append. exact (ap_ok _ _ _ _ P).
  Qed.
  Lemma k2_append grow h s k : slice_ok h s -> appended h s (k2_bytes k) (k2_BytesAppend grow h s k).
  Proof. apply append_ok. Qed.
  Lemma s1_append grow h s k : slice_ok h s -> appended h s (s1_bytes k) (s1_BytesAppend grow h s k).
  Proof. intros O. pose proof (bappends_ok grow h s [genc (s1_Di k); genc (s1_Ei k)] O) as P. cbn [List.concat] in P. rewrite app_nil_r in P. exact P. Qed.
  Lemma s2_append grow h s k : slice_ok h s -> appended h s (s2_bytes k) (s2_BytesAppend grow h s k).
  Proof. apply append_ok. Qed.
  Lemma sig_append grow h s k : slice_ok h s -> appended h s (sig_bytes k) (sig_BytesAppend grow h s k).
  Proof. intros O. pose proof (bappends_ok grow h s [genc (sig_R k); scalar_bytes (sig_S k)] O) as P. cbn [List.concat] in P. rewrite app_nil_r in P. exact P. Qed.

  Theorem C61_bodies : forall grow h s pr A k1 k2 s1 s2 sg, slice_ok h s ->
    appended h s (schnorr_bytes pr) (schnorr_BytesAppend grow h s pr) /\ appended h s (exp_bytes A) (exp_BytesAppend grow h s A) /\
    appended h s (k1_bytes k1) (k1_BytesAppend grow h s k1) /\ appended h s (k2_bytes k2) (k2_BytesAppend grow h s k2) /\
    appended h s (s1_bytes s1) (s1_BytesAppend grow h s s1) /\ appended h s (s2_bytes s2) (s2_BytesAppend grow h s s2) /\
    appended h s (sig_bytes sg) (sig_BytesAppend grow h s sg).
  Proof.
    intros. split; [now apply schnorr_append|]. split; [now apply exp_append|]. split; [now apply k1_append|]. split; [now apply k2_append|].
    split; [now apply s1_append|]. split; [now apply s2_append|now apply sig_append].
  Qed.

  Theorem C61_message : forall grow h s m, slice_ok h s -> appends_bytes h s (msg_MarshalBinary m) (msg_BytesAppend grow h s m).
  Proof.
    intros grow h s m O. unfold msg_MarshalBinary, msg_BytesAppend. pose proof (C61_header grow h s (m_Header m) O) as P. unfold appends_bytes in P.
    destruct (header_bytes _) as [b|e|w], (header_BytesAppend _ _ _ _) as [[h1 s1]|e'|w']; try contradiction; cbn [obind fst snd]; [|exact P].
    pose proof (ap_ok _ _ _ _ P) as O1. cbn [fst snd] in O1.
    repeat match goal with
    | |- context [(m_Type m =? ?t)%Z] => destruct (m_Type m =? t)%Z
    end; try reflexivity.
    - destruct (m_KeyGen1 m); cbn [option_map appends_bytes]; auto. eapply appended_trans; eauto. now apply k1_append.
    - destruct (m_KeyGen2 m); cbn [option_map appends_bytes]; auto. eapply appended_trans; eauto. now apply k2_append.
    - destruct (m_Sign1 m); cbn [option_map appends_bytes]; auto. eapply appended_trans; eauto. now apply s1_append.
    - destruct (m_Sign2 m); cbn [option_map appends_bytes]; auto. eapply appended_trans; eauto. now apply s2_append.
  Qed.

  Lemma marshal_fresh grow h m xs : msg_MarshalBinary m = Ret xs -> Z.of_nat (List.length xs) = msg_Size m ->
    exists r, msg_MarshalBinary_slice grow h m = Ret r /\ fresh h xs r.
  Proof.
    intros E HL. unfold msg_MarshalBinary_slice. assert (List.length xs = Z.to_nat (msg_Size m)) as HN by lia.
    destruct (make_ok x00 h 0 (Z.to_nat (msg_Size m)) ltac:(lia)) as [M1 M2].
    pose proof (C61_message grow _ _ m M1) as P. rewrite E in P. unfold make in P |- *. cbn [fst snd] in P.
    destruct (msg_BytesAppend _ _ _ _) as [r|e|w]; cbn [appends_bytes] in P; try contradiction. exists r. split; [reflexivity|]. eapply made; [exact HN|exact P].
  Qed.

  (** MarshalBinary: one allocation of exactly Size() bytes for the messages that are built; in any case the bytes of the functional model. *)
  Theorem C61_marshal : forall grow h m, built m ->
    exists b r, msg_MarshalBinary m = Ret b /\ msg_MarshalBinary_slice grow h m = Ret r /\ fresh h b r /\ Z.of_nat (sl_cap (snd r)) = msg_Size m.
  Proof.
    intros grow h m B. destruct (C20_round_trip m zero_message B) as (b & m' & E & HL & _). destruct (marshal_fresh grow h m b E HL) as (r & R & F).
    exists b, r. repeat (split; auto). rewrite (fr_slice _ _ _ F). exact HL.
  Qed.
  Theorem C61_marshal_any : forall grow h m,
    match msg_MarshalBinary m, msg_MarshalBinary_slice grow h m with
    | Ret b, Ret r => contents (fst r) (snd r) = b /\ forall t, slice_ok h t -> slice_ok (fst r) t /\ contents (fst r) t = contents h t
    | Fail e, Fail e' => e = e'
    | _, _ => False
    end.
  Proof.
    intros grow h m. unfold msg_MarshalBinary_slice. destruct (make_ok x00 h 0 (Z.to_nat (msg_Size m)) ltac:(lia)) as [M1 M2].
    pose proof (C61_message grow _ _ m M1) as P. unfold appends_bytes in P. unfold make in *. cbn [fst snd] in *.
    destruct (msg_MarshalBinary m) as [b|e|w], (msg_BytesAppend grow (h ++ [repeat x00 (Z.to_nat (msg_Size m))]) (mkSlice (List.length h) 0 0 (Z.to_nat (msg_Size m))) m) as [r|e'|w']; try contradiction; [|exact P]. split.
    - rewrite (ap_contents _ _ _ _ P). rewrite M2. reflexivity.
    - intros t T. split; [eapply appended_keeps; [exact P|exact (make_keeps x00 h 0 _ t T)]|]. destruct (Nat.eq_dec (sl_len t) 0) as [Z|Z]; [now rewrite !contents_empty|].
      rewrite (ap_others _ _ _ _ P); [exact (make_others x00 h 0 _ t T)|exact (make_keeps x00 h 0 _ t T)|].
      left. cbn. assert (sl_arr t < List.length h) by (apply ok_bound; [auto|destruct T; lia]). lia.
  Qed.

  (** Size, for every message: the length of the encoding if there is one; that of the header alone without a body of the message's type. *)
  Theorem C61_size : forall m,
    (forall b, msg_MarshalBinary m = Ret b -> Z.of_nat (List.length b) = msg_Size m) /\
    ((m_Type m = 1%Z -> m_KeyGen1 m = None) -> (m_Type m = 2%Z -> m_KeyGen2 m = None) -> (m_Type m = 3%Z -> m_Sign1 m = None) -> (m_Type m = 4%Z -> m_Sign2 m = None) -> msg_Size m = 5%Z).
  Proof.
    intros m. split.
    - intros b. unfold msg_MarshalBinary, msg_Size, header_bytes. destruct (header_check _ _); cbn [obind]; try discriminate. cbv zeta.
      assert (forall l, Z.of_nat (List.length ((z2b (h_Type (m_Header m)) :: id_bytes (h_From (m_Header m)) ++ id_bytes (h_To (m_Header m))) ++ l)) = (Z.of_nat headerSize + Z.of_nat (List.length l))%Z) as HL.
      { intros l. rewrite app_length, Nat2Z.inj_add. reflexivity. }
      assert (forall (c : option (list byte)) n, (forall l, c = Some l -> Z.of_nat (List.length l) = n) ->
        match c with Some l => Ret ((z2b (h_Type (m_Header m)) :: id_bytes (h_From (m_Header m)) ++ id_bytes (h_To (m_Header m))) ++ l) | None => Fail "message does not contain any data" end = Ret b ->
        Z.of_nat (List.length b) = (Z.of_nat headerSize + n)%Z) as HC.
      { intros c n Hc E. destruct c as [l|]; [|discriminate]. apply Ret_inj in E. subst b. rewrite HL. f_equal. now apply Hc. }
      destruct (m_Type m =? MTKeyGen1)%Z; [|destruct (m_Type m =? MTKeyGen2)%Z; [|destruct (m_Type m =? MTSign1)%Z; [|destruct (m_Type m =? MTSign2)%Z; [|discriminate] ] ] ]; apply HC.
      + destruct (m_KeyGen1 m) as [k|]; cbn [option_map osize]; [|discriminate]. intros l E. injection E as <-. unfold k1_bytes. rewrite app_length, schnorr_bytes_length, Nat2Z.inj_add, exp_bytes_length. reflexivity.
      + destruct (m_KeyGen2 m) as [k|]; cbn [option_map osize]; [|discriminate]. intros l E. injection E as <-. unfold k2_bytes. now rewrite scalar_bytes_length.
      + destruct (m_Sign1 m) as [k|]; cbn [option_map osize]; [|discriminate]. intros l E. injection E as <-. unfold s1_bytes. now rewrite app_length, !genc_len.
      + destruct (m_Sign2 m) as [k|]; cbn [option_map osize]; [|discriminate]. intros l E. injection E as <-. unfold s2_bytes. now rewrite scalar_bytes_length.
    - intros H1 H2 H3 H4. unfold msg_Size. change MTKeyGen1 with 1%Z. change MTKeyGen2 with 2%Z. change MTSign1 with 3%Z. change MTSign2 with 4%Z.
      destruct (Z.eqb_spec (m_Type m) 1%Z) as [E|_]; [now rewrite (H1 E)|]. destruct (Z.eqb_spec (m_Type m) 2%Z) as [E|_]; [now rewrite (H2 E)|].
      destruct (Z.eqb_spec (m_Type m) 3%Z) as [E|_]; [now rewrite (H3 E)|]. destruct (Z.eqb_spec (m_Type m) 4%Z) as [E|_]; [now rewrite (H4 E)|]. reflexivity.
  Qed.

  (** The other encoders. *)
  Theorem C61_marshal_parts : forall grow h pr A k1 k2 s1 s2 sg sk R Y message,
    fresh h (schnorr_bytes pr) (schnorr_MarshalBinary_slice grow h pr) /\ fresh h (exp_bytes A) (exp_MarshalBinary_slice grow h A) /\
    fresh h (k1_bytes k1) (k1_MarshalBinary_slice grow h k1) /\ fresh h (k2_bytes k2) (k2_MarshalBinary_slice grow h k2) /\
    fresh h (s1_bytes s1) (s1_MarshalBinary_slice grow h s1) /\ fresh h (s2_bytes s2) (s2_MarshalBinary_slice grow h s2) /\
    fresh h (sig_bytes sg) (sig_MarshalBinary_slice grow h sg) /\ fresh h (share_bytes sk) (share_MarshalBinary_slice grow h sk) /\
    fresh h (sig_ToEd25519 sg) (sig_ToEd25519_slice grow h sg) /\ fresh h (challenge_input R Y message) (challenge_data grow h R Y message).
  Proof.
    intros grow h pr A k1 k2 s1 s2 sg sk R Y message.
    assert (forall n, slice_ok (fst (make x00 h 0 n)) (snd (make x00 h 0 n))) as M by (intros n; apply make_ok; lia).
    assert (forall n xss, List.length (List.concat xss) = n -> fresh h (List.concat xss) (bappends grow (fst (make x00 h 0 n)) (snd (make x00 h 0 n)) xss)) as K.
    { intros n xss E. eapply made; [exact E|]. apply bappends_ok, M. }
    pose proof (exp_bytes_length A) as EL. pose proof (exp_bytes_length (k1_Commitments k1)) as EL1.
    split; [|split; [|split; [|split; [|split; [|split; [|split; [|split; [|split] ] ] ] ] ] ] ].
    - apply (made x00 h 64); [apply schnorr_bytes_length|]. apply schnorr_append, (M 64).
    - apply (made x00 h (Z.to_nat (exp_size A))); [lia|]. apply exp_append, M.
    - apply (made x00 h (Z.to_nat (64 + exp_size (k1_Commitments k1)))); [|apply k1_append, M]. unfold k1_bytes. rewrite app_length, schnorr_bytes_length. lia.
    - apply (made x00 h 32); [apply scalar_bytes_length|apply k2_append, (M 32)].
    - apply (made x00 h 64); [apply s1_bytes_length|apply s1_append, (M 64)].
    - apply (made x00 h 32); [apply scalar_bytes_length|apply s2_append, (M 32)].
    - apply (made x00 h 64); [apply C28_signature_round_trip|apply sig_append, (M 64)].
    - specialize (K 34 [id_bytes (sh_ID sk); scalar_bytes (sh_Secret sk)]). cbn [List.concat] in K. rewrite app_nil_r in K. apply K. rewrite app_length, scalar_bytes_length. reflexivity.
    - specialize (K 64 [gencEd (sig_R sg); scalar_bytes (sig_S sg)]). cbn [List.concat] in K. rewrite app_nil_r in K. apply K. rewrite app_length, scalar_bytes_length, gencEd_len. reflexivity.
    - specialize (K (64 + List.length message) [gencEd R; gencEd Y; message]). cbn [List.concat] in K. rewrite app_nil_r in K. apply K. rewrite !app_length, !gencEd_len. lia.
  Qed.
  Theorem C61_marshal_header : forall grow h hd,
    match header_bytes hd, header_MarshalBinary_slice grow h hd with Ret b, Ret r => fresh h b r | Fail e, Fail e' => e = e' | _, _ => False end.
  Proof.
    intros grow h hd. unfold header_MarshalBinary_slice. destruct (make_ok x00 h 0 headerSize ltac:(lia)) as [M1 M2].
    pose proof (C61_header grow _ _ hd M1) as P. unfold appends_bytes in P. unfold make in P |- *. cbn [fst snd] in P.
    destruct (header_bytes hd) as [b|e|w] eqn:E, (header_BytesAppend grow (h ++ [repeat x00 headerSize]) (mkSlice (List.length h) 0 0 headerSize) hd) as [r|e'|w']; try contradiction; [|exact P]. eapply made; [|exact P].
    unfold header_bytes in E. apply obind_ret in E as (u & _ & E). apply Ret_inj in E. subst b. reflexivity.
  Qed.

  Lemma genc_Forall2 (A B : list G) : Forall2 geq A B -> flat_map genc A = flat_map genc B.
  Proof. induction 1 as [|a b A B H F IH]; cbn; auto. rewrite IH. f_equal. now apply genc_eq. Qed.
  Lemma equal_bytes m m' : msg_Equal m m' = true -> m_Header m' = m_Header m -> msg_MarshalBinary m' = msg_MarshalBinary m.
  Proof.
    intros E H. unfold msg_MarshalBinary, m_Type. rewrite H. unfold msg_Equal in E. apply andb_true_iff in E as [_ E]. unfold m_Type in E.
    destruct (header_bytes (m_Header m)) as [hb|e|w]; cbn [obind]; auto.
    repeat match goal with |- context [(h_Type (m_Header m) =? ?t)%Z] => destruct (h_Type (m_Header m) =? t)%Z end; try reflexivity.
    - destruct (m_KeyGen1 m) as [[pa A]|], (m_KeyGen1 m') as [[pb B]|]; cbn [oequal] in E; try discriminate. unfold k1_equal in E. cbn [k1_Proof k1_Commitments] in E. apply andb_true_iff in E as [E1 E2].
      cbn [option_map]. do 2 f_equal. unfold k1_bytes. cbn [k1_Proof k1_Commitments]. apply exp_equal_iff in E2. f_equal.
      + unfold schnorr_equal in E1. apply andb_true_iff in E1 as [E3 E4]. apply feqb_eq in E3, E4. unfold schnorr_bytes. congruence.
      + unfold exp_bytes, exp_degree. rewrite (genc_Forall2 _ _ E2). now rewrite (Forall2_length _ _ _ E2).
    - destruct (m_KeyGen2 m) as [[a]|], (m_KeyGen2 m') as [[b]|]; cbn [oequal] in E; try discriminate. unfold k2_equal in E. cbn [k2_Share] in E. apply feqb_eq in E. now subst.
    - destruct (m_Sign1 m) as [[a b]|], (m_Sign1 m') as [[a' b']|]; cbn [oequal] in E; try discriminate. unfold s1_equal in E. cbn [s1_Di s1_Ei] in E. apply andb_true_iff in E as [E1 E2].
      change (geq a' a) in E1. change (geq b' b) in E2. cbn [option_map]. unfold s1_bytes. cbn [s1_Di s1_Ei]. now rewrite (proj2 (genc_eq _ _) E1), (proj2 (genc_eq _ _) E2).
    - destruct (m_Sign2 m) as [[a]|], (m_Sign2 m') as [[b]|]; cbn [oequal] in E; try discriminate. unfold s2_equal in E. cbn [s2_Zi] in E. apply feqb_eq in E. now subst.
  Qed.

  Lemma checker_accepts {A} (marshal : arrs -> A -> outcome (arrs * slice)) unmarshal bytesAppend size h (m output m' : A) b r1 :
    marshal h m = Ret r1 -> fresh h b r1 -> unmarshal output b = Ret m' ->
    (exists r2, marshal (fst r1) m' = Ret r2 /\ contents (fst r2) (snd r2) = b /\ forall t, slice_ok (fst r1) t -> slice_ok (fst r2) t /\ contents (fst r2) t = contents (fst r1) t) ->
    size m = Z.of_nat (List.length b) -> (forall h2, exists r3, bytesAppend h2 nil_slice m = Ret r3 /\ appended h2 nil_slice b r3) ->
    CheckFROSTMarshaler marshal unmarshal bytesAppend size h m output = Ret tt.
  Proof.
    intros E1 F1 U (r2 & E2 & P1 & P2) HL K. unfold CheckFROSTMarshaler. rewrite E1. cbn [obind]. rewrite (fr_contents _ _ _ F1), U. cbn [obind]. rewrite E2. cbn [obind].
    destruct (P2 _ (fr_ok _ _ _ F1)) as [O2 C2]. rewrite P1, C2, (fr_contents _ _ _ F1), (proj2 (bytes_eqb_eq b b) eq_refl). cbn [negb].
    rewrite HL. rewrite (fr_slice _ _ _ F1) at 1. cbn [sl_len]. rewrite Z.eqb_refl. cbn [negb].
    destruct (K (fst r2)) as (r3 & -> & P3). cbn [obind]. rewrite (ap_others _ _ _ _ P3); [|exact O2|right; right; cbn; lia].
    rewrite C2, (fr_contents _ _ _ F1), (ap_contents _ _ _ _ P3). change (contents (fst r2) nil_slice) with (@nil byte). cbn [app].
    rewrite (proj2 (bytes_eqb_eq b b) eq_refl). reflexivity.
  Qed.

  (** The repository's own checker accepts every message that is built, whatever the receiver held, and every signature. *)
  Theorem C61_checker : forall grow h m output, built m -> check_message grow h m output = Ret tt.
  Proof.
    intros grow h m output B. destruct (C20_round_trip m output B) as (b & m' & E & HL & U & Q & H).
    destruct (marshal_fresh grow h m b E HL) as (r1 & E1 & F1). apply (checker_accepts _ _ _ _ _ _ _ m' b r1); auto.
    - pose proof (C61_marshal_any grow (fst r1) m') as P. rewrite (equal_bytes m m' Q H), E in P.
      destruct (msg_MarshalBinary_slice grow (fst r1) m') as [r2|e|w] eqn:E2; try contradiction. exists r2. auto.
    - intros h2. assert (slice_ok h2 nil_slice) as N by (split; cbn; lia). pose proof (C61_message grow h2 nil_slice m N) as P3. rewrite E in P3.
      destruct (msg_BytesAppend grow h2 nil_slice m) as [r3|e|w]; cbn [appends_bytes] in P3; try contradiction. eauto.
  Qed.
  Theorem C61_checker_signature : forall grow h s output, check_signature grow h s output = Ret tt.
  Proof.
    intros grow h s output. destruct (C28_signature_round_trip s) as (HL & s' & U & _ & E1 & E2).
    assert (forall h s, fresh h (sig_bytes s) (sig_MarshalBinary_slice grow h s)) as F.
    { clear -L. intros h s. apply (made x00 h 64); [apply C28_signature_round_trip|]. apply sig_append. apply (make_ok x00 h 0 64). lia. }
    assert (sig_bytes s' = sig_bytes s) as EB by (unfold sig_bytes; rewrite E2; f_equal; now apply genc_eq).
    apply (checker_accepts _ _ _ _ _ _ _ s' (sig_bytes s) (sig_MarshalBinary_slice grow h s)); auto.
    - eexists. split; [reflexivity|]. pose proof (F (fst (sig_MarshalBinary_slice grow h s)) s') as F'. rewrite EB in F'. split; [exact (fr_contents _ _ _ F')|exact (fr_others _ _ _ F')].
    - now rewrite HL.
    - intros h2. eexists. split; [reflexivity|]. apply sig_append. split; cbn; lia.
  Qed.
  (** What its verdict means: the bytes decode, encode again to the same bytes, and their number is Size(). *)
  Theorem C61_checker_sound : forall grow h m output, check_message grow h m output = Ret tt ->
    exists b m', msg_MarshalBinary m = Ret b /\ msg_UnmarshalBinary output b = Ret m' /\ msg_MarshalBinary m' = Ret b /\ Z.of_nat (List.length b) = msg_Size m.
  Proof.
    intros grow h m output E. unfold check_message, CheckFROSTMarshaler in E. apply obind_ret in E as (r1 & E1 & E). apply obind_ret in E as (m' & U & E). apply obind_ret in E as (r2 & E2 & E).
    pose proof (C61_marshal_any grow h m) as P. rewrite E1 in P. destruct (msg_MarshalBinary m) as [b|e|w] eqn:M; try contradiction. destruct P as [P1 P2].
    pose proof (C61_marshal_any grow (fst r1) m') as Q. rewrite E2 in Q. destruct (msg_MarshalBinary m') as [b'|e|w] eqn:M'; try contradiction. destruct Q as [Q1 Q2].
    assert (slice_ok (fst r1) (snd r1)) as O1.
    { unfold msg_MarshalBinary_slice in E1. destruct (make_ok x00 h 0 (Z.to_nat (msg_Size m)) ltac:(lia)) as [M1 _]. pose proof (C61_message grow _ _ m M1) as P. unfold make in P, E1. cbn [fst snd] in P. rewrite E1, M in P.
      exact (ap_ok _ _ _ _ P). }
    destruct (bytes_eqb (contents (fst r2) (snd r1)) (contents (fst r2) (snd r2))) eqn:B1; [|discriminate]. cbn [negb] in E. apply bytes_eqb_eq in B1.
    rewrite (proj2 (Q2 _ O1)), P1, Q1 in B1. destruct (Z.eqb_spec (msg_Size m) (Z.of_nat (sl_len (snd r1)))) as [S|S]; [|discriminate].
    exists b, m'. split; [reflexivity|]. rewrite P1 in U. split; [exact U|]. split; [congruence|]. rewrite S, <- P1. now rewrite contents_length.
  Qed.
End Codec.

(** * The queue (state.go:169-179) *)
Section QueueProof.
  Context {A : Type} (zero : A) (cur : A -> bool).

  Lemma List_skipn_skipn (i j : nat) (l : list A) : skipn i (skipn j l) = skipn (j + i) l.
  Proof. revert l. induction j as [|j IH]; intros l; cbn; auto. destruct l as [|x l]; [apply skipn_nil|apply IH]. Qed.
  Lemma nth_skipn_eq (l m : list A) i k d : skipn i l = skipn i m -> i <= k -> nth k l d = nth k m d.
  Proof.
    revert l m k. induction i as [|i IH]; intros l m k E H; [change (l = m) in E; rewrite E; reflexivity|]. destruct k as [|k]; [lia|].
    destruct l as [|x l], m as [|y m]; cbn [skipn] in E; cbn [nth].
    - reflexivity.
    - specialize (IH [] m k). rewrite skipn_nil in IH. specialize (IH E ltac:(lia)). rewrite <- IH. now destruct k.
    - specialize (IH l [] k). rewrite skipn_nil in IH. specialize (IH E ltac:(lia)). rewrite IH. now destruct k.
    - apply IH; auto. lia.
  Qed.

  Lemma filter_loop_ok grow todo : forall i queue h nq taken l,
    slice_ok h queue -> slice_ok h nq -> sl_arr nq = sl_arr queue -> sl_off nq = sl_off queue -> sl_cap nq = sl_cap queue -> sl_len nq <= i -> i + todo = sl_len queue ->
    List.length l = sl_len queue -> skipn i (contents h queue) = skipn i l ->
    exists h' q', filter_loop zero cur grow todo i queue h nq taken = (h', q', taken ++ List.filter cur (skipn i l)) /\
      contents h' q' = contents h nq ++ List.filter (fun x => negb (cur x)) (skipn i l) /\ slice_ok h' q' /\ List.length h' = List.length h /\
      sl_arr q' = sl_arr queue /\ sl_off q' = sl_off queue /\ sl_cap q' = sl_cap queue /\
      (forall t, slice_ok h t -> sl_arr t <> sl_arr queue \/ sl_off t + sl_len t <= sl_off queue \/ sl_off queue + sl_len queue <= sl_off t -> contents h' t = contents h t).
  Proof.
    induction todo as [|k IH]; intros i queue h nq taken l OQ ON EA EO EC HI HT HL HS.
    - assert (skipn i l = []) as -> by (apply skipn_all2; lia). cbn. rewrite !app_nil_r. exists h, nq. repeat (split; auto).
    - cbn [filter_loop]. assert (skipn i l = nth i l zero :: skipn (S i) l) as SK.
      { clear -HT HL. assert (i < List.length l) as H by lia. clear HT HL. revert i H. induction l as [|x l IH]; intros [|i] H; cbn in *; try lia; auto. apply IH. lia. }
      assert (nth i (contents h queue) zero = nth i l zero) as EN by (apply (nth_skipn_eq _ _ i i); auto).
      assert (skipn (S i) (contents h queue) = skipn (S i) l) as HS'.
      { assert (forall (m : list A) j, skipn (S j) m = skipn 1 (skipn j m)) as X by (intros m j; rewrite List_skipn_skipn; f_equal; lia). rewrite (X l), (X (contents h queue)). now rewrite HS. }
      rewrite EN. rewrite SK. cbn [List.filter]. destruct (cur (nth i l zero)) eqn:C; cbn [negb].
      + destruct (IH (S i) queue h nq (taken ++ [nth i l zero]) l) as (h' & q' & E & R); auto; try lia. exists h', q'. rewrite E, <- app_assoc. split; [reflexivity|exact R].
      + pose proof (append_ok zero grow h nq [nth i l zero] ON) as P. destruct OQ as [OQ1 OQ2]. destruct (ap_fits _ _ _ _ P) as [F1 F2]; [cbn; lia|].
        destruct (append zero grow h nq [nth i l zero]) as [h1 q1]. cbn [fst snd] in *. subst q1.
        assert (slice_ok h1 queue) as OQ' by (apply (appended_keeps _ _ _ _ _ P); split; auto).
        destruct (IH (S i) queue h1 (mkSlice (sl_arr nq) (sl_off nq) (sl_len nq + List.length [nth i l zero]) (sl_cap nq)) taken l) as (h' & q' & E & R1 & R2 & R3 & R4 & R5 & R6 & R7); auto; cbn [sl_len sl_arr sl_off sl_cap List.length]; try lia.
        * exact (ap_ok _ _ _ _ P).
        * (* the elements not yet read are behind the write *)
          assert (forall h0 : arrays A, slice_ok h0 queue -> skipn (S i) (contents h0 queue) = contents h0 (mkSlice (sl_arr queue) (sl_off queue + S i) (sl_len queue - S i) (sl_cap queue - S i))) as X.
          { intros h0 [Q1 Q2]. unfold contents. cbn [sl_len sl_off sl_arr]. rewrite skipn_firstn_comm, List_skipn_skipn. reflexivity. }
          rewrite <- HS', !X by (auto; split; auto). apply (ap_others _ _ _ _ P).
          -- split; cbn [sl_len sl_off sl_arr sl_cap]; lia.
          -- right. right. cbn [sl_len sl_off sl_arr sl_cap List.length]. lia.
        * exists h', q'. cbn [List.length] in E. rewrite E. split; [reflexivity|]. split; [|split; [exact R2|split; [congruence|split; [exact R4|split; [exact R5|split; [exact R6|] ] ] ] ] ].
          -- rewrite R1. pose proof (ap_contents _ _ _ _ P) as CP. cbn [fst snd] in CP. rewrite CP. now rewrite <- app_assoc.
          -- intros t T HC. rewrite R7; [|apply (appended_keeps _ _ _ _ _ P T)|exact HC]. apply (ap_others _ _ _ _ P); auto. unfold clear_of. cbn [List.length]. lia.
  Qed.

  (** The loop that compacts the queue within its own array while reading from it: what is left is the messages of other types in their
      order, the messages of the current type come out in their order, nothing is allocated and no other slice is affected. *)
  Theorem C61_queue : forall grow h queue, slice_ok h queue ->
    exists h' q', filter_queue zero cur grow h queue = Some (h', q', List.filter cur (contents h queue)) /\
      contents h' q' = List.filter (fun x => negb (cur x)) (contents h queue) /\ slice_ok h' q' /\ List.length h' = List.length h /\
      sl_arr q' = sl_arr queue /\ sl_off q' = sl_off queue /\ sl_cap q' = sl_cap queue /\
      (forall t, slice_ok h t -> sl_arr t <> sl_arr queue \/ sl_off t + sl_len t <= sl_off queue \/ sl_off queue + sl_len queue <= sl_off t -> contents h' t = contents h t).
  Proof.
    intros grow h queue O. unfold filter_queue, reslice. cbn [Nat.leb andb]. rewrite Nat.add_0_r, !Nat.sub_0_r.
    destruct (filter_loop_ok grow (sl_len queue) 0 queue h (mkSlice (sl_arr queue) (sl_off queue) 0 (sl_cap queue)) [] (contents h queue)) as (h' & q' & E & R1 & R); auto.
    - destruct O. split; cbn; lia.
    - now apply contents_length.
    - cbn [app skipn] in E. exists h', q'. rewrite E. split; [reflexivity|]. split; [exact R1|exact R].
  Qed.
End QueueProof.

Section QueueState.
  Context `{Gr : group_ops}.
  Lemma fold_filter (ct : Z) (l : list Message) : forall m : gmap ID (option Message),
    fold_left (fun m msg => if (m_Type msg =? ct)%Z then <[m_From msg := Some msg]> m else m) l m =
    fold_left (fun m msg => <[m_From msg := Some msg]> m) (List.filter (fun msg => (m_Type msg =? ct)%Z) l) m.
  Proof. induction l as [|x l IH]; intros m; cbn; auto. destruct (m_Type x =? ct)%Z; cbn [fold_left]; apply IH. Qed.
  (** With the messages themselves: [take_queue] of the state machine. *)
  Theorem C61_queue_state : forall zero grow h queue ct received, slice_ok h queue ->
    exists h' q' taken, filter_queue zero (fun m : Message => (m_Type m =? ct)%Z) grow h queue = Some (h', q', taken) /\
      take_queue ct (contents h queue) received = (fold_left (fun m msg => <[m_From msg := Some msg]> m) taken received, contents h' q').
  Proof.
    intros zero grow h queue ct received O. destruct (C61_queue zero (fun m : Message => (m_Type m =? ct)%Z) grow h queue O) as (h' & q' & E & R & _).
    exists h', q'. eexists. split; [exact E|]. unfold take_queue. rewrite R, fold_filter. reflexivity.
  Qed.
End QueueState.

(** * Identifier lists (idslice.go:11-15, 56-61) *)
Theorem C61_ids : forall h ids, slice_ok h ids ->
  fresh h (contents h ids) (ids_Copy h ids) /\ fresh h (NewIDSlice (contents h ids)) (ids_New h ids).
Proof.
  intros h ids O. assert (fresh h (contents h ids) (ids_Copy h ids)) as F.
  { unfold ids_Copy. destruct (make_ok 0%Z h (sl_len ids) (sl_len ids) ltac:(lia)) as [M1 M2]. pose proof (make_others 0%Z h (sl_len ids) (sl_len ids)) as M3. pose proof (make_keeps 0%Z h (sl_len ids) (sl_len ids)) as M4.
    pose proof (contents_length h ids O) as CL. unfold make in *. cbn [fst snd] in *. set (s := mkSlice (List.length h) 0 (sl_len ids) (sl_len ids)) in *. rewrite (M3 ids O).
    destruct (copy_ok _ s (contents h ids) M1) as (C1 & C2 & C3 & C4); [cbn; lia|]. split; cbn [fst snd].
    - rewrite C1, M2, skipn_all2 by (rewrite repeat_length; lia). apply app_nil_r.
    - unfold s. now rewrite CL.
    - rewrite C3, app_length. cbn. lia.
    - exact C2.
    - intros t T. split.
      + unfold copy_into. destruct (M4 t T) as [T1 T2]. split; auto. destruct (Nat.eq_dec (sl_arr t) (List.length h)) as [E|E].
        * destruct T as [_ T]. rewrite E, array_none in T by lia. cbn in T. lia.
        * rewrite set_array_other by (cbn; auto). exact T2.
      + destruct (Nat.eq_dec (sl_len t) 0) as [Z|Z]; [now rewrite !contents_empty|]. rewrite C4; auto. left. cbn.
        assert (sl_arr t < List.length h) by (apply ok_bound; [auto|destruct T; lia]). lia. }
  split; [exact F|]. unfold ids_New. destruct (ids_Copy h ids) as [h1 s] eqn:E. pose proof (fr_contents _ _ _ F) as FC. pose proof (fr_slice _ _ _ F) as FS. cbn [fst snd] in *.
  rewrite FC. assert (List.length (NewIDSlice (contents h ids)) = List.length (contents h ids)) as NL by (symmetry; apply Permutation_length, NewIDSlice_perm).
  destruct (copy_ok h1 s (NewIDSlice (contents h ids)) (fr_ok _ _ _ F)) as (C1 & C2 & C3 & C4); [rewrite FS; cbn; lia|]. split; cbn [fst snd].
  - rewrite C1, FC, skipn_all2 by lia. apply app_nil_r.
  - rewrite NL. exact FS.
  - rewrite C3. exact (fr_once _ _ _ F).
  - exact C2.
  - intros t T. destruct (fr_others _ _ _ F t T) as [T' TC]. cbn [fst snd] in *. split.
    + destruct T' as [T1 T2]. split; auto. unfold copy_into. destruct (Nat.eq_dec (sl_arr t) (List.length h)) as [E'|E'].
      * destruct T as [_ T]. rewrite E', array_none in T by lia. cbn in T. lia.
      * rewrite set_array_other by (rewrite FS; cbn; auto). exact T2.
    + rewrite <- TC. destruct (Nat.eq_dec (sl_len t) 0) as [Z|Z]; [now rewrite !contents_empty|]. apply C4; auto. left. rewrite FS. cbn.
      assert (sl_arr t < List.length h) by (apply ok_bound; [auto|destruct T; lia]). lia.
Qed.

(** * The binding factors (sign/round1.go:28-75) *)
Section Rhos.
  Context `{L : group_laws} `{Hf : hash_fn}.
  Notation arrs := (arrays byte).

  Lemma rho_B_slice_ok grow parties ids : forall hs, slice_ok (fst hs) (snd hs) ->
    (exists B r, (forall acc, ofold (fun buf id => match parties !! id with None => Panics "nil signer" | Some p => Ret (buf ++ id_bytes id ++ genc (sg_Di p) ++ genc (sg_Ei p)) end) acc ids = Ret (acc ++ B)) /\
       rho_B_slice grow hs parties ids = Ret r /\ appended (fst hs) (snd hs) B r /\ List.length B = 66 * List.length ids) \/
    (exists w, (forall acc : list byte, ofold (fun buf id => match parties !! id with None => Panics "nil signer" | Some p => Ret (buf ++ id_bytes id ++ genc (sg_Di p) ++ genc (sg_Ei p)) end) acc ids = Panics w) /\
       rho_B_slice grow hs parties ids = Panics w).
  Proof.
    unfold rho_B_slice. induction ids as [|i ids IH]; intros hs O; cbn [ofold].
    - left. exists [], hs. split; [intros acc; now rewrite app_nil_r|]. split; [reflexivity|]. split; [|reflexivity]. destruct hs. now apply appended_nil.
    - destruct (parties !! i) as [p|]; cbn [obind]; [|right; eexists; split; reflexivity].
      set (xss := [id_bytes i; genc (sg_Di p); genc (sg_Ei p)]). pose proof (bappends_ok grow (fst hs) (snd hs) xss O) as P.
      destruct (IH (bappends grow (fst hs) (snd hs) xss) (ap_ok _ _ _ _ P)) as [(B & r & E1 & E2 & Q & EL)|(w & E1 & E2)].
      + left. exists (List.concat xss ++ B), r. split; [|split; [exact E2|split; [eapply appended_trans; eauto|] ] ].
        * intros acc. rewrite E1. unfold xss. cbn [List.concat]. now rewrite app_nil_r, <- !app_assoc.
        * unfold xss. cbn [List.concat List.length]. rewrite !app_length, !genc_len, EL. cbn [List.length id_bytes be16]. lia.
      + right. exists w. split; [intros acc; apply E1|exact E2].
  Qed.

  Lemma rho_loop_ok message B buffer ids : forall (h : arrs) ps, slice_ok h buffer ->
    (exists x, List.length x = 2 /\ contents h buffer = hashDomainSeparation ++ x ++ sha512 message ++ B) ->
    match ofold (fun ps id => match ps !! id with None => Panics "nil signer" | Some p =>
        let rho := scalar_set_uniform (sg_Pi p) (sha512 (rho_buffer message B id)) in
        Ret (<[id := mkSigner (sg_Public p) (sg_Di p) (sg_Ei p) (sg_Ri p) rho (sg_Zi p)]> ps) end) ps ids, rho_loop buffer h ps ids with
    | Ret ps', Ret r => snd r = ps' /\ List.length (fst r) = List.length h /\ forall t, slice_ok h t -> sl_arr t <> sl_arr buffer -> contents (fst r) t = contents h t
    | Panics w, Panics w' => w = w'
    | _, _ => False
    end.
  Proof.
    unfold rho_loop. induction ids as [|i ids IH]; intros h ps O (x & X1 & X2); cbn [ofold].
    - cbn [fst snd]. auto.
    - assert (sl_len buffer = 12 + 2 + List.length (sha512 message ++ B)) as BL.
      { rewrite <- (contents_length h buffer O), X2. rewrite (app_length hashDomainSeparation), (app_length x), X1. reflexivity. }
      set (dst := mkSlice (sl_arr buffer) (sl_off buffer + 12) (sl_len buffer - 12) (sl_cap buffer - 12)).
      assert (reslice buffer 12 (sl_len buffer) = Some dst) as ER.
      { unfold reslice. rewrite (proj2 (Nat.leb_le 12 (sl_len buffer))) by lia. rewrite (proj2 (Nat.leb_le (sl_len buffer) (sl_cap buffer))) by (destruct O; lia). reflexivity. }
      rewrite ER in IH |- *. cbn [fst snd] in IH |- *. destruct (ps !! i) as [p|] eqn:Ep; cbn [obind]; [|reflexivity].
      assert (slice_ok h dst) as OD by (destruct O; split; cbn; lia).
      destruct (copy_ok h dst (id_bytes i) OD) as (C1 & C2 & C3 & C4); [cbn [dst sl_len id_bytes be16 List.length]; lia|].
      set (h1 := copy_into h dst (id_bytes i)) in *.
      assert (forall h0 : arrs, contents h0 buffer = contents h0 (mkSlice (sl_arr buffer) (sl_off buffer) 12 12) ++ contents h0 dst) as SP.
      { intros h0. unfold contents, dst. cbn [sl_arr sl_off sl_len]. rewrite <- (List_skipn_skipn 12 (sl_off buffer)). rewrite BL. cbn [Nat.add Nat.sub].
        set (w := skipn (sl_off buffer) (array h0 (sl_arr buffer))). set (n := List.length (sha512 message ++ B)).
        change (S (S (S (S (S (S (S (S (S (S (S (S (S (S n)))))))))))))) with (12 + S (S n)). rewrite <- (firstn_skipn 12 w) at 1. 
        destruct (Nat.le_gt_cases 12 (List.length w)) as [HW|HW].
        - rewrite firstn_app, firstn_firstn, firstn_length, !Nat.min_r by lia. rewrite ?Nat.min_l by lia. f_equal; f_equal; lia.
        - rewrite (skipn_all2 w) by lia. rewrite app_nil_r, firstn_nil, app_nil_r. rewrite firstn_firstn. now f_equal. }
      assert (O1 : slice_ok h1 buffer).
      { destruct O as [O1 O2]. split; auto. unfold h1, copy_into. assert (sl_arr buffer < List.length h) by (apply ok_bound; [split; auto|lia]). cbn [dst sl_arr]. rewrite set_array_same by auto.
        rewrite put_length; auto. cbn [dst sl_off sl_len]. rewrite firstn_length. cbn [id_bytes be16 List.length]. lia. }
      assert (C5 : contents h1 buffer = rho_buffer message B i).
      { rewrite SP, C1. rewrite (C4 (mkSlice (sl_arr buffer) (sl_off buffer) 12 12)); [|destruct O; split; cbn; lia|right; left; cbn; lia].
        rewrite SP in X2. apply app_inj_len in X2 as [X3 X4].
        - unfold rho_buffer. rewrite X3, X4. do 2 f_equal. apply skipn_exact. exact X1.
        - rewrite contents_length; [reflexivity|destruct O; split; cbn; lia]. }
      rewrite C5. specialize (IH h1 (<[i := mkSigner (sg_Public p) (sg_Di p) (sg_Ei p) (sg_Ri p) (scalar_set_uniform (sg_Pi p) (sha512 (rho_buffer message B i))) (sg_Zi p)]> ps) O1).
      match type of IH with ?P -> _ => assert P as HP by (exists (id_bytes i); split; [reflexivity|exact C5]); specialize (IH HP) end.
      destruct (ofold _ _ ids) as [ps'|e|w]; [|contradiction|destruct (ofold _ _ ids); auto]. destruct (ofold _ _ ids) as [r|e'|w']; auto.
      destruct IH as (I1 & I2 & I3). split; [exact I1|]. split; [congruence|].
      intros t T N. rewrite I3; [| |exact N].
      + apply C4; auto.
      + destruct T as [T1 T2]. split; auto. unfold h1, copy_into. rewrite set_array_other by (cbn; auto). exact T2.
  Qed.

  Lemma rho_header_ok grow h self n message : exists r, rho_header grow h self n message = r /\
    let h1 := fst (make x00 h 0 (Z.to_nat (12 + 2 + 64 + u16 (n * 66)))) in
    let s1 := snd (make x00 h 0 (Z.to_nat (12 + 2 + 64 + u16 (n * 66)))) in
    slice_ok h1 s1 /\ contents h1 s1 = [] /\ appended h1 s1 (hashDomainSeparation ++ id_bytes self ++ sha512 message) r.
  Proof.
    eexists. split; [reflexivity|]. cbv zeta. destruct (make_ok x00 h 0 (Z.to_nat (12 + 2 + 64 + u16 (n * 66))) ltac:(lia)) as [M1 M2]. split; [exact M1|]. split; [exact M2|].
    pose proof (bappends_ok grow _ _ [hashDomainSeparation; id_bytes self; sha512 message] M1) as P. cbn [List.concat] in P. rewrite app_nil_r in P. exact P.
  Qed.

  Lemma rhos_full grow h s :
    match computeRhos s, computeRhos_slice grow h s with
    | Ret ps, Ret r => snd r = ps /\ (forall t, slice_ok h t -> contents (fst r) t = contents h t) /\
        (hash_ok Hf -> let need := 78 + 66 * List.length (sr_ids s) in let have := Z.to_nat (78 + u16 (N_ids (sr_ids s) * 66)) in
           (need <= have -> List.length (fst r) = S (List.length h)) /\ (have < need -> S (List.length h) < List.length (fst r)))
    | Panics w, Panics w' => w = w'
    | _, _ => False
    end.
  Proof.
    unfold computeRhos, computeRhos_slice, rho_B. destruct (rho_header_ok grow h (sr_self s) (N_ids (sr_ids s)) (sr_Message s)) as (r0 & E0 & M1 & M2 & P0). rewrite E0. cbv zeta in M1, M2, P0.
    set (h1 := fst (make x00 h 0 _)) in *. set (s1 := snd (make x00 h 0 _)) in *.
    destruct (rho_B_slice_ok grow (sr_Parties s) (sr_ids s) r0 (ap_ok _ _ _ _ P0)) as [(B & r & E1 & E2 & Q & EL)|(w & E1 & E2)].
    - rewrite (E1 []), E2. cbn [obind app]. pose proof (appended_trans _ _ _ _ _ _ M1 P0 Q) as P.
      pose proof (rho_loop_ok (sr_Message s) B (snd r) (sr_ids s) (fst r) (sr_Parties s) (ap_ok _ _ _ _ P)) as W.
      match type of W with ?X -> _ => assert X as HP end.
      { exists (id_bytes (sr_self s)). split; [reflexivity|]. rewrite (ap_contents _ _ _ _ P), M2. cbn [app]. now rewrite <- !app_assoc. }
      specialize (W HP). destruct (ofold _ _ (sr_ids s)) as [ps'|e|w]; [|contradiction|destruct (rho_loop _ _ _ _); auto]. destruct (rho_loop _ _ _ _) as [r2|e'|w']; auto. destruct W as (W1 & W2 & W3). split; [exact W1|]. split.
      + intros t T. destruct (Nat.eq_dec (sl_len t) 0) as [Z|Z]; [now rewrite !contents_empty|].
        assert (sl_arr t < List.length h) as LT by (apply ok_bound; [auto|destruct T; lia]). pose proof (make_keeps x00 h 0 (Z.to_nat (12 + 2 + 64 + u16 (N_ids (sr_ids s) * 66))) t T) as T1. fold h1 in T1.
        assert (List.length h1 = S (List.length h)) as HL1 by (unfold h1, make; cbn [fst]; rewrite app_length; cbn; lia).
        rewrite W3; [|eapply appended_keeps; eauto|].
        * rewrite (ap_others _ _ _ _ P); auto; [exact (make_others x00 h 0 _ t T)|]. left. unfold s1. cbn. lia.
        * destruct (ap_where _ _ _ _ P) as [E|(_ & E & _)]; [rewrite E; unfold s1; cbn; lia|lia].
      + intros HO. cbv zeta. assert (List.length h1 = S (List.length h)) as HL1 by (unfold h1, make; cbn [fst]; rewrite app_length; cbn; lia).
        assert (sl_cap s1 = Z.to_nat (78 + u16 (N_ids (sr_ids s) * 66))) as CC by reflexivity.
        assert (List.length ((hashDomainSeparation ++ id_bytes (sr_self s) ++ sha512 (sr_Message s)) ++ B) = 78 + 66 * List.length (sr_ids s)) as TL.
        { rewrite (app_length _ B), EL. rewrite !app_length, HO. reflexivity. }
        assert (sl_len s1 = 0) as SL by reflexivity. split; intros K.
        * rewrite W2. rewrite (proj1 (ap_fits _ _ _ _ P ltac:(rewrite SL, TL, CC; lia))). exact HL1.
        * rewrite W2. destruct (ap_where _ _ _ _ P) as [E|(E3 & E4 & E5)].
          -- exfalso. pose proof (ap_ok _ _ _ _ P) as [OK1 _]. rewrite E in OK1. cbn [sl_len sl_cap] in OK1. rewrite SL, TL, CC in OK1. lia.
          -- pose proof (ok_bound _ _ (ap_ok _ _ _ _ P)) as OB. destruct (ap_ok _ _ _ _ P) as [OK1 _]. specialize (OB ltac:(lia)). lia.
    - rewrite (E1 []), E2. reflexivity.
  Qed.

  (** With the shared buffer, whatever capacity it has and however it grows: the binding factors of the functional model. *)
  Theorem C61_rhos : forall grow h s,
    match computeRhos s, computeRhos_slice grow h s with
    | Ret ps, Ret r => snd r = ps /\ forall t, slice_ok h t -> contents (fst r) t = contents h t
    | Panics w, Panics w' => w = w'
    | _, _ => False
    end.
  Proof.
    intros grow h s. pose proof (rhos_full grow h s) as P. destruct (computeRhos s) as [ps|e|w], (computeRhos_slice grow h s) as [r|e'|w']; auto. destruct P as (P1 & P2 & _). auto.
  Qed.
  (** The buffer is allocated once for up to 992 signers; from 993 on the uint16 product of its size wraps around and the buffer has to grow. *)
  Theorem C61_rhos_buffer : hash_ok Hf -> forall grow h s r, computeRhos_slice grow h s = Ret r -> (Z.of_nat (List.length (sr_ids s)) < 65536)%Z ->
    (List.length (fst r) = S (List.length h) <-> List.length (sr_ids s) <= 992).
  Proof.
    intros HO grow h s r E HN. pose proof (rhos_full grow h s) as P. rewrite E in P. destruct (computeRhos s) as [ps|e|w]; try contradiction. destruct P as (_ & _ & P). specialize (P HO). cbv zeta in P. destruct P as [P1 P2].
    set (n := List.length (sr_ids s)) in *. unfold N_ids, u16 in P1, P2. fold n in P1, P2. rewrite (Z.mod_small (Z.of_nat n) 65536) in P1, P2 by lia.
    destruct (Nat.le_gt_cases n 992) as [K|K].
    - rewrite Z.mod_small in P1 by lia. split; auto. intros _. apply P1. lia.
    - pose proof (Z.mod_pos_bound (Z.of_nat n * 66) 65536 ltac:(lia)). split; [|lia]. intros X. exfalso. specialize (P2 ltac:(lia)). lia.
  Qed.
End Rhos.

(** * h.Sum and shared memory *)
Section Shared.
  Context `{L : group_laws} `{Hf : hash_fn}.
  Notation arrs := (arrays byte).

  (** schnorr.go:86-88: the 64 zero bytes stay in front of the digest. *)
  Theorem C61_sum : forall grow (h : arrs) msg, let r := challenge_Sum grow h (sha512 msg) in
    contents (fst r) (snd r) = hash_Sum (repeat x00 64) msg /\ (hash_ok Hf -> sl_len (snd r) = 128).
  Proof.
    intros grow h msg r. destruct (make_ok x00 h 64 64 ltac:(lia)) as [M1 M2]. pose proof (append_ok x00 grow _ _ (sha512 msg) M1) as P.
    change (append x00 grow _ _ _) with r in P. split; [rewrite (ap_contents _ _ _ _ P), M2; reflexivity|]. intros HO. rewrite (ap_len _ _ _ _ P), HO. reflexivity.
  Qed.

  (** Two messages appended to one and the same slice: with room behind it the first result is overwritten by the second; without any room
      each result has its own memory. *)
  Theorem C61_shared : forall grow (h : arrs) s m1 m2 b1 b2, slice_ok h s -> msg_MarshalBinary m1 = Ret b1 -> msg_MarshalBinary m2 = Ret b2 ->
    exists r1 r2, msg_BytesAppend grow h s m1 = Ret r1 /\ msg_BytesAppend grow (fst r1) s m2 = Ret r2 /\
      contents (fst r2) (snd r2) = contents h s ++ b2 /\
      (sl_len s = sl_cap s -> contents (fst r2) (snd r1) = contents h s ++ b1) /\
      (sl_len s + List.length b1 <= sl_cap s -> List.length b2 = List.length b1 -> contents (fst r2) (snd r1) = contents h s ++ b2).
  Proof.
    intros grow h s m1 m2 b1 b2 O E1 E2. pose proof (C61_message grow h s m1 O) as P1. rewrite E1 in P1. destruct (msg_BytesAppend grow h s m1) as [r1|e|w]; try contradiction. cbn [appends_bytes] in P1.
    assert (slice_ok (fst r1) s) as O1 by (eapply appended_keeps; eauto). pose proof (C61_message grow (fst r1) s m2 O1) as P2. rewrite E2 in P2. destruct (msg_BytesAppend grow (fst r1) s m2) as [r2|e|w] eqn:E3; try contradiction. cbn [appends_bytes] in P2.
    exists r1, r2. split; [reflexivity|]. split; [exact E3|].
    assert (contents (fst r1) s = contents h s) as ES by (apply (ap_others _ _ _ _ P1); [auto|right; left; lia]).
    split; [rewrite (ap_contents _ _ _ _ P2); congruence|]. split.
    - intros F. rewrite <- (ap_contents _ _ _ _ P1). destruct (ap_where _ _ _ _ P1) as [W|(W1 & W2 & W3)].
      + apply (ap_others _ _ _ _ P2); [exact (ap_ok _ _ _ _ P1)|]. pose proof (ap_ok _ _ _ _ P1) as [K _]. rewrite W in K |- *. cbn [sl_len sl_cap] in K. right. left. cbn [sl_off sl_len]. lia.
      + apply (ap_others _ _ _ _ P2); [exact (ap_ok _ _ _ _ P1)|]. destruct (Nat.lt_ge_cases (sl_arr s) (List.length h)) as [Z|Z]; [left; lia|].
        right. right. destruct O as [OO1 OO2]. rewrite array_none in OO2 by auto. cbn in OO2. lia.
    - intros F1 F2. destruct (ap_fits _ _ _ _ P1 F1) as [_ S1]. destruct (ap_fits _ _ _ _ P2 ltac:(lia)) as [_ S2]. rewrite F2 in S2. rewrite S1, <- S2. rewrite (ap_contents _ _ _ _ P2). congruence.
  Qed.
End Shared.

(** * Concrete cases *)
(** A slice of three of the five bytes of an array: the next two bytes fit, the third does not. *)
Definition ex_h : arrays byte := [[x01; x02; x03; x04; x05]].
Definition ex_s : slice := mkSlice 0 0 3 5.
Example C61_example_append : slice_ok ex_h ex_s /\
  (let r := bappends (fun n => n) ex_h ex_s [[xaa]; [xbb]] in (contents (fst r) (snd r), List.length (fst r), contents (fst r) (mkSlice 0 0 5 5))) =
    ([x01; x02; x03; xaa; xbb], 1, [x01; x02; x03; xaa; xbb]) /\
  (let r := bappends (fun n => n) ex_h ex_s [[xaa]; [xbb; xcc]] in (contents (fst r) (snd r), List.length (fst r), sl_cap (snd r), contents (fst r) ex_s)) =
    ([x01; x02; x03; xaa; xbb; xcc], 2, 12, [x01; x02; x03]).
Proof. split; [split; cbn; lia|]. split; reflexivity. Qed.

(** Two messages behind a prefix of one byte: with 100 bytes of room the first result turns into the second, without room it does not. *)
Definition ex_two (room : nat) : bool * bool :=
  let h := [x07 :: repeat x00 room] in let s := mkSlice 0 0 1 (1 + room) in
  let m1 := @NewSign2 toy_group 5 (qof 6) in let m2 := @NewSign2 toy_group 5 (qof 9) in
  match @msg_BytesAppend toy_group (fun n => n) h s m1 with
  | Ret r1 => match @msg_BytesAppend toy_group (fun n => n) (fst r1) s m2, @msg_MarshalBinary toy_group m1, @msg_MarshalBinary toy_group m2 with
      | Ret r2, Ret b1, Ret b2 => (bytes_eqb (contents (fst r2) (snd r1)) (x07 :: b1), bytes_eqb (contents (fst r2) (snd r1)) (x07 :: b2))
      | _, _, _ => (false, false)
      end
  | _ => (false, false)
  end.
Example C61_example_shared : ex_two 100 = (false, true) /\ ex_two 0 = (true, false).
Proof. split; vm_compute; reflexivity. Qed.

Example C61_example_check : @check_message toy_group (fun n => n) [] ex_k1 (@NewSign2 toy_group 5 (qof 6)) = Ret tt /\
  match @check_message toy_group (fun n => n) [] (@mkMessage toy_group (mkHeader 4 5 0) None None None None) (@zero_message toy_group) with Fail e => e | _ => EmptyString end =
    "message does not contain any data"%string.
Proof. split; vm_compute; reflexivity. Qed.

(** The queue 1, 5, 2, 6, 7 where the small numbers are due, in an array with something behind it. *)
Example C61_example_queue :
  match filter_queue 0%Z (fun x => Z.ltb x 4) (fun n => n) [[1; 5; 2; 6; 7; 99]%Z] (mkSlice 0 0 5 6) with
  | Some (h, q, taken) => (h, contents h q, taken)
  | None => ([], [], [])
  end = ([[5; 6; 7; 6; 7; 99]%Z], [5; 6; 7]%Z, [1; 2]%Z).
Proof. reflexivity. Qed.

Example C61_example_ids : let r := ids_New [[9; 300; 4; 7]%Z] (mkSlice 0 1 3 3) in (fst r, contents (fst r) (snd r)) = ([[9; 300; 4; 7]; [4; 7; 300]]%Z, [4; 7; 300]%Z).
Proof. reflexivity. Qed.

(** Two signers: the buffer of 210 bytes is allocated once. *)
Definition ex_signers : gmap ID (@signer toy_group) := <[3%Z := @mkSigner toy_group f0 (qof 4) (qof 5) f0 f0 f0]> (<[8%Z := @mkSigner toy_group f0 (qof 6) (qof 7) f0 f0 f0]> ∅).
Example C61_example_rhos :
  match @rho_B_slice toy_group (fun n => n) (@rho_header toy_hash (fun n => n) [] 3 2 [x61]) ex_signers [3; 8]%Z with
  | Ret r => (List.length (fst r), sl_len (snd r), sl_cap (snd r))
  | _ => (0, 0, 0)
  end = (1, 210, 210).
Proof. vm_compute. reflexivity. Qed.

Print Assumptions C61_append.
Print Assumptions C61_message.
Print Assumptions C61_marshal.
Print Assumptions C61_marshal_any.
Print Assumptions C61_marshal_parts.
Print Assumptions C61_checker.
Print Assumptions C61_checker_signature.
Print Assumptions C61_checker_sound.
Print Assumptions C61_queue.
Print Assumptions C61_queue_state.
Print Assumptions C61_ids.
Print Assumptions C61_rhos.
Print Assumptions C61_rhos_buffer.
Print Assumptions C61_sum.
Print Assumptions C61_shared.
Print Assumptions C61_size.
