(** The heap model: what each call can change, and simulation of the model with values. *)
From Coq Require Import ZArith Lia List Bool String.
From stdpp Require Import base gmap list fin_maps.
From Verif Require Import ZField Primes Bytes Scalar Go Group Party Poly Zk Eddsa Messages State StateFacts Keygen Heap.
Import ListNotations.
Local Open Scope Z_scope.

Section HeapFacts.
  Context `{Gr : group_ops} `{Hf : hash_fn}.

  Local Arguments rd_exp : simpl never.
  Local Arguments wr_exp : simpl never.
  Local Arguments rd_share : simpl never.
  Local Arguments wr_share : simpl never.

  Definition le (h : heap) : nat := List.length (h_exp h).
  Definition ls (h : heap) : nat := List.length (h_share h).

  Lemma rd_wr_exp_same h p e : (p < le h)%nat -> rd_exp (wr_exp h p e) p = e.
  Proof. intros H. unfold rd_exp, wr_exp. cbn. apply nth_lookup_Some. now apply list_lookup_insert. Qed.
  Lemma rd_wr_exp_other h p q e : p <> q -> rd_exp (wr_exp h p e) q = rd_exp h q.
  Proof. intros H. unfold rd_exp, wr_exp. cbn. rewrite !nth_lookup. now rewrite list_lookup_insert_ne. Qed.
  Lemma rd_wr_share_other h p q e : p <> q -> rd_share (wr_share h p e) q = rd_share h q.
  Proof. intros H. unfold rd_share, wr_share. cbn. rewrite !nth_lookup. now rewrite list_lookup_insert_ne. Qed.
  Lemma rd_wr_exp_share h p e q : rd_share (wr_exp h p e) q = rd_share h q. Proof. reflexivity. Qed.
  Lemma rd_wr_share_exp h p e q : rd_exp (wr_share h p e) q = rd_exp h q. Proof. reflexivity. Qed.
  Lemma le_wr_exp h p e : le (wr_exp h p e) = le h. Proof. apply insert_length. Qed.
  Lemma ls_wr_share h p e : ls (wr_share h p e) = ls h. Proof. apply insert_length. Qed.
  Lemma rd_exp_app l l' s s' q : (q < List.length l)%nat -> rd_exp (mkHeap (l ++ l') s) q = rd_exp (mkHeap l s') q.
  Proof. intros H. unfold rd_exp. cbn. now rewrite app_nth1. Qed.
  Lemma rd_share_app l l' s s' q : (q < List.length s)%nat -> rd_share (mkHeap l (s ++ s')) q = rd_share (mkHeap l' s) q.
  Proof. intros H. unfold rd_share. cbn. now rewrite app_nth1. Qed.

  (** ** Reset *)
  Lemma exp_reset_idem p : exp_reset (exp_reset p) = exp_reset p.
  Proof. unfold exp_reset. now rewrite map_map. Qed.
  Lemma reset_exp_rd h p q : rd_exp (reset_exp h p) q = if Nat.eqb p q then exp_reset (rd_exp h q) else rd_exp h q.
  Proof.
    unfold reset_exp. destruct (Nat.eqb_spec p q) as [->|D]; [|now apply rd_wr_exp_other].
    destruct (Nat.lt_ge_cases q (le h)) as [L|L]; [now apply rd_wr_exp_same|].
    unfold rd_exp at 1, wr_exp. cbn. rewrite nth_overflow; [|rewrite insert_length; exact L]. unfold rd_exp. now rewrite nth_overflow.
  Qed.
  Lemma reset_all l : forall h, le (fold_left reset_exp l h) = le h /\ h_share (fold_left reset_exp l h) = h_share h /\
    forall q, (In q l -> rd_exp (fold_left reset_exp l h) q = exp_reset (rd_exp h q)) /\ (~ In q l -> rd_exp (fold_left reset_exp l h) q = rd_exp h q).
  Proof.
    induction l as [|p l IH]; intros h; cbn [fold_left].
    - refine (conj eq_refl (conj eq_refl _)). intros q. split; [intros []|reflexivity].
    - destruct (IH (reset_exp h p)) as (L & Sh & R). refine (conj _ (conj _ _)).
      + rewrite L. apply le_wr_exp.
      + now rewrite Sh.
      + intros q. destruct (R q) as [R1 R2]. rewrite reset_exp_rd in R1, R2. destruct (in_dec Nat.eq_dec q l) as [I|I].
        * split; [|intros N; destruct N; now right]. intros _. rewrite (R1 I). destruct (Nat.eqb p q); [apply exp_reset_idem|reflexivity].
        * rewrite (R2 I). destruct (Nat.eqb_spec p q) as [->|D]; split; auto.
          -- intros N. destruct N. now left.
          -- intros [->|I']; [congruence|now apply I in I'].
  Qed.

  (** ** Messages allocated *)
  Definition msg_in (h : heap) (m : hmsg) : Prop :=
    (forall pr q, hm_K1 m = Some (pr, q) -> (q < le h)%nat) /\ (forall q, hm_K2 m = Some q -> (q < ls h)%nat).
  Lemma deref_eq h h' m : (forall pr q, hm_K1 m = Some (pr, q) -> rd_exp h' q = rd_exp h q) -> (forall q, hm_K2 m = Some q -> rd_share h' q = rd_share h q) -> deref h' m = deref h m.
  Proof.
    intros A B. unfold deref. f_equal.
    - destruct (hm_K1 m) as [[pr q]|] eqn:E; [|reflexivity]. cbn. now rewrite (A pr q).
    - destruct (hm_K2 m) as [q|] eqn:E; [|reflexivity]. cbn. now rewrite (B q).
  Qed.
  (** [h'] extends [h]. *)
  Definition ext (h h' : heap) : Prop :=
    (le h <= le h')%nat /\ (ls h <= ls h')%nat /\ (forall q, (q < le h)%nat -> rd_exp h' q = rd_exp h q) /\ (forall q, (q < ls h)%nat -> rd_share h' q = rd_share h q).
  Lemma ext_refl h : ext h h. Proof. repeat split; auto. Qed.
  Lemma ext_trans a b c : ext a b -> ext b c -> ext a c.
  Proof.
    intros (A1 & A2 & A3 & A4) (B1 & B2 & B3 & B4). refine (conj _ (conj _ (conj _ _))); [lia|lia| |]; intros q Hq.
    - rewrite B3 by lia. auto.
    - rewrite B4 by lia. auto.
  Qed.
  Lemma ext_deref h h' m : ext h h' -> msg_in h m -> deref h' m = deref h m.
  Proof. intros (_ & _ & A & B) (C & D). apply deref_eq; eauto. Qed.
  Lemma ext_msg_in h h' m : ext h h' -> msg_in h m -> msg_in h' m.
  Proof. intros (A & B & _) (C & D). split; [intros pr q E; apply C in E|intros q E; apply D in E]; lia. Qed.

  Lemma alloc_ok h m h' p : alloc h m = (h', p) -> ext h h' /\ deref h' p = m /\ msg_in h' p /\ hm_Header p = m_Header m /\
    (forall pr q, hm_K1 p = Some (pr, q) -> (le h <= q)%nat /\ m_KeyGen1 m <> None) /\ (forall q, hm_K2 p = Some q -> (ls h <= q)%nat).
  Proof.
    unfold alloc. intros [= <- <-]. destruct m as [hd k1 k2 s1 s2]. cbn [m_KeyGen1 m_KeyGen2 m_Header m_Sign1 m_Sign2].
    assert (E : ext h {| h_exp := match k1 with Some b => h_exp h ++ [k1_Commitments b] | None => h_exp h end;
      h_share := match k2 with Some b => h_share h ++ [k2_Share b] | None => h_share h end |}).
    { unfold ext, le, ls. cbn. destruct h as [he hs]. cbn. refine (conj _ (conj _ (conj _ _))).
      - destruct k1; rewrite ?app_length; lia.
      - destruct k2; rewrite ?app_length; lia.
      - intros q Hq. unfold rd_exp; cbn; destruct k1; [now rewrite app_nth1|reflexivity].
      - intros q Hq. unfold rd_share; cbn; destruct k2; [now rewrite app_nth1|reflexivity]. }
    refine (conj E (conj _ (conj _ (conj eq_refl _)))).
    - unfold deref. cbn. f_equal.
      + destruct k1 as [[pf c]|]; [|reflexivity]. cbn. unfold rd_exp. cbn. rewrite app_nth2 by lia. now rewrite Nat.sub_diag.
      + destruct k2 as [[sh]|]; [|reflexivity]. cbn. unfold rd_share. cbn. rewrite app_nth2 by lia. now rewrite Nat.sub_diag.
    - split; cbn.
      + intros pr q. destruct k1; [|discriminate]. intros [= <- <-]. unfold le. cbn. rewrite app_length. cbn. lia.
      + intros q. destruct k2; [|discriminate]. intros [= <-]. unfold ls. cbn. rewrite app_length. cbn. lia.
    - split; cbn.
      + intros pr q. destruct k1; [|discriminate]. intros [= <- <-]. split; [unfold le; lia|discriminate].
      + intros q. destruct k2; [|discriminate]. intros [= <-]. unfold ls. lia.
  Qed.
  Lemma alloc_all_ok ms : forall h h' ps, alloc_all h ms = (h', ps) -> ext h h' /\ map (deref h') ps = ms /\
    forall p, In p ps -> msg_in h' p /\ (forall pr q, hm_K1 p = Some (pr, q) -> (le h <= q)%nat /\ exists m, In m ms /\ m_KeyGen1 m <> None) /\ (forall q, hm_K2 p = Some q -> (ls h <= q)%nat).
  Proof.
    induction ms as [|m ms IH]; intros h h' ps; cbn [alloc_all].
    - intros [= <- <-]. refine (conj (ext_refl h) (conj eq_refl _)). intros p [].
    - destruct (alloc h m) as [h1 p1] eqn:E1. destruct (alloc_all h1 ms) as [h2 ps2] eqn:E2. intros [= <- <-].
      destruct (alloc_ok _ _ _ _ E1) as (X1 & D1 & I1 & _ & K1 & S1). destruct (IH _ _ _ E2) as (X2 & D2 & R2).
      refine (conj (ext_trans _ _ _ X1 X2) (conj _ _)).
      + cbn [map]. now rewrite (ext_deref _ _ _ X2 I1), D1, D2.
      + intros p [<-|Hp].
        * refine (conj (ext_msg_in _ _ _ X2 I1) (conj _ S1)). intros pr q E. destruct (K1 _ _ E) as [A B]. split; auto. exists m. split; [now left|auto].
        * destruct (R2 p Hp) as (A & B & C). destruct X1 as (L1 & L2 & _). refine (conj A (conj _ _)).
          -- intros pr q E. destruct (B _ _ E) as (B1 & m' & B2 & B3). split; [lia|]. exists m'. split; [now right|auto].
          -- intros q E. apply C in E. lia.
  Qed.

  (** ** Rounds *)
  Definition kwf (h : heap) (k : hkround) : Prop :=
    (forall p, hk_csum k = Some p -> (p < le h)%nat) /\ (forall id q, hk_comms k !! id = Some q -> (q < le h)%nat /\ hk_csum k <> Some q).
  Lemma abs_round_eq h h' k : (forall p, hk_csum k = Some p -> rd_exp h' p = rd_exp h p) -> (forall id q, hk_comms k !! id = Some q -> rd_exp h' q = rd_exp h q) -> abs_round h' k = abs_round h k.
  Proof.
    intros A B. unfold abs_round. f_equal.
    - destruct (hk_csum k) as [p|]; [|reflexivity]. cbn. now rewrite (A p).
    - apply map_eq. intros i. rewrite !lookup_fmap. destruct (hk_comms k !! i) as [q|] eqn:E; [|reflexivity]. cbn. now rewrite (B i q).
  Qed.
  (** A round with the fields of [k'] and unchanged pointers. *)
  Lemma abs_mk h k k' : kr_CommitmentsSum k' = kr_CommitmentsSum (abs_round h k) -> kr_Commitments k' = kr_Commitments (abs_round h k) -> abs_round h (mkHk k' (hk_csum k) (hk_comms k)) = k'.
  Proof. intros A B. unfold abs_round in *. cbn in *. rewrite <- A, <- B. now destruct k'. Qed.
  Lemma abs_any h k' cs cm : (rd_exp h <$> cs) = kr_CommitmentsSum k' -> (rd_exp h <$> cm) = kr_Commitments k' -> abs_round h (mkHk k' cs cm) = k'.
  Proof. intros A B. unfold abs_round. cbn [hk_rest hk_csum hk_comms]. rewrite A, B. now destruct k'. Qed.
  Lemma abs_mk_no h k n : abs_round h (mkHk (kg_set_no (hk_rest k) n) (hk_csum k) (hk_comms k)) = kg_set_no (abs_round h k) n.
  Proof. reflexivity. Qed.

  Definition rec_in (rec : gmap ID (option hmsg)) (id : ID) (m : hmsg) : Prop := rec !! id = Some (Some m).

  (** What ProcessMessage does to the heap. *)
  Definition proc_post (m : option hmsg) (h : heap) (k : hkround) (h' : heap) (k' : hkround) : Prop :=
    le h' = le h /\ ls h' = ls h /\ hk_csum k' = hk_csum k /\ hk_no k' = hk_no k /\
    (forall q, hk_csum k <> Some q -> rd_exp h' q = rd_exp h q) /\
    (forall q, (forall msg, m = Some msg -> hm_K2 msg <> Some q) -> rd_share h' q = rd_share h q) /\
    ((hk_no k < 2)%nat -> h_share h' = h_share h) /\
    (forall id q, hk_comms k' !! id = Some q -> hk_comms k !! id = Some q \/ exists msg pr, m = Some msg /\ hm_K1 msg = Some (pr, q)).
  Lemma proc_post_refl m h k r : kr_no r = hk_no k -> proc_post m h k h (mkHk r (hk_csum k) (hk_comms k)).
  Proof. intros N. unfold proc_post. cbn. unfold hk_no in *. cbn. repeat (split; [auto; fail|]). auto. Qed.

  Lemma kg1_shape k m r : kg1_process k m = r ->
    match r with
    | ROk k' _ => exists msg b c c', m = Some msg /\ m_KeyGen1 msg = Some b /\ kr_CommitmentsSum k = Some c /\ kr_CommitmentsSum k' = Some c' /\
        kr_Commitments k' = <[m_From msg := k1_Commitments b]> (kr_Commitments k) /\ kr_no k' = kr_no k
    | RErr k' _ _ => k' = k
    | RPanic _ => True
    end.
  Proof.
    intros <-. unfold kg1_process. destruct m as [msg|]; [|exact I]. destruct (m_KeyGen1 msg) as [b|] eqn:EB; [|exact I].
    destruct (exp_constant _) as [pub|?|?]; [|exact I|exact I]. cbn [lift_r]. destruct (zk_Verify _ _ _ _) as [ok|?|?]; [|exact I|exact I]. cbn [lift_r].
    destruct ok; cbn [negb]; [|reflexivity]. destruct (kr_CommitmentsSum k) as [c|] eqn:EC; [|exact I].
    exists msg, b, c. eexists. cbn. auto 10.
  Qed.
  Lemma kg2_shape k m r : kg2_process k m = r ->
    match r with
    | ROk k' _ => exists msg b, m = Some msg /\ m_KeyGen2 msg = Some b /\ kr_CommitmentsSum k' = kr_CommitmentsSum k /\ kr_Commitments k' = kr_Commitments k /\ kr_no k' = kr_no k
    | RErr k' _ _ => k' = k
    | RPanic _ => True
    end.
  Proof.
    intros <-. unfold kg2_process. destruct m as [msg|]; [|exact I]. destruct (m_KeyGen2 msg) as [b|] eqn:EB; [|exact I].
    destruct (kr_Commitments k !! m_From msg) as [c|]; [|exact I].
    destruct (id_scalar _) as [x|?|?]; [|exact I|exact I]. cbn [lift_r]. destruct (exp_eval _ _) as [e|?|?]; [|exact I|exact I]. cbn [lift_r].
    destruct (geqb _ _); cbn [negb]; [|reflexivity]. exists msg, b. cbn. auto 10.
  Qed.

  (** One message: the effect, and the result is the one of Keygen.v. *)
  Lemma hk_process_ok h k m : kwf h k ->
    (forall msg, m = Some msg -> forall pr q, hm_K1 msg = Some (pr, q) -> (q < le h)%nat /\ hk_csum k <> Some q) ->
    match hk_process h k m with
    | ROk (h', k') _ => r_process keygen_round (abs_round h k) (option_map (deref h) m) = ROk (abs_round h' k') tt /\ proc_post m h k h' k'
    | RErr (h', k') c t => r_process keygen_round (abs_round h k) (option_map (deref h) m) = RErr (abs_round h' k') c t /\ proc_post m h k h' k'
    | RPanic w => r_process keygen_round (abs_round h k) (option_map (deref h) m) = RPanic w
    end.
  Proof.
    intros [W1 W2] HM. unfold hk_process. cbn [r_process keygen_round]. change (kr_no (abs_round h k)) with (hk_no k).
    destruct (hk_no k) as [|[|n]] eqn:EN.
    - split; [reflexivity|]. destruct k as [r c cm]. apply (proc_post_refl m h (mkHk r c cm) r eq_refl).
    - unfold hkg1_process. pose proof (kg1_shape (abs_round h k) (option_map (deref h) m) _ eq_refl) as SH.
      destruct (kg1_process (abs_round h k) (option_map (deref h) m)) as [k' []|k' c t|w] eqn:EK.
      + destruct SH as (msg & b & c & c' & E1 & E2 & E3 & E4 & E5 & E6). destruct m as [msg0|]; [|discriminate]. cbn in E1. injection E1 as <-.
        cbn in E3. destruct (hk_csum k) as [p|] eqn:EP; [|discriminate]. cbn in E2. destruct (hm_K1 msg0) as [[pr q]|] eqn:EQ; [|discriminate].
        destruct (HM msg0 eq_refl pr q EQ) as [Q1 Q2]. assert (P1 := W1 p eq_refl). cbn in E2. injection E2 as <-. cbn in E5. rewrite E4. cbn [default].
        split.
        * f_equal. unfold abs_round. cbn. rewrite rd_wr_exp_same by exact P1.
          assert ((rd_exp (wr_exp h p c') <$> <[h_From (hm_Header msg0):=q]> (hk_comms k)) = kr_Commitments k') as ->.
          { rewrite E5. rewrite fmap_insert. rewrite rd_wr_exp_other by congruence. unfold m_From. cbn. f_equal. apply map_eq. intros i. rewrite !lookup_fmap.
            destruct (hk_comms k !! i) as [q'|] eqn:EI; [|reflexivity]. cbn. destruct (W2 i q' EI) as [_ D]. rewrite rd_wr_exp_other by congruence. reflexivity. }
          rewrite <- E4. now destruct k'.
        * unfold proc_post. rewrite EP. cbn [hk_csum hk_comms]. refine (conj (le_wr_exp _ _ _) (conj eq_refl (conj eq_refl (conj _ (conj _ (conj _ (conj _ _))))))).
          -- unfold hk_no. cbn. rewrite E6. reflexivity.
          -- intros q' D. apply rd_wr_exp_other. congruence.
          -- reflexivity.
          -- reflexivity.
          -- intros id q'. destruct (decide (id = h_From (hm_Header msg0))) as [->|D].
             ++ rewrite lookup_insert. intros [= <-]. right. eauto.
             ++ rewrite lookup_insert_ne by congruence. auto.
      + subst k'. split; [|apply proc_post_refl; reflexivity]. f_equal; symmetry; now apply abs_mk.
      + reflexivity.
    - unfold hkg2_process. pose proof (kg2_shape (abs_round h k) (option_map (deref h) m) _ eq_refl) as SH.
      destruct (kg2_process (abs_round h k) (option_map (deref h) m)) as [k' []|k' c t|w] eqn:EK.
      + destruct SH as (msg & b & E1 & E2 & E3 & E4 & E5). destruct m as [msg0|]; [|discriminate]. cbn in E1. injection E1 as <-.
        cbn in E2. destruct (hm_K2 msg0) as [q|] eqn:EQ; [|discriminate]. split.
        * f_equal. symmetry. change (abs_round (wr_share h q f0)) with (abs_round h). now apply abs_mk.
        * unfold proc_post. cbn [hk_csum hk_comms]. refine (conj eq_refl (conj (ls_wr_share _ _ _) (conj eq_refl (conj E5 (conj _ (conj _ (conj _ _))))))).
          -- reflexivity.
          -- intros q' H. apply rd_wr_share_other. intros ->. now apply (H msg0).
          -- rewrite EN. lia.
          -- auto.
      + subst k'. split; [|apply proc_post_refl; reflexivity]. f_equal; symmetry; now apply abs_mk.
      + reflexivity.
  Qed.

  (** ** All messages of a round *)
  Definition rec_wf (h : heap) (csum : option nat) (rec : gmap ID (option hmsg)) : Prop :=
    forall id m, rec !! id = Some (Some m) -> h_From (hm_Header m) = id /\ msg_in h m /\ (forall pr q, hm_K1 m = Some (pr, q) -> csum <> Some q).
  Definition shares_ok (rec : gmap ID (option hmsg)) : Prop :=
    forall id m id' m' q, rec !! id = Some (Some m) -> rec !! id' = Some (Some m') -> hm_K2 m = Some q -> hm_K2 m' = Some q -> id = id'.
  Definition loop_post (rec : gmap ID (option hmsg)) (h : heap) (k : hkround) (h' : heap) (k' : hkround) : Prop :=
    le h' = le h /\ ls h' = ls h /\ hk_csum k' = hk_csum k /\ hk_no k' = hk_no k /\
    (forall q, hk_csum k <> Some q -> rd_exp h' q = rd_exp h q) /\
    (forall q, (forall id msg, rec !! id = Some (Some msg) -> hm_K2 msg <> Some q) -> rd_share h' q = rd_share h q) /\
    ((hk_no k < 2)%nat -> h_share h' = h_share h) /\
    (forall id q, hk_comms k' !! id = Some q -> hk_comms k !! id = Some q \/ exists id' msg pr, rec !! id' = Some (Some msg) /\ hm_K1 msg = Some (pr, q)).
  Lemma default_rec (rec : gmap ID (option hmsg)) id m : default None (rec !! id) = Some m -> rec !! id = Some (Some m).
  Proof. destruct (rec !! id); cbn; congruence. Qed.
  Lemma loop_one rec id h k h' k' : proc_post (default None (rec !! id)) h k h' k' -> loop_post rec h k h' k'.
  Proof.
    intros (A1 & A2 & A3 & A4 & A5 & A6 & A7 & A8). refine (conj A1 (conj A2 (conj A3 (conj A4 (conj A5 (conj _ (conj A7 _))))))).
    - intros q H. apply A6. intros msg E. apply default_rec in E. exact (H _ _ E).
    - intros i q E. destruct (A8 i q E) as [B|(msg & pr & B & C)]; [now left|]. apply default_rec in B. right. eauto.
  Qed.
  Lemma loop_trans rec h k h1 k1 h2 k2 : loop_post rec h k h1 k1 -> loop_post rec h1 k1 h2 k2 -> loop_post rec h k h2 k2.
  Proof.
    intros (A1 & A2 & A3 & A4 & A5 & A6 & A7 & A8) (B1 & B2 & B3 & B4 & B5 & B6 & B7 & B8). rewrite A3 in B5. rewrite A4 in B7.
    refine (conj _ (conj _ (conj _ (conj _ (conj _ (conj _ (conj _ _))))))); try congruence.
    - intros q H. rewrite B5; auto.
    - intros q H. rewrite B6; auto.
    - intros H. rewrite B7; auto.
    - intros i q E. destruct (B8 i q E) as [F|F]; auto.
  Qed.
  Lemma post_kwf rec h k h' k' : loop_post rec h k h' k' -> kwf h k -> rec_wf h (hk_csum k) rec -> kwf h' k'.
  Proof.
    intros (A1 & A2 & A3 & A4 & A5 & A6 & A7 & A8) [W1 W2] RW. split; rewrite A1, A3; [exact W1|]. intros id q E.
    destruct (A8 id q E) as [F|(i & m & pr & F & K)]; [exact (W2 _ _ F)|]. destruct (RW _ _ F) as (_ & [M _] & N). split; eauto.
  Qed.
  Lemma post_rec_wf rec h k h' k' : loop_post rec h k h' k' -> rec_wf h (hk_csum k) rec -> rec_wf h' (hk_csum k') rec.
  Proof.
    intros (A1 & A2 & A3 & _) RW id m E. destruct (RW id m E) as (X & [M N] & Y). rewrite A3. refine (conj X (conj _ Y)). split.
    - intros pr q. rewrite A1. apply M.
    - intros q. rewrite A2. apply N.
  Qed.

  Lemma loop_ok rec ids : forall h k prec, kwf h k -> rec_wf h (hk_csum k) rec -> shares_ok rec -> List.NoDup ids ->
    (forall id, In id ids -> prec !! id = option_map (deref h) <$> rec !! id) ->
    match h_process_loop h k rec ids with
    | ROk (h', k') _ => process_loop keygen_round (abs_round h k) prec ids = ROk (abs_round h' k') tt /\ loop_post rec h k h' k'
    | RErr (h', k') c t => process_loop keygen_round (abs_round h k) prec ids = RErr (abs_round h' k') c t /\ loop_post rec h k h' k'
    | RPanic w => process_loop keygen_round (abs_round h k) prec ids = RPanic w
    end.
  Proof.
    induction ids as [|id ids IH]; intros h k prec KW RW SO ND HP; cbn [h_process_loop process_loop].
    - split; [reflexivity|]. unfold loop_post. repeat (split; [auto; fail|]). auto.
    - assert (E : default None (prec !! id) = option_map (deref h) (default None (rec !! id))).
      { rewrite HP by now left. now destruct (rec !! id). }
      rewrite E. inversion ND as [|? ? NI ND']; subst.
      pose proof (hk_process_ok h k (default None (rec !! id)) KW) as HK.
      assert (forall msg, default None (rec !! id) = Some msg -> forall pr q, hm_K1 msg = Some (pr, q) -> (q < le h)%nat /\ hk_csum k <> Some q) as P.
      { intros msg EM pr q EQ. apply default_rec in EM. destruct (RW _ _ EM) as (_ & [M _] & N). split; eauto. }
      specialize (HK P). destruct (hk_process h k (default None (rec !! id))) as [[h1 k1] []|[h1 k1] c t|w].
      + destruct HK as [HK1 HK2]. rewrite HK1. assert (LP := loop_one rec id _ _ _ _ HK2).
        specialize (IH h1 k1 prec (post_kwf _ _ _ _ _ LP KW RW) (post_rec_wf _ _ _ _ _ LP RW) SO ND').
        assert (forall id0, In id0 ids -> prec !! id0 = option_map (deref h1) <$> rec !! id0) as HP'.
        { intros i Hi. rewrite HP by now right. destruct (rec !! i) as [[m|]|] eqn:EI; cbn; [|reflexivity|reflexivity]. do 2 f_equal. symmetry. apply deref_eq.
          - intros pr q K. destruct HK2 as (_ & _ & _ & _ & A & _). apply A. destruct (RW _ _ EI) as (_ & _ & N). eauto.
          - intros q K. destruct HK2 as (_ & _ & _ & _ & _ & A & _). apply A. intros msg EM K'. apply default_rec in EM.
            assert (id = i) by exact (SO _ _ _ _ _ EM EI K' K). subst. contradiction. }
        specialize (IH HP'). destruct (h_process_loop h1 k1 rec ids) as [[h2 k2] []|[h2 k2] c t|w].
        * destruct IH as [I1 I2]. split; [exact I1|]. exact (loop_trans _ _ _ _ _ _ _ LP I2).
        * destruct IH as [I1 I2]. split; [exact I1|]. exact (loop_trans _ _ _ _ _ _ _ LP I2).
        * exact IH.
      + destruct HK as [HK1 HK2]. rewrite HK1. split; [reflexivity|]. exact (loop_one rec id _ _ _ _ HK2).
      + now rewrite HK.
  Qed.

  (** ** GenerateMessages *)
  (** The messages returned: their objects are new, or are the new CommitmentsSum. *)
  Definition gen_post (h : heap) (k : hkround) (h' : heap) (k' : hkround) (ms : list hmsg) : Prop :=
    ext h h' /\ hk_comms k' = hk_comms k /\ (hk_csum k' = hk_csum k \/ hk_csum k' = Some (le h) /\ (le h < le h')%nat) /\ hk_no k' = hk_no k /\
    forall m, In m ms -> msg_in h' m /\ (forall pr q, hm_K1 m = Some (pr, q) -> (le h <= q)%nat /\ hk_csum k' = Some q /\ hk_no k = O) /\ (forall q, hm_K2 m = Some q -> (ls h <= q)%nat).
  Lemma gen_refl h k r : kr_no r = hk_no k -> gen_post h k h (mkHk r (hk_csum k) (hk_comms k)) [].
  Proof. intros N. refine (conj (ext_refl h) (conj eq_refl (conj (or_introl eq_refl) (conj N _)))). intros m []. Qed.

  Lemma kg0_shape k r : kg0_generate k = r ->
    match r with
    | ROk k' ms => exists proof c, ms = [NewKeyGen1 (kr_self k) proof c] /\ kr_CommitmentsSum k' = Some c /\ kr_Commitments k' = kr_Commitments k /\ kr_no k' = kr_no k
    | RErr _ _ _ => False
    | RPanic _ => True
    end.
  Proof.
    intros <-. unfold kg0_generate. destruct (NewPolynomial _ _ _ _) as [poly|?|?]; [|exact I|exact I]. cbn [lift_r].
    destruct (exp_constant _) as [pub|?|?]; [|exact I|exact I]. cbn [lift_r]. destruct (NewSchnorrProof _ _ _ _ _) as [pf|?|?]; [|exact I|exact I]. cbn [lift_r].
    destruct (id_scalar _) as [x|?|?]; [|exact I|exact I]. cbn [lift_r]. destruct (poly_eval _ _) as [y|?|?]; [|exact I|exact I]. cbn [lift_r].
    exists pf. eexists. cbn. auto 10.
  Qed.
  Lemma kg1g_shape k r : kg1_generate k = r ->
    match r with
    | ROk k' ms => kr_CommitmentsSum k' = kr_CommitmentsSum k /\ kr_Commitments k' = kr_Commitments k /\ kr_no k' = kr_no k /\ forall m, In m ms -> m_KeyGen1 m = None
    | RErr _ _ _ => False
    | RPanic _ => True
    end.
  Proof.
    intros <-. unfold kg1_generate. destruct (kr_Polynomial k) as [poly|]; [|exact I].
    set (f := fun (acc : list Message) id => if id =? kr_self k then Ret acc else obind (id_scalar id) (fun x => obind (poly_eval poly x) (fun share => Ret (acc ++ [NewKeyGen2 (kr_self k) id share])))).
    assert (forall ids acc ms, (forall m, In m acc -> m_KeyGen1 m = None) -> ofold f acc ids = Ret ms -> forall m, In m ms -> m_KeyGen1 m = None) as K.
    { induction ids as [|i ids IH]; intros acc ms HA; cbn [ofold]; [intros [= <-]; exact HA|]. unfold f at 1. destruct (i =? kr_self k); cbn [obind]; [now apply IH|].
      destruct (id_scalar i); cbn [obind]; [|discriminate|discriminate]. destruct (poly_eval poly a); cbn [obind]; [|discriminate|discriminate].
      apply IH. intros m Hm. apply in_app_iff in Hm as [Hm|[<-|[]]]; [now apply HA|reflexivity]. }
    destruct (ofold f [] (kr_ids k)) as [ms|?|?] eqn:E; cbn [lift_r]; [|exact I|exact I]. cbn. refine (conj eq_refl (conj eq_refl (conj eq_refl _))).
    exact (K (kr_ids k) [] ms (fun m (H : In m []) => False_ind _ H) E).
  Qed.
  Lemma kg2g_shape k r : kg2_generate k = r ->
    match r with
    | ROk k' ms => kr_CommitmentsSum k' = kr_CommitmentsSum k /\ kr_Commitments k' = kr_Commitments k /\ kr_no k' = kr_no k /\ ms = []
    | RErr _ _ _ => False
    | RPanic _ => True
    end.
  Proof.
    intros <-. unfold kg2_generate. destruct (kr_CommitmentsSum k) as [c|] eqn:EC; [|exact I].
    destruct (ofold _ _ _) as [sh|?|?]; [|exact I|exact I]. cbn [lift_r]. destruct (exp_constant c) as [gk|?|?]; [|exact I|exact I]. cbn [lift_r].
    destruct (kr_outp k); [|exact I]. cbn. auto.
  Qed.

  Lemma hk_generate_ok h k sched : kwf h k ->
    match hk_generate h k with
    | ROk (h', k') ms => r_generate keygen_round sched (abs_round h k) = ROk (abs_round h' k') (map (deref h') ms) /\ gen_post h k h' k' ms
    | RErr _ _ _ => False
    | RPanic w => r_generate keygen_round sched (abs_round h k) = RPanic w
    end.
  Proof.
    intros [W1 W2]. unfold hk_generate. cbn [r_generate keygen_round]. change (kr_no (abs_round h k)) with (hk_no k).
    destruct (hk_no k) as [|[|n]] eqn:EN.
    - unfold hkg0_generate. pose proof (kg0_shape (abs_round h k) _ eq_refl) as SH.
      destruct (kg0_generate (abs_round h k)) as [k' ms|? ? ?|w]; [|contradiction|reflexivity].
      destruct SH as (pf & c & -> & E1 & E2 & E3). rewrite E1. cbn [default map].
      assert (X : ext h (mkHeap (h_exp h ++ [c]) (h_share h))).
      { unfold ext, le, ls. cbn. refine (conj _ (conj _ (conj _ _))); [rewrite app_length; lia|lia| |reflexivity]. intros q Hq. unfold rd_exp. cbn. now rewrite app_nth1. }
      assert (RC : rd_exp (mkHeap (h_exp h ++ [c]) (h_share h)) (List.length (h_exp h)) = c) by (unfold rd_exp; cbn; rewrite app_nth2 by lia; now rewrite Nat.sub_diag).
      split.
      + f_equal.
        * symmetry. apply abs_any; [rewrite E1; exact (f_equal Some RC)|].
          rewrite E2. cbn. apply map_eq. intros i. rewrite !lookup_fmap. destruct (hk_comms k !! i) as [q|] eqn:EI; [|reflexivity]. cbn. f_equal.
          destruct X as (_ & _ & X & _). apply X. apply (W2 _ _ EI).
        * unfold deref, NewKeyGen1. cbn. f_equal. f_equal. f_equal. f_equal. symmetry. exact RC.
      + refine (conj X (conj eq_refl (conj (or_intror (conj eq_refl _)) (conj _ _)))).
        * unfold le. cbn. rewrite app_length. cbn. lia.
        * unfold hk_no. cbn. rewrite E3. reflexivity.
        * intros m [<-|[]]. cbn. refine (conj _ (conj _ _)).
          -- split; cbn; [|discriminate]. intros pr q [= <- <-]. unfold le. cbn. rewrite app_length. cbn. lia.
          -- intros pr q [= <- <-]. unfold le. auto.
          -- discriminate.
    - unfold hkg1_generate. pose proof (kg1g_shape (abs_round h k) _ eq_refl) as SH.
      destruct (kg1_generate (abs_round h k)) as [k' ms|? ? ?|w]; [|contradiction|reflexivity].
      destruct SH as (E1 & E2 & E3 & E4). destruct (alloc_all h ms) as [h' ps] eqn:EA. destruct (alloc_all_ok _ _ _ _ EA) as (X & D & R).
      split.
      + rewrite D. f_equal. symmetry. rewrite <- (abs_mk h k k' E1 E2) at 2. destruct X as (_ & _ & X & _).
        apply abs_round_eq; cbn; [intros p Ep; apply X, W1, Ep|intros id q Eq; apply X; apply (W2 _ _ Eq)].
      + refine (conj X (conj eq_refl (conj (or_introl eq_refl) (conj _ _)))); [unfold hk_no; cbn; rewrite E3; reflexivity|].
        intros m Hm. destruct (R m Hm) as (A & B & C). refine (conj A (conj _ C)). intros pr q K. destruct (B _ _ K) as (_ & m' & M1 & M2). now rewrite (E4 _ M1) in M2.
    - unfold hkg2_generate. pose proof (kg2g_shape (abs_round h k) _ eq_refl) as SH.
      destruct (kg2_generate (abs_round h k)) as [k' ms|? ? ?|w]; [|contradiction|reflexivity].
      destruct SH as (E1 & E2 & E3 & ->). cbn [alloc_all map]. split; [f_equal; symmetry; now apply abs_mk|].
      apply gen_refl. unfold hk_no. rewrite E3. reflexivity.
  Qed.

  (** ** Reset *)
  Definition k_reach (k : hkround) (q : nat) : Prop := hk_csum k = Some q \/ exists id, hk_comms k !! id = Some q.
  Lemma hkg_Reset_ok h k :
    match hkg_Reset h k with
    | Ret (h', k') => kg_Reset (abs_round h k) = Ret (abs_round h' k') /\ le h' = le h /\ h_share h' = h_share h /\ hk_csum k' = hk_csum k /\ hk_comms k' = hk_comms k /\ hk_no k' = hk_no k /\
        forall q, (k_reach k q -> rd_exp h' q = exp_reset (rd_exp h q)) /\ (~ k_reach k q -> rd_exp h' q = rd_exp h q)
    | Fail e => kg_Reset (abs_round h k) = Fail e
    | Panics w => kg_Reset (abs_round h k) = Panics w
    end.
  Proof.
    unfold hkg_Reset. destruct (kg_Reset (abs_round h k)) as [k'|e|w] eqn:E; cbn [obind]; [|reflexivity|reflexivity].
    set (l := (match hk_csum k with Some p => [p] | None => [] end ++ map snd (map_to_list (hk_comms k)))).
    assert (HL : forall q, In q l <-> k_reach k q).
    { intros q. unfold l, k_reach. rewrite in_app_iff. split.
      - intros [A|A].
        + destruct (hk_csum k); [|destruct A]. destruct A as [->|[]]. now left.
        + apply in_map_iff in A as ([i q'] & <- & A). apply elem_of_list_In, elem_of_map_to_list in A. right. eauto.
      - intros [->|(i & A)]; [left; now left|]. right. apply in_map_iff. exists (i, q). split; auto. apply elem_of_list_In. now apply elem_of_map_to_list. }
    destruct (reset_all l h) as (A1 & A2 & A3). cbn [hk_csum hk_comms].
    assert (R : forall q, (k_reach k q -> rd_exp (fold_left reset_exp l h) q = exp_reset (rd_exp h q)) /\ (~ k_reach k q -> rd_exp (fold_left reset_exp l h) q = rd_exp h q)).
    { intros q. destruct (A3 q) as [B1 B2]. rewrite HL in B1, B2. auto. }
    refine (conj _ (conj A1 (conj A2 (conj eq_refl (conj eq_refl (conj _ R)))))).
    - f_equal. unfold kg_Reset in E. cbn in E. destruct (kr_Polynomial (hk_rest k)) as [pl|]; [|discriminate]. destruct (hk_csum k) as [p|] eqn:EP; [|discriminate]. cbn in E. injection E as <-.
      unfold abs_round. cbn. f_equal.
      + f_equal. symmetry. apply R. now left.
      + apply map_eq. intros i. rewrite !lookup_fmap. destruct (hk_comms k !! i) as [q|] eqn:EI; [|reflexivity]. cbn. f_equal. symmetry. apply R. right. eauto.
    - unfold kg_Reset in E. cbn in E. destruct (kr_Polynomial (hk_rest k)) as [pl|]; [|discriminate]. destruct (hk_csum k) as [p|]; [|discriminate]. cbn in E. injection E as <-. reflexivity.
  Qed.
End HeapFacts.
