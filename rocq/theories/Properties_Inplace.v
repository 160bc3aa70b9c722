(** C63: decoding into a receiver. *)
From Coq Require Import ZArith Lia List Bool String.
From Coq.Strings Require Import Byte.
From stdpp Require Import base gmap list.
From Verif Require Import ZField Primes Bytes Scalar Go Group Party Poly Zk Eddsa Messages Text Spec_Json Json Inplace CodecFacts Properties_Codec ToyGroup Ristretto RistrettoGroup.
Import ListNotations.
Local Open Scope Z_scope.

(** ** Specification *)
(** A decoder [into] for the values given by [value]: on success the receiver holds the value decoded, whatever it held before,
    and the two fail and panic on the same inputs. *)
Definition decodes {R A} (into : R -> list byte -> inplace R) (value : list byte -> outcome A) (emb : A -> R) : Prop :=
  forall r data,
  match value data with
  | Ret a => into r data = (emb a, Ret tt)
  | Fail _ => exists e, snd (into r data) = Fail e
  | Panics _ => exists w, snd (into r data) = Panics w
  end.
(** A call that does not succeed leaves the receiver as it was. *)
Definition atomic {R} (into : R -> list byte -> inplace R) : Prop :=
  forall r data, snd (into r data) <> Ret tt -> fst (into r data) = r.
(** Several inputs, one after the other, into the same receiver; the errors are looked at by nobody. *)
Definition read_all {R} (into : R -> list byte -> inplace R) (r : R) (inputs : list (list byte)) : R :=
  fold_left (fun r data => fst (into r data)) inputs r.
(** The last of the inputs that can be decoded. *)
Fixpoint last_value {A} (value : list byte -> outcome A) (inputs : list (list byte)) : option A :=
  match inputs with
  | [] => None
  | data :: rest =>
    match last_value value rest with
    | Some a => Some a
    | None => match value data with Ret a => Some a | _ => None end
    end
  end.

Lemma read_all_atomic {R A} (into : R -> list byte -> inplace R) (value : list byte -> outcome A) emb :
  decodes into value emb -> atomic into ->
  forall inputs r, read_all into r inputs = match last_value value inputs with Some a => emb a | None => r end.
Proof.
  intros HD HA. unfold read_all. induction inputs as [|data rest IH]; intros r; [reflexivity|]. cbn [fold_left last_value]. rewrite IH.
  destruct (last_value value rest) as [a|]; [reflexivity|]. specialize (HD r data). destruct (value data) as [a|e|w].
  - now rewrite HD.
  - destruct HD as [e' E]. apply HA. now rewrite E.
  - destruct HD as [w' E]. apply HA. now rewrite E.
Qed.

Section Inplace.
  Context `{Gr : group_ops} `{Hf : hash_fn}.

  Definition expP (p : Exponent) : ExponentP := map Some p.
  Definition k1P (k : KeyGen1) : KeyGen1P := mkKeyGen1P (Some (k1_Proof k)) (Some (expP (k1_Commitments k))).
  Definition msgP (m : Message) : MessageP := mkMessageP (m_Header m) (option_map k1P (m_KeyGen1 m)) (m_KeyGen2 m) (m_Sign1 m) (m_Sign2 m).
  (** ristretto.go:283-351 and Scalar.SetCanonicalBytes as outcomes. *)
  Definition element_value (b : list byte) : outcome G := oret_option "ristretto: invalid element encoding" (gdec b).
  Definition scalar_value (b : list byte) : outcome Fq := oret_option "invalid scalar encoding" (scalar_set_canonical b).

  Ltac crush := repeat match goal with
    | |- context [if ?x then _ else _] => destruct x eqn:?
    | |- context [match gdec ?x with _ => _ end] => destruct (gdec x) eqn:?
    | |- context [match scalar_set_canonical ?x with _ => _ end] => destruct (scalar_set_canonical x) eqn:?
    | |- context [match FromBytes ?x with _ => _ end] => destruct (FromBytes x) eqn:?
    end; cbn; try congruence; eauto.

  Lemma set_element_decodes : decodes set_element element_value (fun x => x).
  Proof. intros e b. unfold element_value, set_element. destruct (gdec b); cbn; eauto. Qed.
  Lemma set_scalar_decodes : decodes set_scalar scalar_value (fun x => x).
  Proof. intros e b. unfold scalar_value, set_scalar. destruct (scalar_set_canonical b); cbn; eauto. Qed.
  Lemma sig_decodes : decodes sig_into sig_unmarshal (fun x => x).
  Proof. intros r data. unfold sig_into, sig_unmarshal, set_element, set_scalar. crush. Qed.
  Lemma schnorr_decodes : decodes schnorr_into schnorr_unmarshal (fun x => x).
  Proof. intros r data. unfold schnorr_into, schnorr_unmarshal, set_scalar. crush. Qed.
  Lemma share_decodes : decodes share_into share_unmarshal (fun x => x).
  Proof. intros r data. unfold share_into, share_unmarshal, set_scalar. crush. Qed.
  Lemma k2_decodes : decodes k2_into k2_unmarshal (fun x => x).
  Proof. intros r data. unfold k2_into, k2_unmarshal, set_scalar, oret_option. crush. Qed.
  Lemma s2_decodes : decodes s2_into s2_unmarshal (fun x => x).
  Proof. intros r data. unfold s2_into, s2_unmarshal, set_scalar, oret_option. crush. Qed.
  Lemma s1_decodes : decodes s1_into s1_unmarshal (fun x => x).
  Proof. intros r data. unfold s1_into, s1_unmarshal, set_element, oret_option. crush. Qed.
  Lemma exp_loop_spec n rem : match exp_decode_loop n rem with
    | Ret p => exp_loop n rem = (expP p, Ret tt)
    | Fail _ => exists e, snd (exp_loop n rem) = Fail e
    | Panics _ => exists w, snd (exp_loop n rem) = Panics w end.
  Proof.
    revert rem. induction n as [|k IH]; intros rem; cbn [exp_decode_loop exp_loop]; [reflexivity|].
    destruct (gdec (firstn 32 rem)) as [A|]; [|cbn; eauto]. specialize (IH (skipn 32 rem)).
    destruct (exp_decode_loop k (skipn 32 rem)); cbn [obind].
    - rewrite IH. reflexivity.
    - destruct IH as [e' E]. destruct (exp_loop k _). cbn in *. eauto.
    - destruct IH as [e' E]. destruct (exp_loop k _). cbn in *. eauto.
  Qed.
  Lemma exp_decodes : decodes exp_into exp_unmarshal expP.
  Proof.
    intros r data. unfold exp_into, exp_unmarshal. destruct (FromBytes data) as [d|e|w]; cbn [obind]; cbv zeta; [|cbn; eauto|cbn; eauto].
    destruct (negb _); [cbn; eauto|]. destruct (negb _); [cbn; eauto|]. apply exp_loop_spec.
  Qed.
  Lemma k1_decodes : decodes k1_into k1_unmarshal k1P.
  Proof.
    intros r data. unfold k1_into, k1_unmarshal. destruct (Nat.ltb _ _); [cbn; eauto|].
    pose proof (schnorr_decodes (mkSchnorr f0 f0) (firstn 64 data)) as HS.
    destruct (schnorr_unmarshal (firstn 64 data)) as [p|e|w]; cbn [obind].
    - rewrite HS. pose proof (exp_decodes [] (skipn 64 data)) as HE. destruct (exp_unmarshal (skipn 64 data)) as [c|e|w]; cbn [obind].
      + rewrite HE. reflexivity.
      + destruct HE as [e' E]. destruct (exp_into [] _) as [c r']. cbn in *. eauto.
      + destruct HE as [e' E]. destruct (exp_into [] _) as [c r']. cbn in *. eauto.
    - destruct HS as [e' E]. destruct (schnorr_into _ _) as [c r']. cbn in E. subst r'. cbn. eauto.
    - destruct HS as [e' E]. destruct (schnorr_into _ _) as [c r']. cbn in E. subst r'. cbn. eauto.
  Qed.
  Lemma header_decodes : decodes header_into header_unmarshal (fun x => x).
  Proof. intros r data. unfold header_into. destruct (header_unmarshal data); cbn; eauto. Qed.
  Lemma id_decodes : decodes id_into id_UnmarshalText (fun x => x).
  Proof. intros r data. unfold id_into. destruct (id_UnmarshalText data); cbn; eauto. Qed.
  Lemma el_decodes : decodes el_text_into el_UnmarshalText (fun x => x).
  Proof. intros r data. unfold el_text_into, el_UnmarshalText, set_element, oret_option. destruct (b64_decode data); cbn; eauto. destruct (gdec _); cbn; eauto. Qed.
  Lemma share_json_decodes : decodes share_json_into share_UnmarshalJSON_text (fun x => x).
  Proof.
    intros r data. unfold share_json_into, share_UnmarshalJSON_text, share_of_json, share_UnmarshalJSON, set_scalar.
    destruct (parse_json data) as [v|]; [|cbn; eauto]. destruct (d_share v) as [out|e|w]; cbn [obind]; [|cbn; eauto|cbn; eauto].
    destruct (scalar_set_canonical (snd out)); cbn; eauto.
  Qed.
  Lemma pub_json_decodes sched : decodes (pub_json_into sched) (pub_UnmarshalJSON_text sched) (fun x => x).
  Proof. intros r data. unfold pub_json_into. destruct (pub_UnmarshalJSON_text sched data); cbn; eauto. Qed.

  (** * C63: a successful decode gives the value decoded, whatever the receiver held. *)
  Theorem C63_success :
    decodes set_element element_value (fun x => x) /\
    decodes sig_into sig_unmarshal (fun x => x) /\
    decodes share_into share_unmarshal (fun x => x) /\
    decodes schnorr_into schnorr_unmarshal (fun x => x) /\
    decodes exp_into exp_unmarshal expP /\
    decodes k1_into k1_unmarshal k1P /\
    decodes k2_into k2_unmarshal (fun x => x) /\
    decodes s1_into s1_unmarshal (fun x => x) /\
    decodes s2_into s2_unmarshal (fun x => x) /\
    decodes header_into header_unmarshal (fun x => x) /\
    decodes id_into id_UnmarshalText (fun x => x) /\
    decodes el_text_into el_UnmarshalText (fun x => x) /\
    decodes share_json_into share_UnmarshalJSON_text (fun x => x) /\
    (forall sched, decodes (pub_json_into sched) (pub_UnmarshalJSON_text sched) (fun x => x)).
  Proof.
    repeat split; auto using set_element_decodes, sig_decodes, share_decodes, schnorr_decodes, exp_decodes, k1_decodes, k2_decodes,
      s1_decodes, s2_decodes, header_decodes, id_decodes, el_decodes, share_json_decodes, pub_json_decodes.
  Qed.

  (** ** What a failing call leaves behind *)
  Lemma set_element_atomic : atomic set_element.
  Proof. intros r data. unfold set_element. destruct (gdec data); cbn; congruence. Qed.
  Lemma set_scalar_atomic : atomic set_scalar.
  Proof. intros r data. unfold set_scalar. destruct (scalar_set_canonical data); cbn; congruence. Qed.
  Lemma k2_atomic : atomic k2_into.
  Proof. intros [z] data. unfold k2_into, set_scalar. destruct (negb _); [reflexivity|]. destruct (scalar_set_canonical data); cbn; congruence. Qed.
  Lemma s2_atomic : atomic s2_into.
  Proof. intros [z] data. unfold s2_into, set_scalar. destruct (negb _); [reflexivity|]. destruct (scalar_set_canonical data); cbn; congruence. Qed.
  Lemma header_atomic : atomic header_into.
  Proof. intros h data. unfold header_into. destruct (header_unmarshal data); cbn; congruence. Qed.
  Lemma id_atomic : atomic id_into.
  Proof. intros h data. unfold id_into. destruct (id_UnmarshalText data); cbn; congruence. Qed.
  Lemma el_atomic : atomic el_text_into.
  Proof. intros h data. unfold el_text_into. destruct (b64_decode data); cbn; [apply set_element_atomic|congruence]. Qed.
  Lemma pk_atomic : atomic pk_into.
  Proof. intros h data. unfold pk_into. destruct (parse_json data) as [[]|]; cbn; try congruence. apply el_atomic. Qed.
  Lemma pub_atomic sched : atomic (pub_json_into sched).
  Proof. intros h data. unfold pub_json_into. destruct (pub_UnmarshalJSON_text sched data); cbn; congruence. Qed.
  Lemma header_type_ok data h : header_unmarshal data = Ret h -> h_Type h = 1 \/ h_Type h = 2 \/ h_Type h = 3 \/ h_Type h = 4.
  Proof. intros E. apply header_unmarshal_inv in E as [ [_ HT] _]. unfold MTKeyGen1, MTKeyGen2, MTSign1, MTSign2 in *. cbn in *. intuition lia. Qed.

  (** Messages: whatever the receiver held, UnmarshalBinary does to it what the model's function says, and no half-decoded body
      gets into a message. *)
  Theorem C63_message : forall m data,
    match msg_UnmarshalBinary m data with
    | Ret m' => msg_into (msgP m) data = (msgP m', Ret tt)
    | Fail e => msg_into (msgP m) data = (msgP m, Fail e)
    | Panics _ => False
    end.
  Proof.
    intros [h0 k1 k2 s1 s2] data. unfold msg_UnmarshalBinary, msg_into, header_into, msgP. cbn [m_Header m_KeyGen1 m_KeyGen2 m_Sign1 m_Sign2 mp_Header mp_KeyGen1 mp_KeyGen2 mp_Sign1 mp_Sign2].
    pose proof (header_unmarshal_total data) as (r & <- & HP).
    destruct (header_unmarshal data) as [h|e|w] eqn:EH; cbn [obind]; [|reflexivity|discriminate]. cbv zeta.
    apply header_type_ok in EH. set (body := skipn headerSize data). clearbody body.
    destruct (h_Type h =? MTKeyGen1) eqn:T1.
    { pose proof (k1_decodes (mkKeyGen1P None None) body) as HD. pose proof (k1_unmarshal_total body) as HT.
      destruct (k1_unmarshal body) as [k|e|w]; cbn [assign obind]; [| |discriminate].
      - rewrite HD. reflexivity.
      - destruct HD as [e' E]. destruct (k1_into _ body) as [x r]. cbn in E. subst r. reflexivity. }
    destruct (h_Type h =? MTKeyGen2) eqn:T2.
    { pose proof (k2_decodes (mkKeyGen2 f0) body) as HD. pose proof (k2_unmarshal_total body) as HT.
      destruct (k2_unmarshal body) as [k|e|w]; cbn [assign obind]; [| |discriminate].
      - rewrite HD. reflexivity.
      - destruct HD as [e' E]. destruct (k2_into _ body) as [x r]. cbn in E. subst r. reflexivity. }
    destruct (h_Type h =? MTSign1) eqn:T3.
    { pose proof (s1_decodes (mkSign1 gid gid) body) as HD. pose proof (s1_unmarshal_total body) as HT.
      destruct (s1_unmarshal body) as [k|e|w]; cbn [assign obind]; [| |discriminate].
      - rewrite HD. reflexivity.
      - destruct HD as [e' E]. destruct (s1_into _ body) as [x r]. cbn in E. subst r. reflexivity. }
    destruct (h_Type h =? MTSign2) eqn:T4.
    { pose proof (s2_decodes (mkSign2 f0) body) as HD. pose proof (s2_unmarshal_total body) as HT.
      destruct (s2_unmarshal body) as [k|e|w]; cbn [assign obind]; [| |discriminate].
      - rewrite HD. reflexivity.
      - destruct HD as [e' E]. destruct (s2_into _ body) as [x r]. cbn in E. subst r. reflexivity. }
    exfalso. unfold MTKeyGen1, MTKeyGen2, MTSign1, MTSign2 in *. rewrite ?Z.eqb_neq in *. lia.
  Qed.

  Lemma msg_atomic : atomic msg_into.
  Proof.
    intros [h0 k1 k2 s1 s2] data. unfold msg_into, header_into. cbn [mp_Header mp_KeyGen1 mp_KeyGen2 mp_Sign1 mp_Sign2].
    destruct (header_unmarshal data) as [h|e|w] eqn:EH; try (cbn; reflexivity).
    apply header_type_ok in EH. destruct (h_Type h =? MTKeyGen1) eqn:T1; [cbn; congruence|].
    destruct (h_Type h =? MTKeyGen2) eqn:T2; [cbn; congruence|]. destruct (h_Type h =? MTSign1) eqn:T3; [cbn; congruence|].
    destruct (h_Type h =? MTSign2) eqn:T4; [cbn; congruence|].
    exfalso. unfold MTKeyGen1, MTKeyGen2, MTSign1, MTSign2 in *. rewrite ?Z.eqb_neq in *. lia.
  Qed.

  (** These decoders leave the receiver as it was when they return an error (or panic). *)
  Theorem C63_atomic :
    atomic set_element /\ atomic set_scalar /\ atomic k2_into /\ atomic s2_into /\ atomic header_into /\ atomic msg_into /\
    atomic id_into /\ atomic el_text_into /\ atomic pk_into /\ (forall sched, atomic (pub_json_into sched)).
  Proof.
    repeat split; auto using set_element_atomic, set_scalar_atomic, k2_atomic, s2_atomic, header_atomic, msg_atomic, id_atomic, el_atomic, pk_atomic, pub_atomic.
  Qed.

  (** So a receiver that is used again and again, by a program that ignores the errors, holds the last input that could be decoded. *)
  Theorem C63_runs : forall inputs,
    (forall e, read_all set_element e inputs = match last_value element_value inputs with Some x => x | None => e end) /\
    (forall k, read_all k2_into k inputs = match last_value k2_unmarshal inputs with Some x => x | None => k end) /\
    (forall z, read_all s2_into z inputs = match last_value s2_unmarshal inputs with Some x => x | None => z end) /\
    (forall h, read_all header_into h inputs = match last_value header_unmarshal inputs with Some x => x | None => h end) /\
    (forall i, read_all id_into i inputs = match last_value id_UnmarshalText inputs with Some x => x | None => i end) /\
    (forall e, read_all el_text_into e inputs = match last_value el_UnmarshalText inputs with Some x => x | None => e end) /\
    (forall sched p, read_all (pub_json_into sched) p inputs = match last_value (pub_UnmarshalJSON_text sched) inputs with Some x => x | None => p end).
  Proof.
    intros inputs. repeat split; intros; (apply read_all_atomic;
      auto using set_element_decodes, k2_decodes, s2_decodes, header_decodes, id_decodes, el_decodes, pub_json_decodes,
        set_element_atomic, k2_atomic, s2_atomic, header_atomic, id_atomic, el_atomic, pub_atomic).
  Qed.

  (** The others overwrite the first field, and keep the rest. *)
  Theorem C63_signature : forall sig data, snd (sig_into sig data) <> Ret tt ->
    sig_S (fst (sig_into sig data)) = sig_S sig /\
    sig_R (fst (sig_into sig data)) =
      (if (64 <=? Z.of_nat (List.length data)) then match gdec (firstn 32 data) with Some R => R | None => sig_R sig end else sig_R sig).
  Proof.
    intros [R s] data. unfold sig_into, set_element, set_scalar. cbn [sig_R sig_S]. destruct (Nat.ltb_spec (List.length data) 64).
    - intros _. rewrite (proj2 (Z.leb_gt _ _)) by lia. auto.
    - rewrite (proj2 (Z.leb_le _ _)) by lia. destruct (gdec _); [|cbn; auto]. destruct (scalar_set_canonical _); cbn; [congruence|auto].
  Qed.
  Theorem C63_schnorr : forall p data, snd (schnorr_into p data) <> Ret tt ->
    pr_R (fst (schnorr_into p data)) = pr_R p /\
    pr_S (fst (schnorr_into p data)) =
      (if (64 <=? Z.of_nat (List.length data)) then match scalar_set_canonical (firstn 32 data) with Some s => s | None => pr_S p end else pr_S p).
  Proof.
    intros [s r] data. unfold schnorr_into, set_scalar. cbn [pr_R pr_S]. destruct (Nat.ltb_spec (List.length data) 64).
    - intros _. rewrite (proj2 (Z.leb_gt _ _)) by lia. auto.
    - rewrite (proj2 (Z.leb_le _ _)) by lia. destruct (scalar_set_canonical (firstn 32 data)); [|cbn; auto]. destruct (scalar_set_canonical _); cbn; [congruence|auto].
  Qed.
  Theorem C63_sign1 : forall m data, snd (s1_into m data) <> Ret tt ->
    s1_Ei (fst (s1_into m data)) = s1_Ei m /\
    s1_Di (fst (s1_into m data)) =
      (if (Z.of_nat (List.length data) =? 64) then match gdec (firstn 32 data) with Some D => D | None => s1_Di m end else s1_Di m).
  Proof.
    intros [D E] data. unfold s1_into, set_element. cbn [s1_Di s1_Ei]. destruct (Nat.eqb_spec (List.length data) 64).
    - cbn [negb]. rewrite (proj2 (Z.eqb_eq _ _)) by lia. destruct (gdec (firstn 32 data)); [|cbn; auto]. destruct (gdec _); cbn; [congruence|auto].
    - intros _. rewrite (proj2 (Z.eqb_neq _ _)) by lia. auto.
  Qed.
  (** A key share gets the ID of the rejected data and keeps the secret and the public key of the old one. *)
  Theorem C63_share : forall sk data, snd (share_into sk data) <> Ret tt ->
    sh_Secret (fst (share_into sk data)) = sh_Secret sk /\ sh_Public (fst (share_into sk data)) = sh_Public sk /\
    (if Z.of_nat (List.length data) =? 34 then FromBytes data = Ret (sh_ID (fst (share_into sk data))) else sh_ID (fst (share_into sk data)) = sh_ID sk).
  Proof.
    intros [i s P] data. unfold share_into, set_scalar. cbn [sh_ID sh_Secret sh_Public]. destruct (Nat.eqb_spec (List.length data) 34) as [EL|].
    - cbn [negb]. rewrite (proj2 (Z.eqb_eq _ _)) by lia. destruct data as [|x [|y rest] ]; [discriminate|discriminate|]. cbn [FromBytes].
      destruct (scalar_set_canonical _); cbn [fst snd sh_ID sh_Secret sh_Public]; [congruence|auto].
    - intros _. rewrite (proj2 (Z.eqb_neq _ _)) by lia. auto.
  Qed.
  Theorem C63_share_json : forall sk data, snd (share_json_into sk data) <> Ret tt ->
    sh_Secret (fst (share_json_into sk data)) = sh_Secret sk /\ sh_Public (fst (share_json_into sk data)) = sh_Public sk /\
    (sh_ID (fst (share_json_into sk data)) = sh_ID sk \/
     exists v out, parse_json data = Some v /\ d_share v = Ret out /\ sh_ID (fst (share_json_into sk data)) = u16 (fst out)).
  Proof.
    intros [i s P] data. unfold share_json_into, set_scalar. cbn [sh_ID sh_Secret sh_Public]. destruct (parse_json data) as [v|]; [|cbn; auto].
    destruct (d_share v) as [out|e|w] eqn:ED; [|cbn; auto|cbn; auto]. destruct (scalar_set_canonical _); cbn [fst snd sh_ID sh_Secret sh_Public]; [congruence|].
    intros _. repeat split. right. exists v, out. auto.
  Qed.

  (** A polynomial is unchanged when the lengths are wrong; otherwise the old one is lost: the coefficients before the bad one
      are there, the others are nil pointers, and encoding it panics. *)
  Lemma exp_loop_fail n rem : snd (exp_loop n rem) <> Ret tt ->
    exists A k, (0 < k)%nat /\ fst (exp_loop n rem) = map Some A ++ repeat None k /\ (List.length A + k = n)%nat.
  Proof.
    revert rem. induction n as [|n IH]; intros rem; cbn [exp_loop]; [cbn; congruence|].
    destruct (gdec (firstn 32 rem)) as [B|].
    - specialize (IH (skipn 32 rem)). destruct (exp_loop n (skipn 32 rem)) as [rest r]. cbn [fst snd] in *. intros H.
      destruct (IH H) as (A & k & HK & -> & HL). exists (B :: A), k. cbn. split; [auto|]. split; [reflexivity|lia].
    - intros _. exists [], (S n). cbn. split; [lia|]. split; [reflexivity|lia].
  Qed.
  Lemma expP_bytes_nil A k : (0 < k)%nat -> exists w, expP_bytes (map Some A ++ repeat None k) = Panics w.
  Proof.
    intros HK. unfold expP_bytes. generalize (id_bytes (u16 (u16 (Z.of_nat (List.length (map Some A ++ repeat None k))) - 1))).
    induction A as [|a A IH]; intros b.
    - destruct k as [|k]; [lia|]. cbn. eauto.
    - cbn [map app ofold obind]. apply IH.
  Qed.
  Lemma expP_bytes_ok p : expP_bytes (expP p) = Ret (exp_bytes p).
  Proof.
    unfold expP_bytes, exp_bytes, expP, exp_degree. rewrite map_length. generalize (id_bytes (u16 (u16 (Z.of_nat (List.length p)) - 1))) as b.
    induction p as [|a p IH]; intros b; cbn [map ofold flat_map]; [now rewrite app_nil_r|]. cbn [obind]. rewrite IH. now rewrite <- app_assoc.
  Qed.
  Theorem C63_exponent : forall p data, snd (exp_into p data) <> Ret tt ->
    fst (exp_into p data) = p \/
    (exists A k, (0 < k)%nat /\ fst (exp_into p data) = map Some A ++ repeat None k /\
       Z.of_nat (List.length data) = 2 + 32 * Z.of_nat (List.length A + k) /\ exists w, expP_bytes (fst (exp_into p data)) = Panics w).
  Proof.
    intros p data. unfold exp_into. destruct (FromBytes data) as [d|e|w] eqn:EF; [|cbn; auto|cbn; auto]. cbv zeta.
    destruct (negb (_ mod 32 =? 0)); [cbn; auto|]. destruct (Z.eqb_spec (Z.of_nat (List.length (skipn 2 data))) (u16 (d + 1) * 32)) as [EC|]; [|cbn; auto]. cbn [negb].
    intros H. right. destruct (exp_loop_fail _ _ H) as (A & k & HK & E & HL). exists A, k. split; [auto|]. split; [auto|]. split.
    - rewrite HL. destruct data as [|x [|y rest] ]; try discriminate. cbn [skipn] in EC. cbn [List.length]. assert (0 <= u16 (d + 1)) by (unfold u16; apply Z.mod_pos_bound; lia). rewrite Z2Nat.id by auto. rewrite skipn_O in EC. lia.
    - rewrite E. now apply expP_bytes_nil.
  Qed.
  (** A KeyGen1 body is replaced as soon as the data have 64 bytes. *)
  Theorem C63_keygen1 : forall m data, snd (k1_into m data) <> Ret tt ->
    if 64 <=? Z.of_nat (List.length data)
    then exists proof c, fst (k1_into m data) = mkKeyGen1P (Some proof) (Some c) /\ (c = [] \/ exists A k, (0 < k)%nat /\ c = map Some A ++ repeat None k)
    else fst (k1_into m data) = m.
  Proof.
    intros m data. unfold k1_into. destruct (Nat.ltb_spec (List.length data) 64).
    - intros _. rewrite (proj2 (Z.leb_gt _ _)) by lia. reflexivity.
    - rewrite (proj2 (Z.leb_le _ _)) by lia. destruct (schnorr_into _ _) as [proof [u|e|w] ]; [|cbn; eauto|cbn; eauto].
      pose proof (C63_exponent [] (skipn 64 data)) as HE. destruct (exp_into [] (skipn 64 data)) as [c r]. cbn [fst snd] in *.
      intros H1. exists proof, c. split; [reflexivity|]. destruct (HE H1) as [->|(A & k & HK & -> & _)]; eauto.
  Qed.

  (** null is read into a public key without an error and without effect: there is a success that depends on what the receiver held. *)
  Theorem C63_public_key_null_refuted : forall data, parse_json data = Some JNull -> forall pk, pk_into pk data = (pk, Ret tt).
  Proof. intros data E pk. unfold pk_into. now rewrite E. Qed.
  Theorem C63_public_key : forall data v, parse_json data = Some v -> v <> JNull -> forall pk,
    match d_el v with
    | Ret (Some e) => pk_into pk data = (e, Ret tt)
    | _ => exists e, pk_into pk data = (pk, Fail e)
    end.
  Proof.
    intros data v E HN pk. unfold pk_into. rewrite E. destruct v; cbn [d_el]; try congruence; eauto.
    unfold el_text_into, el_UnmarshalText, set_element, oret_option. destruct (b64_decode _); cbn [obind]; eauto. destruct (gdec _); cbn [obind]; eauto.
  Qed.
End Inplace.

Section Refuted.
  Context `{L : group_laws} `{Hf : hash_fn}.
  Lemma gid_neq_base : ~ geq gid gbase.
  Proof. intros E. apply Fq_1_neq_0. apply gbase_order. rewrite gsmul_1. now symmetry. Qed.
  Definition bad32 : list byte := repeat xff 32.
  Lemma bad32_scalar : scalar_set_canonical bad32 = None.
  Proof. destruct (scalar_set_canonical bad32) eqn:E; [|reflexivity]. exfalso. assert (exists s, scalar_set_canonical bad32 = Some s) as H by eauto. apply scalar_set_canonical_iff in H as [_ H]. revert H. now vm_compute. Qed.
  Lemma genc_firstn (x : G) l : firstn 32 (genc x ++ l) = genc x /\ skipn 32 (genc x ++ l) = l.
  Proof. rewrite firstn_app, skipn_app, genc_len, Nat.sub_diag, firstn_O, skipn_O, app_nil_r. rewrite firstn_all2, skipn_all2 by (rewrite genc_len; lia). auto. Qed.

  (** Signatures, key shares, commitments and proofs are not decoded atomically: a rejected input changes the receiver. *)
  Theorem C63_atomic_refuted : forall b, List.length b = 32%nat -> gdec b = None ->
    ~ atomic sig_into /\ ~ atomic share_into /\ ~ atomic schnorr_into /\ ~ atomic s1_into /\ ~ atomic exp_into /\ ~ atomic k1_into.
  Proof.
    intros b Lb Eb. destruct (gdec_genc gid) as (z & Ez & Hz).
    assert (NZ : z <> gbase). { intros ->. apply gid_neq_base. now symmetry. }
    split; [|split; [|split; [|split; [|split] ] ] ].
    - intros H. specialize (H (mkSig gbase f0) (genc gid ++ bad32)). unfold sig_into in H. rewrite app_length, genc_len in H. cbn [Nat.add] in H.
      change (Nat.ltb _ 64) with false in H. cbv iota in H. unfold set_element, set_scalar in H.
      destruct (genc_firstn gid bad32) as [E1 E2]. rewrite E1, E2, Ez, bad32_scalar in H. cbn [fst snd sig_R sig_S] in H.
      assert (mkSig z f0 = mkSig gbase f0) as E by (apply H; discriminate). congruence.
    - intros H. specialize (H (mkSecretShare 1 f0 gid) (x00 :: x02 :: bad32)). unfold share_into in H. cbn [List.length bad32 repeat Nat.eqb negb FromBytes skipn] in H.
      unfold set_scalar in H. change [xff; xff; xff; xff; xff; xff; xff; xff; xff; xff; xff; xff; xff; xff; xff; xff; xff; xff; xff; xff; xff; xff; xff; xff; xff; xff; xff; xff; xff; xff; xff; xff] with bad32 in H.
      rewrite bad32_scalar in H. cbn [fst snd] in H. assert (mkSecretShare (be16_val x00 x02) f0 gid = mkSecretShare 1 f0 gid) as E by (apply H; discriminate).
      injection E. discriminate.
    - intros H. specialize (H (mkSchnorr f0 f0) (scalar_bytes f1 ++ bad32)). unfold schnorr_into in H. rewrite app_length, scalar_bytes_length in H.
      change (Nat.ltb _ 64) with false in H. cbv iota in H. unfold set_scalar in H.
      assert (E1 : firstn 32 (scalar_bytes f1 ++ bad32) = scalar_bytes f1) by (rewrite firstn_app, scalar_bytes_length, Nat.sub_diag, firstn_O, app_nil_r; apply firstn_all2; now rewrite scalar_bytes_length).
      assert (E2 : skipn 32 (scalar_bytes f1 ++ bad32) = bad32) by (rewrite skipn_app, scalar_bytes_length, Nat.sub_diag, skipn_O, skipn_all2 by (now rewrite scalar_bytes_length); reflexivity).
      rewrite E1, E2, scalar_canonical_bytes, bad32_scalar in H. cbn [fst snd pr_R pr_S] in H.
      assert (mkSchnorr f1 f0 = mkSchnorr f0 f0) as E by (apply H; discriminate). apply Fq_1_neq_0. congruence.
    - intros H. specialize (H (mkSign1 gbase gid) (genc gid ++ b)). unfold s1_into in H. rewrite app_length, genc_len, Lb in H. cbn [Nat.add Nat.eqb negb] in H.
      unfold set_element in H. destruct (genc_firstn gid b) as [E1 E2]. rewrite E1, E2, Ez, Eb in H. cbn [fst snd s1_Di s1_Ei] in H.
      assert (mkSign1 z gid = mkSign1 gbase gid) as E by (apply H; discriminate). congruence.
    - intros H. specialize (H [] (x00 :: x00 :: b)). unfold exp_into in H. cbn [FromBytes] in H. change (skipn 2 (x00 :: x00 :: b)) with b in H. rewrite Lb in H.
      change (u16 (be16_val x00 x00 + 1)) with 1 in H. cbn [Z.to_nat Pos.to_nat Pos.iter_op exp_loop] in H. change (negb (Z.of_nat 32 mod 32 =? 0)) with false in H.
      change (negb (Z.of_nat 32 =? 1 * 32)) with false in H. cbv iota in H. change (Z.to_nat 1) with 1%nat in H. cbn [exp_loop] in H. rewrite firstn_all2, Eb in H by lia. cbn [fst snd repeat] in H.
      specialize (H ltac:(discriminate)). discriminate.
    - intros H. specialize (H (mkKeyGen1P None None) (bad32 ++ bad32)). unfold k1_into in H. rewrite app_length in H. change (Nat.ltb _ 64) with false in H. cbv iota in H.
      unfold schnorr_into, set_scalar in H. change (firstn 64 (bad32 ++ bad32)) with (bad32 ++ bad32) in H. rewrite app_length in H. change (Nat.ltb _ 64) with false in H. cbv iota in H.
      change (firstn 32 (bad32 ++ bad32)) with bad32 in H. rewrite bad32_scalar in H. cbn [fst snd] in H. specialize (H ltac:(discriminate)). discriminate.
  Qed.
End Refuted.

(** ristretto255: 32 bytes that are all ff are no encoding of an element. *)
Corollary C63_atomic_ristretto_refuted :
  let _ := ristretto_group in
  ~ atomic sig_into /\ ~ atomic share_into /\ ~ atomic schnorr_into /\ ~ atomic s1_into /\ ~ atomic exp_into /\ ~ atomic k1_into.
Proof.
  cbv zeta. apply (C63_atomic_refuted (L := ristretto_laws) (repeat xff 32)); [reflexivity|].
  destruct (gdec (repeat xff 32)) as [x|] eqn:E; [|reflexivity]. exfalso.
  assert (HR : r_SetCanonicalBytes (repeat xff 32) = Ret (proj1_sig x)) by (apply e_dec_inv; exact E).
  unfold r_SetCanonicalBytes in HR. change (negb (Nat.eqb _ 32)) with false in HR. cbv iota in HR.
  assert (HB : bytes_eqb (fe_bytes (fe_set_bytes (repeat xff 32))) (repeat xff 32) = false) by (vm_compute; reflexivity).
  rewrite HB in HR. discriminate HR.
Qed.

(** ** Examples *)
(** One signature read over another: the second one, cut in its scalar, leaves R of the second and S of the first. *)
Example C63_example_mixed :
  let g n := gbmul (Gr := toy_group) (qof n) in
  let s1 := mkSig (Gr := toy_group) (g 2) (qof 5) in let s2 := mkSig (Gr := toy_group) (g 3) (qof 7) in
  let data := firstn 32 (sig_bytes s2) ++ bad32 in
  match sig_into s1 data with
  | (s, Fail _) => genc (sig_R s) = genc (g 3) /\ fz (sig_S s) = 5
  | _ => False
  end.
Proof. vm_compute. auto. Qed.
(** A share of party 1, after a rejected share of party 2: party 2 with the secret of party 1. *)
Example C63_example_share :
  let sk := NewSecretShare (Gr := toy_group) 1 (qof 5) in
  match share_into sk (x00 :: x02 :: bad32) with
  | (s, Fail _) => sh_ID s = 2 /\ fz (sh_Secret s) = 5
  | _ => False
  end.
Proof. vm_compute. auto. Qed.
(** A polynomial of two coefficients, the second one not decodable. *)
Example C63_example_exponent :
  let A := gbmul (Gr := toy_group) (qof 4) in
  match exp_into (Gr := toy_group) [Some A] (x00 :: x01 :: genc A ++ bad32) with
  | ([Some B; None], Fail _) => genc B = genc A
  | _ => False
  end.
Proof. vm_compute. auto. Qed.
Example C63_example_null : parse_json (bs "null") = Some JNull. Proof. vm_compute. reflexivity. Qed.
(** Three inputs into one body, the last one rejected. *)
Example C63_example_runs :
  let z n := scalar_bytes (qof n) in
  fz (s2_Zi (read_all s2_into (mkSign2 (qof 1)) [z 5; z 6; bad32])) = 6.
Proof. vm_compute. reflexivity. Qed.

Print Assumptions C63_success.
Print Assumptions C63_message.
Print Assumptions C63_atomic.
Print Assumptions C63_runs.
Print Assumptions C63_signature.
Print Assumptions C63_schnorr.
Print Assumptions C63_sign1.
Print Assumptions C63_share.
Print Assumptions C63_share_json.
Print Assumptions C63_exponent.
Print Assumptions C63_keygen1.
Print Assumptions C63_public_key.
Print Assumptions C63_public_key_null_refuted.
Print Assumptions C63_atomic_refuted.
Print Assumptions C63_atomic_ristretto_refuted.
