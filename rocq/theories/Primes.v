(** Primality of the field prime p = 2^255-19 and of the group order q, by
    Pocklington's criterion.  The Go code relies on these constants through
    filippo.io/edwards25519 (scalar.go, field) and pkg/ristretto/ristretto.go. *)
From Coq Require Import ZArith Znumtheory Lia List Bool Ring.
From Verif Require Import ZField.
Import ListNotations.
Local Open Scope Z_scope.

(** Trial division, for small primes only. *)
Definition trial (n : Z) : bool :=
  (1 <? n) && forallb (fun k => negb (n mod Z.of_nat k =? 0)) (seq 2 (Z.to_nat n - 2)).

Lemma trial_prime n : trial n = true -> prime n.
Proof.
  unfold trial. rewrite andb_true_iff, forallb_forall. intros [H1 H2]. apply Z.ltb_lt in H1.
  destruct (prime_dec n) as [|Hn]; auto. exfalso.
  apply not_prime_divide in Hn as (k & Hk & Hd); auto.
  specialize (H2 (Z.to_nat k)). rewrite in_seq, Z2Nat.id in H2 by lia.
  rewrite (Zdivide_mod _ _ Hd) in H2. specialize (H2 ltac:(lia)). discriminate.
Qed.

(** A number > 1 all of whose prime divisors exceed its square root is prime. *)
Lemma prime_divisor n : 1 < n -> exists d, prime d /\ (d | n).
Proof.
  intros Hn. assert (0 <= n) as H0 by lia. revert Hn. pattern n. apply Zlt_0_ind; auto; clear n H0.
  intros n IH _ Hn. destruct (prime_dec n) as [|Hp]; [exists n; split; auto; apply Z.divide_refl|].
  apply not_prime_divide in Hp as (k & Hk & Hd); auto.
  destruct (IH k ltac:(lia) ltac:(lia)) as (d & Pd & Dd). exists d; split; auto. eapply Z.divide_trans; eauto.
Qed.

Lemma big_divisors_prime n B :
  1 < n -> n < B * B -> 0 <= B -> (forall d, prime d -> (d | n) -> B < d) -> prime n.
Proof.
  intros Hn HB HB0 H. destruct (prime_dec n) as [|Hp]; auto. exfalso.
  apply not_prime_divide in Hp as (k & Hk & [c Hc]); auto.
  assert (1 < c) by nia.
  destruct (prime_divisor k ltac:(lia)) as (d & Pd & Dd).
  destruct (prime_divisor c ltac:(lia)) as (e & Pe & De).
  assert (B < d) by (apply H; auto; rewrite Hc; now apply Z.divide_mul_r).
  assert (B < e) by (apply H; auto; rewrite Hc; now apply Z.divide_mul_l).
  apply Z.divide_pos_le in Dd, De; nia.
Qed.

Lemma pow_order d r (b : F d) :
  prime d -> prime r -> fpow b (Z.to_N r) = f1 -> b <> f1 -> (r | d - 1).
Proof.
  intros Pd Pr Hb Hn. pose proof (prime_ge_2 _ Pd). pose proof (prime_ge_2 _ Pr).
  destruct (Zdivide_dec r (d - 1)) as [|ND]; auto. exfalso. apply Hn.
  assert (rel_prime r (d - 1)) as RP by now apply prime_rel_prime.
  apply rel_prime_bezout in RP as [u v E].
  (* u r + v (d-1) = 1; make both exponents non-negative *)
  assert (b <> f0) as Hb0.
  { intros ->. apply (f1_neq_f0 Pd). rewrite <- Hb.
    destruct (Z.to_N r) as [|x] eqn:Ex; [lia|]. rewrite <- (N.succ_pred (N.pos x)) by lia.
    rewrite fpow_S. apply F_ext. reflexivity. }
  pose (k := Z.abs u + Z.abs v).
  pose (U := u + k * (d - 1)). pose (V := k * r - v).
  assert (U * r = 1 + V * (d - 1)) as EU by (unfold U, V; nia).
  assert (0 <= U) by (unfold U, k; nia). assert (0 <= V) by (unfold V, k; nia).
  assert (fpow b (Z.to_N (U * r)) = f1) as E1.
  { rewrite Z.mul_comm, Z2N.inj_mul, fpow_mul, Hb by lia. apply fpow_one. }
  rewrite EU, Z2N.inj_add, fpow_add in E1 by nia.
  rewrite (Z.mul_comm V), Z2N.inj_mul, fpow_mul, (fermat Pd) in E1 by (auto; lia).
  rewrite fpow_one in E1. change (Z.to_N 1) with 1%N in E1. rewrite fpow_1 in E1.
  rewrite <- E1. rewrite <- (fof_fz b). unfold f1. rewrite <- fof_mul. f_equal. ring.
Qed.

(** Montgomery's product: a number congruent to (acc + x y) / 2^k modulo an odd n, without division (which is slow here). *)
Fixpoint mont (n y : Z) (k : nat) (x acc : Z) : Z :=
  match k with
  | O => acc + x * y
  | S k' =>
    let a := if Z.odd x then acc + y else acc in
    let a' := if Z.odd a then a + n else a in
    mont n y k' (Z.div2 x) (Z.div2 a')
  end.
Lemma mont_ok n y : Z.odd n = true -> forall k x acc, exists c, mont n y k x acc * 2 ^ Z.of_nat k = acc + x * y + c * n.
Proof.
  intros Hn. induction k as [|k IH]; intros x acc; cbn [mont]; cbv zeta; [exists 0; rewrite Z.mul_1_r; ring|].
  set (a := if Z.odd x then acc + y else acc). set (a' := if Z.odd a then a + n else a).
  destruct (IH (Z.div2 x) (Z.div2 a')) as [c Hc].
  assert (a' = 2 * Z.div2 a') as Ea.
  { rewrite (Z.div2_odd a') at 1. replace (Z.odd a') with false; [cbn [Z.b2z]; ring|]. unfold a'. destruct (Z.odd a) eqn:E; [|auto]. rewrite Z.odd_add, E, Hn. reflexivity. }
  exists (2 * c + (if Z.odd a then 1 else 0)). rewrite Nat2Z.inj_succ, Z.pow_succ_r by lia.
  replace (mont n y k (Z.div2 x) (Z.div2 a') * (2 * 2 ^ Z.of_nat k)) with (2 * (mont n y k (Z.div2 x) (Z.div2 a') * 2 ^ Z.of_nat k)) by ring.
  rewrite Hc. replace (2 * (Z.div2 a' + Z.div2 x * y + c * n)) with (2 * Z.div2 a' + (2 * Z.div2 x) * y + 2 * c * n) by ring. rewrite <- Ea.
  pose proof (Z.div2_odd x) as Ex. assert (x * y = 2 * Z.div2 x * y + Z.b2z (Z.odd x) * y) as E2 by (rewrite Ex at 1; ring).
  assert (a = acc + Z.b2z (Z.odd x) * y) as E3 by (unfold a; destruct (Z.odd x); cbn [Z.b2z]; ring).
  replace (acc + x * y) with (a + 2 * Z.div2 x * y) by (rewrite E2, E3; ring). unfold a'.
  destruct (Z.odd a); ring.
Qed.

(** 2^e mod n: [mpow] has it times 2^k. *)
Fixpoint mpow (n : Z) (k : nat) (e : positive) : Z :=
  match e with
  | xH => Z.shiftl 2 (Z.of_nat k) mod n
  | xO e' => let r := mpow n k e' in mont n r k r 0
  | xI e' => let r := mpow n k e' in Z.double (mont n r k r 0)
  end.
Definition mbits (n : Z) : nat := Z.to_nat (Z.log2 n + 6).
Definition pow2mod (n : Z) (e : positive) : Z := mont n 1 (mbits n) (mpow n (mbits n) e) 0.

Section Mont.
  Context (n : Z) (Hn : Z.odd n = true).
  Add Ring FnR : (F_ring_theory n).
  Notation R k := (fof n (2 ^ Z.of_nat k)).
  Lemma mont_fof y k x acc : fmul (fof n (mont n y k x acc)) (R k) = fadd (fof n acc) (fmul (fof n x) (fof n y)).
  Proof. rewrite <- !fof_mul, <- fof_add. destruct (mont_ok n y Hn k x acc) as [c ->]. apply fof_eq. apply Z_mod_plus_full. Qed.
  Lemma R_cancel k (a b : F n) : fmul a (R k) = fmul b (R k) -> a = b.
  Proof.
    assert (exists h : F n, fmul (fof n 2) h = f1) as [h Hh].
    { exists (fof n ((n + 1) / 2)). rewrite <- fof_mul. pose proof (Z.div2_odd n) as E. rewrite Hn in E. cbn [Z.b2z] in E.
      replace ((n + 1) / 2) with (Z.div2 n + 1) by (rewrite E at 2; replace (2 * Z.div2 n + 1 + 1) with ((Z.div2 n + 1) * 2) by ring; now rewrite Z.div_mul).
      unfold f1. apply fof_eq. replace (2 * (Z.div2 n + 1)) with (1 + 1 * n) by lia. apply Z_mod_plus_full. }
    revert a b. induction k as [|k IH]; intros a b E; [cbn in E; change (fof n 1) with (@f1 n) in E; transitivity (fmul a f1); [ring|]; rewrite E; ring|].
    rewrite Nat2Z.inj_succ, Z.pow_succ_r, fof_mul in E by lia. apply IH.
    transitivity (fmul (fmul a (fmul (fof n 2) (R k))) h).
    - transitivity (fmul (fmul a (R k)) (fmul (fof n 2) h)); [rewrite Hh|]; ring.
    - rewrite E. transitivity (fmul (fmul b (R k)) (fmul (fof n 2) h)); [|rewrite Hh]; ring.
  Qed.
  Lemma mpow_ok k e : fof n (mpow n k e) = fmul (fpow (fof n 2) (Npos e)) (R k).
  Proof.
    assert (forall r x, fof n r = fmul x (R k) -> fof n (mont n r k r 0) = fmul (fmul x x) (R k)) as HM.
    { intros r x E. apply (R_cancel k). rewrite mont_fof, E. change (fof n 0) with (@f0 n). ring. }
    induction e as [e IH|e IH|]; cbn [mpow]; cbv zeta.
    - apply HM in IH. rewrite Z.double_spec, fof_mul, IH. replace (N.pos e~1) with (N.succ (N.pos e + N.pos e)) by lia. rewrite fpow_S, fpow_add. ring.
    - apply HM in IH. rewrite IH. replace (N.pos e~0) with (N.pos e + N.pos e)%N by lia. now rewrite fpow_add.
    - rewrite Z.shiftl_mul_pow2 by lia. transitivity (fof n (2 * 2 ^ Z.of_nat k)); [apply fof_eq; now rewrite Zmod_mod|]. rewrite fof_mul. reflexivity.
  Qed.
  Lemma pow2mod_ok e : fof n (pow2mod n e) = fpow (fof n 2) (Npos e).
  Proof. apply (R_cancel (mbits n)). unfold pow2mod. rewrite mont_fof, mpow_ok. change (fof n 0) with (@f0 n). change (fof n 1) with (@f1 n). ring. Qed.
End Mont.

Definition zpos (z : Z) : positive := Z.to_pos z.

(** One certificate entry (r, u): r divides n-1 and u is the inverse of 2^((n-1)/r) - 1. *)
Definition entry_ok (n : Z) (c : Z * Z) : bool :=
  let '(r, u) := c in
  (1 <? r) && ((n - 1) mod r =? 0)
  && (((pow2mod n (zpos ((n - 1) / r)) - 1) * u) mod n =? 1).

Fixpoint distinct (l : list Z) : bool :=
  match l with [] => true | x :: l' => forallb (fun y => negb (x =? y)) l' && distinct l' end.

Definition pock_ok (n : Z) (cs : list (Z * Z)) : bool :=
  Z.odd n && (2 <? n) && (pow2mod n (zpos (n - 1)) mod n =? 1) && forallb (entry_ok n) cs
  && distinct (map fst cs)
  && (let B := fold_right Z.mul 1 (map fst cs) in n <? (B - 0) * (B - 0)).

Lemma prod_divides (l : list Z) x :
  Forall prime l -> distinct l = true -> (forall r, In r l -> (r | x)) -> (fold_right Z.mul 1 l | x).
Proof.
  induction l as [|r l IH]; simpl; intros HP HD H; [apply Z.divide_1_l|].
  apply andb_true_iff in HD as [HD1 HD2]. inversion HP; subst.
  destruct (IH H3 HD2 ltac:(auto)) as [c Hc].
  assert (r | c * fold_right Z.mul 1 l) as D by (rewrite <- Hc; auto).
  assert (rel_prime r (fold_right Z.mul 1 l)) as RP.
  { rewrite forallb_forall in HD1. clear -H2 H3 HD1.
    induction l as [|y l IH]; simpl; [apply rel_prime_sym, rel_prime_1|].
    inversion H3; subst. apply rel_prime_mult; [|apply IH; auto; intros; apply HD1; simpl; auto].
    apply prime_rel_prime; auto. intros Hd. apply prime_div_prime in Hd; auto.
    specialize (HD1 y (or_introl eq_refl)). apply negb_true_iff, Z.eqb_neq in HD1. auto. }
  rewrite Z.mul_comm in D. apply Gauss in D; auto. destruct D as [e He].
  exists e. rewrite Hc, He. ring.
Qed.

Lemma mod_mod_divide z d n : (d | n) -> 0 < d -> 0 < n -> (z mod n) mod d = z mod d.
Proof.
  intros [k ->] Hp Hn. assert (0 < k) by nia.
  rewrite (Z.mul_comm k d), Z.rem_mul_r by lia.
  rewrite Z.add_comm, Z.mul_comm, Z.add_comm, Z_mod_plus_full. now rewrite Zmod_mod.
Qed.

Lemma fof_proj_pow n d a e : (d | n) -> 0 < d -> 0 < n ->
  fof n a = fpow (fof n 2) e -> fof d a = fpow (fof d 2) e.
Proof.
  intros Hd Hp Hn H.
  assert (forall e, fof d (fz (fpow (fof n 2) e)) = fpow (fof d 2) e) as G.
  { intros e'. induction e' using N.peano_ind.
    - apply fof_eq. simpl. now apply mod_mod_divide.
    - rewrite !fpow_S, <- IHe'. rewrite <- fof_mul. apply fof_eq. cbn [fz fof fmul].
      rewrite mod_mod_divide by auto. rewrite <- (Zmult_mod_idemp_l (2 mod n)), mod_mod_divide by auto.
      now rewrite Zmult_mod_idemp_l. }
  rewrite <- G, <- H. apply fof_eq. cbn [fz fof]. symmetry. now apply mod_mod_divide.
Qed.

Theorem pocklington n cs : pock_ok n cs = true -> Forall prime (map fst cs) -> prime n.
Proof.
  unfold pock_ok. rewrite !andb_true_iff. intros [[[[[HO Hn] H1] HE] HD] HB] HP.
  apply Z.ltb_lt in Hn, HB. apply Z.eqb_eq in H1. rewrite !Z.sub_0_r in HB.
  set (B := fold_right Z.mul 1 (map fst cs)) in *.
  assert (0 < B) as HB0.
  { unfold B. clear -HP. induction HP; simpl; [lia|]. apply prime_ge_2 in H. nia. }
  apply big_divisors_prime with B; try lia.
  intros d Pd Dd. pose proof (prime_ge_2 _ Pd).
  assert (B | d - 1) as BD; [|apply Z.divide_pos_le in BD; lia].
  apply prod_divides; auto.
  intros r Hr. apply in_map_iff in Hr as ([r' u] & E & Hin). simpl in E; subst r'.
  rewrite forallb_forall in HE. specialize (HE _ Hin). unfold entry_ok in HE.
  rewrite !andb_true_iff in HE. destruct HE as [[Hr1 Hr2] Hr3].
  apply Z.ltb_lt in Hr1. apply Z.eqb_eq in Hr2, Hr3.
  assert (prime r) as Pr by (rewrite Forall_forall in HP; apply HP; apply in_map_iff; exists (r, u); auto).
  assert (0 < (n - 1) / r) as Hc.
  { apply Zmod_divide in Hr2; [|lia]. destruct Hr2 as [k Hk]. rewrite Hk, Z.div_mul by lia. nia. }
  assert (r * ((n - 1) / r) = n - 1) as Hrc by (rewrite (Z.div_mod (n - 1) r) at 2; lia).
  pose (b := fpow (fof d 2) (Npos (zpos ((n - 1) / r)))).
  assert (fof d (pow2mod n (zpos ((n - 1) / r))) = b) as Eb.
  { apply (fof_proj_pow n); auto; [lia|lia|]. now apply pow2mod_ok. }
  apply (pow_order d r b); auto.
  - unfold b. rewrite <- fpow_mul.
    replace (N.pos (zpos ((n - 1) / r)) * Z.to_N r)%N with (Npos (zpos (n - 1))).
    + rewrite <- (fof_proj_pow n d (pow2mod n (zpos (n - 1)))); auto; [|lia|lia|now apply pow2mod_ok].
      transitivity (fof d 1); [|reflexivity].
      assert (n | pow2mod n (zpos (n - 1)) - 1) as D by (apply Zmod_divide_minus; lia).
      apply F_ext; simpl. apply (Z.divide_trans _ _ _ Dd) in D.
      destruct D as [k Hk]. replace (pow2mod n (zpos (n - 1))) with (1 + k * d) by lia.
      apply Z_mod_plus_full.
    + unfold zpos. apply N2Z.inj. rewrite N2Z.inj_mul, Z2N.id, !positive_N_Z, !Z2Pos.id by lia. lia.
  - intros E. rewrite E in Eb.
    assert (n | (pow2mod n (zpos ((n - 1) / r)) - 1) * u - 1) as D by (apply Zmod_divide_minus; lia).
    apply (Z.divide_trans _ _ _ Dd) in D.
    apply (f_equal fz) in Eb. simpl in Eb.
    assert (d | pow2mod n (zpos ((n - 1) / r)) - 1) as D2.
    { apply Zmod_divide_minus; [lia|]. rewrite Eb. apply Z.mod_small; lia. }
    assert (d | 1) as D3.
    { destruct D as [x Hx], D2 as [y Hy]. exists (y * u - x). rewrite Hy in Hx. lia. }
    apply Z.divide_pos_le in D3; lia.
Qed.

Lemma prime_5 : prime 5. Proof. apply trial_prime; vm_cast_no_check (eq_refl true). Qed.
Lemma prime_17 : prime 17. Proof. apply trial_prime; vm_cast_no_check (eq_refl true). Qed.
Lemma prime_73 : prime 73. Proof. apply trial_prime; vm_cast_no_check (eq_refl true). Qed.
Lemma prime_97 : prime 97. Proof. apply trial_prime; vm_cast_no_check (eq_refl true). Qed.
Lemma prime_103 : prime 103. Proof. apply trial_prime; vm_cast_no_check (eq_refl true). Qed.
Lemma prime_127 : prime 127. Proof. apply trial_prime; vm_cast_no_check (eq_refl true). Qed.
Lemma prime_173 : prime 173. Proof. apply trial_prime; vm_cast_no_check (eq_refl true). Qed.
Lemma prime_419 : prime 419. Proof. apply trial_prime; vm_cast_no_check (eq_refl true). Qed.
Lemma prime_991 : prime 991. Proof. apply trial_prime; vm_cast_no_check (eq_refl true). Qed.
Lemma prime_1723 : prime 1723. Proof. apply trial_prime; vm_cast_no_check (eq_refl true). Qed.
Lemma prime_8574133 : prime 8574133.
Proof.
  apply (pocklington 8574133 [(991, 1014251); (103, 3531099)]); [vm_cast_no_check (eq_refl true)|].
  constructor; [exact prime_991|]. constructor; [exact prime_103|]. constructor.
Qed.
Lemma prime_1919519569386763 : prime 1919519569386763.
Proof.
  apply (pocklington 1919519569386763 [(8574133, 1290547218147893); (127, 1870148777187772)]); [vm_cast_no_check (eq_refl true)|].
  constructor; [exact prime_8574133|]. constructor; [exact prime_127|]. constructor.
Qed.
Lemma prime_569003 : prime 569003.
Proof.
  apply (pocklington 569003 [(419, 533245); (97, 345875)]); [vm_cast_no_check (eq_refl true)|].
  constructor; [exact prime_419|]. constructor; [exact prime_97|]. constructor.
Qed.
Lemma prime_2773320623 : prime 2773320623.
Proof.
  apply (pocklington 2773320623 [(569003, 2440407146)]); [vm_cast_no_check (eq_refl true)|].
  constructor; [exact prime_569003|]. constructor.
Qed.
Lemma prime_72106336199 : prime 72106336199.
Proof.
  apply (pocklington 72106336199 [(2773320623, 8149528284)]); [vm_cast_no_check (eq_refl true)|].
  constructor; [exact prime_2773320623|]. constructor.
Qed.
Lemma prime_75445702479781427272750846543864801 : prime 75445702479781427272750846543864801.
Proof.
  apply (pocklington 75445702479781427272750846543864801 [(1919519569386763, 74602835786463724888147869570305675); (72106336199, 55965016733432503242248684386325671)]); [vm_cast_no_check (eq_refl true)|].
  constructor; [exact prime_1919519569386763|]. constructor; [exact prime_72106336199|]. constructor.
Qed.
Lemma prime_430751 : prime 430751.
Proof.
  apply (pocklington 430751 [(1723, 198753)]); [vm_cast_no_check (eq_refl true)|].
  constructor; [exact prime_1723|]. constructor.
Qed.
Lemma prime_4153 : prime 4153.
Proof.
  apply (pocklington 4153 [(173, 3405)]); [vm_cast_no_check (eq_refl true)|].
  constructor; [exact prime_173|]. constructor.
Qed.
Lemma prime_31757755568855353 : prime 31757755568855353.
Proof.
  apply (pocklington 31757755568855353 [(430751, 15419847897348699); (4153, 25117532289192573)]); [vm_cast_no_check (eq_refl true)|].
  constructor; [exact prime_430751|]. constructor; [exact prime_4153|]. constructor.
Qed.
Lemma prime_74058212732561358302231226437062788676166966415465897661863160754340907 : prime 74058212732561358302231226437062788676166966415465897661863160754340907.
Proof.
  apply (pocklington 74058212732561358302231226437062788676166966415465897661863160754340907 [(75445702479781427272750846543864801, 70463328703800545008217672123162676565183935400628861884889913886334520); (31757755568855353, 18232248056023258384404751131439975669387062239511397558448549501188471)]); [vm_cast_no_check (eq_refl true)|].
  constructor; [exact prime_75445702479781427272750846543864801|]. constructor; [exact prime_31757755568855353|]. constructor.
Qed.
Lemma prime_p_literal : prime 57896044618658097711785492504343953926634992332820282019728792003956564819949.
Proof.
  apply (pocklington 57896044618658097711785492504343953926634992332820282019728792003956564819949 [(74058212732561358302231226437062788676166966415465897661863160754340907, 55540832096118778044507775605005710249233119951144946814680141076505643269084)]); [vm_cast_no_check (eq_refl true)|].
  constructor; [exact prime_74058212732561358302231226437062788676166966415465897661863160754340907|]. constructor.
Qed.
Lemma prime_2551 : prime 2551.
Proof.
  apply (pocklington 2551 [(17, 1135); (5, 1784)]); [vm_cast_no_check (eq_refl true)|].
  constructor; [exact prime_17|]. constructor; [exact prime_5|]. constructor.
Qed.
Lemma prime_1224481 : prime 1224481.
Proof.
  apply (pocklington 1224481 [(2551, 1100631)]); [vm_cast_no_check (eq_refl true)|].
  constructor; [exact prime_2551|]. constructor.
Qed.
Lemma prime_3797 : prime 3797.
Proof.
  apply (pocklington 3797 [(73, 3357)]); [vm_cast_no_check (eq_refl true)|].
  constructor; [exact prime_73|]. constructor.
Qed.
Lemma prime_531581 : prime 531581.
Proof.
  apply (pocklington 531581 [(3797, 50673)]); [vm_cast_no_check (eq_refl true)|].
  constructor; [exact prime_3797|]. constructor.
Qed.
Lemma prime_1257559732178653 : prime 1257559732178653.
Proof.
  apply (pocklington 1257559732178653 [(1224481, 790900187493841); (531581, 212927577457398)]); [vm_cast_no_check (eq_refl true)|].
  constructor; [exact prime_1224481|]. constructor; [exact prime_531581|]. constructor.
Qed.
Lemma prime_4434155615661930479 : prime 4434155615661930479.
Proof.
  apply (pocklington 4434155615661930479 [(1257559732178653, 1010501025739283171)]); [vm_cast_no_check (eq_refl true)|].
  constructor; [exact prime_1257559732178653|]. constructor.
Qed.
Lemma prime_172054593956031949258510691 : prime 172054593956031949258510691.
Proof.
  apply (pocklington 172054593956031949258510691 [(4434155615661930479, 154275350521713489305385904)]); [vm_cast_no_check (eq_refl true)|].
  constructor; [exact prime_4434155615661930479|]. constructor.
Qed.
Lemma prime_19757330305831588566944191468367130476339 : prime 19757330305831588566944191468367130476339.
Proof.
  apply (pocklington 19757330305831588566944191468367130476339 [(172054593956031949258510691, 16371654433361644093796961727196399386194)]); [vm_cast_no_check (eq_refl true)|].
  constructor; [exact prime_172054593956031949258510691|]. constructor.
Qed.
Lemma prime_276602624281642239937218680557139826668747 : prime 276602624281642239937218680557139826668747.
Proof.
  apply (pocklington 276602624281642239937218680557139826668747 [(19757330305831588566944191468367130476339, 94074944912245044309966580483695483989395)]); [vm_cast_no_check (eq_refl true)|].
  constructor; [exact prime_19757330305831588566944191468367130476339|]. constructor.
Qed.
Lemma prime_q_literal : prime 7237005577332262213973186563042994240857116359379907606001950938285454250989.
Proof.
  apply (pocklington 7237005577332262213973186563042994240857116359379907606001950938285454250989 [(276602624281642239937218680557139826668747, 2233364593245673852815932892735013076939656528578070433728021143254617821614)]); [vm_cast_no_check (eq_refl true)|].
  constructor; [exact prime_276602624281642239937218680557139826668747|]. constructor.
Qed.

(** The field prime 2^255 - 19 and the group order 2^252 + 277...493. *)
Definition p25519 : Z := 2 ^ 255 - 19.
Definition q25519 : Z := 2 ^ 252 + 27742317777372353535851937790883648493.

Theorem prime_p25519 : prime p25519.
Proof. exact prime_p_literal. Qed.
Theorem prime_q25519 : prime q25519.
Proof. exact prime_q_literal. Qed.
Print Assumptions prime_q25519.
