(** Small executions of the protocol in the toy group, used for examples and refutations. *)
From Coq Require Import ZArith Lia List Bool String.
From Coq.Strings Require Import Byte.
From stdpp Require Import base gmap list.
From Verif Require Import ZField Primes Bytes Scalar Go Group ToyGroup Party Poly Zk Eddsa Messages State Keygen Sign.
Import ListNotations.
Local Open Scope Z_scope.

Definition toy_rng (seed : Z) : rng := fun i => seed * 100 + Z.of_nat i + 1.
Definition tkround := @kround toy_group.
Definition tkg : RoundI tkround := @keygen_round toy_group toy_hash.
Definition tkstate := @State toy_group tkround.
Definition tmsg := @Message toy_group.
(** A keygen State for party [i] of [ids]. *)
Definition tk_new (ids : list Z) (t i timeout : Z) : outcome tkstate := @NewKeygenState toy_group toy_hash (toy_rng i) 0 timeout i ids t.
Definition tk_run (s : outcome tkstate) (es : list (@event toy_group)) : outcome (tkstate * list tmsg) :=
  obind s (fun s => @run toy_group tkround tkg s es).
Definition tk_out (r : outcome (tkstate * list tmsg)) : list tmsg := match r with Ret (_, l) => l | _ => [] end.
Definition to_ (i : Z) (l : list tmsg) : list tmsg := List.filter (fun m => (m_To m =? i) || (m_To m =? 0)) l.
Definition hnd (l : list tmsg) : list (@event toy_group) := map (@EHandle toy_group 0) l.
Definition prc : @event toy_group := @EProcess toy_group [] [].
(** A summary without group elements: (done, round, queue length, received keys, error text). *)
Definition tk_view (r : outcome (tkstate * list tmsg)) : bool * Z * nat * list Z * bool :=
  match r with
  | Ret (s, _) => (st_done s, st_roundNumber s, List.length (st_queue s), map fst (map_to_list (st_received s)),
                   match st_err s with Some _ => true | None => false end)
  | _ => (false, -1, 0%nat, [], true)
  end.

(** The three first messages and the messages of the second round, when everybody is honest. *)
Definition k3 : list Z := [1; 2; 3].
Definition kg1_of (i : Z) : list tmsg := tk_out (tk_run (tk_new k3 1 i 0) [prc]).
Definition kg2_of (i : Z) : list tmsg :=
  skipn 1 (tk_out (tk_run (tk_new k3 1 i 0) (prc :: hnd (concat (map kg1_of k3)) ++ [prc]))).
(** A run in which each round is complete before the next one starts succeeds. *)
Definition good_history (i : Z) : list (@event toy_group) :=
  prc :: hnd (concat (map kg1_of k3)) ++ prc :: hnd (concat (map kg2_of k3)) ++ [prc].
Example good_run : tk_view (tk_run (tk_new k3 1 1 0) (good_history 1)) = (true, 2, 0%nat, [], false).
Proof. vm_compute. reflexivity. Qed.

(** ** Signing, with the sharing f(x) = 5 + 3x of three parties, threshold 1 *)
Definition tsround := @sround toy_group.
Definition tsg : RoundI tsround := @sign_round toy_group toy_hash.
Definition tsstate := @State toy_group tsround.
Definition t_public : @Public toy_group :=
  @mkPublic toy_group k3 1 (<[1 := qof 8]> (<[2 := qof 11]> (<[3 := qof 14]> ∅))) (qof 5).
Definition t_secret (i : Z) : @SecretShare toy_group := @NewSecretShare toy_group i (qof (5 + 3 * i)).
Definition t_message : list byte := [x68; x69].
Definition ts_new (ids : list Z) (i timeout : Z) : outcome tsstate :=
  @NewSignState toy_group toy_hash (toy_rng i) 0 timeout ids (t_secret i) t_public t_message.
Definition ts_run (s : outcome tsstate) (es : list (@event toy_group)) : outcome (tsstate * list tmsg) :=
  obind s (fun s => @run toy_group tsround tsg s es).
Definition ts_out (r : outcome (tsstate * list tmsg)) : list tmsg := match r with Ret (_, l) => l | _ => [] end.
(** (done, round, error with culprit, signature as numbers, verifies) *)
Definition ts_view (r : outcome (tsstate * list tmsg)) : bool * Z * option (Z * string) * bool :=
  match r with
  | Ret (s, _) => (st_done s, st_roundNumber s, option_map (fun e => (pe_PartyID e, pe_text e)) (st_err s),
                   match sg_output s with Some sig => @Verify toy_group toy_hash (qof 5) t_message sig | None => false end)
  | _ => (false, -1, None, false)
  end.
Definition s13 : list Z := [1; 3].
Definition sg1_of (i : Z) : list tmsg := ts_out (ts_run (ts_new s13 i 0) [prc]).
Definition sg2_of (i : Z) : list tmsg :=
  skipn 1 (ts_out (ts_run (ts_new s13 i 0) (prc :: hnd (concat (map sg1_of s13)) ++ [prc]))).
Definition sign_history : list (@event toy_group) :=
  prc :: hnd (concat (map sg1_of s13)) ++ prc :: hnd (concat (map sg2_of s13)) ++ [prc].
