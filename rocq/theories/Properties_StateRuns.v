(** C11, C12, C13, C15, C16, C17, C19, C37: the State theorems at the two protocols, concrete cases, and the
    executions that refute what does not hold. *)
From Coq Require Import ZArith Lia List Bool String Permutation Sorted.
From Coq.Strings Require Import Byte.
From stdpp Require Import base gmap list.
From Verif Require Import ZField Primes Bytes Scalar Go Group ToyGroup Party Poly Zk Eddsa Messages State StateFacts Spec_State
  Keygen Sign RoundFacts Properties_State ToyRuns.
Import ListNotations.
Local Open Scope Z_scope.

(** The general theorems apply to key generation and to signing (their Round methods keep ID and party list). *)
Theorem C13_protocols : forall (Gr : group_ops) (Hf : hash_fn),
  (forall now t r s out, reaches keygen_round (NewBaseState keygen_round now t r) s out ->
     st_closed s = (if st_done s then 1%nat else 0%nat) /\ (st_err s <> None -> st_done s = true)) /\
  (forall now t r s out, reaches sign_round (NewBaseState sign_round now t r) s out ->
     st_closed s = (if st_done s then 1%nat else 0%nat) /\ (st_err s <> None -> st_done s = true)).
Proof.
  intros Gr Hf. split; intros now t r s out; apply C13_closed_iff_done; [apply keygen_round_ok|apply sign_round_ok].
Qed.

(** Signing never crashes on a timeout. *)
Theorem C17_sign_no_crash : forall (Gr : group_ops) (Hf : hash_fn) now t r s out,
  reaches sign_round (NewBaseState sign_round now t r) s out -> exists s', timerCallback sign_round s = Ret s'.
Proof.
  intros Gr Hf now t r s out HR. destruct (timerCallback sign_round s) as [s'|e|w] eqn:E; eauto.
  - exfalso. unfold timerCallback, reportError, finish in E. cbn in E.
    destruct (tm_pending _); [discriminate|]. cbn in E. destruct (st_done s); [discriminate|]. destruct (st_closed s); discriminate.
  - apply (C17_crash_partial _ sign_round_ok now t r s out w HR) in E as [E _]. discriminate.
Qed.

Definition is_ret {A} (x : outcome A) : bool := match x with Ret _ => true | _ => false end.
Definition herr (s : outcome (tkstate * list tmsg)) (m : tmsg) : option (Z * Z * option Z) :=
  match s with
  | Ret (s, _) => match snd (@HandleMessage toy_group tkround tkg 0 s m) with
                  | Some e => Some (we_party e, we_round e, we_culprit e) | None => None end
  | _ => Some (0, 0, None)
  end.
Definition first (l : list tmsg) : tmsg := hd (@zero_message toy_group) l.
Definition to1 (l : list tmsg) : list tmsg := List.filter (fun m => m_To m =? 1) l.

(** ** C12 *)
(** Party 1 of three honest parties gets 2's messages in the order 2 sent them, while 3 is slower: 2's message for the
    second round is refused with an error and lost, and after all messages were delivered party 1 waits forever. *)
Definition fifo_history : list (@event toy_group) :=
  prc :: hnd (kg1_of 2) ++ hnd (to1 (kg2_of 2)) ++ hnd (kg1_of 3) ++ prc :: hnd (to1 (kg2_of 3)) ++ [prc; prc].
Theorem C12_refuted :
  (* the State is running, in round 1 of 3, and 2's second message (well-formed, for us, of an accepted type) is refused *)
  tk_view (tk_run (tk_new k3 1 1 0) (prc :: hnd (kg1_of 2))) = (false, 1, 0%nat, [2], false) /\
  map (fun m => (m_Type m, m_From m, m_To m)) (to1 (kg2_of 2)) = [(MTKeyGen2, 2, 1)] /\
  herr (tk_run (tk_new k3 1 1 0) (prc :: hnd (kg1_of 2))) (first (to1 (kg2_of 2))) = Some (1, 2, Some 1) /\
  (* and the run cannot finish: round 2, only 3's message stored, nothing queued *)
  tk_view (tk_run (tk_new k3 1 1 0) fifo_history) = (false, 2, 0%nat, [3], false) /\
  (* whereas in an order that completes each round first it finishes *)
  tk_view (tk_run (tk_new k3 1 1 0) (good_history 1)) = (true, 2, 0%nat, [], false).
Proof. vm_compute. repeat split. Qed.
(** Before the first ProcessAll every message is refused as "already received". *)
Theorem C12_round0_refuted :
  herr (tk_run (tk_new k3 1 1 0) []) (first (kg1_of 2)) = Some (1, 2, Some 0) /\
  tk_view (tk_run (tk_new k3 1 1 0) (hnd (kg1_of 2) ++ prc :: hnd (kg1_of 3) ++ [prc])) = (false, 1, 0%nat, [3], false).
Proof. vm_compute. repeat split. Qed.
(** A case where the queue works: 2's second message arrives before its first. *)
Example C12_example :
  tk_view (tk_run (tk_new k3 1 1 0) (prc :: hnd (to1 (kg2_of 2)))) = (false, 1, 1%nat, [], false) /\
  tk_view (tk_run (tk_new k3 1 1 0) (prc :: hnd (to1 (kg2_of 2)) ++ hnd (kg1_of 2) ++ hnd (kg1_of 3) ++ [prc])) = (false, 2, 0%nat, [2], false).
Proof. vm_compute. repeat split. Qed.

(** ** C16 *)
(** Two messages of 2 for the second round are both accepted while queued, and the later one replaces the first. *)
Definition share_msg (x : Z) : tmsg := @NewKeyGen2 toy_group 2 1 (qof x).
Theorem C16_refuted :
  herr (tk_run (tk_new k3 1 1 0) [prc]) (share_msg 7) = None /\
  herr (tk_run (tk_new k3 1 1 0) (prc :: hnd [share_msg 7])) (share_msg 8) = None /\
  match tk_run (tk_new k3 1 1 0) (prc :: hnd [share_msg 7; share_msg 8] ++ hnd (kg1_of 2) ++ hnd (kg1_of 3) ++ [prc]) with
  | Ret (s, _) => match st_received s !! 2 with
                  | Some (Some m) => match m_KeyGen2 m with Some b => fz (k2_Share b) | None => 0 end
                  | _ => 0 end
  | _ => 0 end = 8.
Proof. vm_compute. repeat split. Qed.
(** A stored message is not replaced. *)
Example C16_example :
  herr (tk_run (tk_new k3 1 1 0) (prc :: hnd (kg1_of 2))) (first (kg1_of 2)) = Some (1, 2, Some 1).
Proof. vm_compute. reflexivity. Qed.

(** ** C17 *)
(** A timeout before the first ProcessAll crashes a keygen State (Reset of a nil polynomial). *)
Theorem C17_refuted :
  match tk_new k3 1 1 5 with
  | Ret s => match @run toy_group tkround tkg s [@EExpire toy_group 5; @ECallback toy_group] with Panics w => Some w | _ => None end
  | _ => None end = Some "invalid memory address or nil pointer dereference"%string.
Proof. vm_compute. reflexivity. Qed.
(** After it, the run aborts cleanly, blaming nobody; not before the 5 time units have passed. *)
Example C17_example :
  match tk_run (tk_new k3 1 1 5) [prc; @EExpire toy_group 4; @ECallback toy_group] with
  | Ret (s, _) => st_done s | _ => true end = false /\
  match tk_run (tk_new k3 1 1 5) [prc; @EExpire toy_group 5; @ECallback toy_group] with
  | Ret (s, _) => match st_err s with Some e => (st_done s, pe_PartyID e, pe_text e) | None => (false, -1, ""%string) end
  | _ => (false, -2, ""%string) end = (true, 0, "message timeout"%string).
Proof. vm_compute. repeat split. Qed.

(** ** C37 *)
(** Party 1, in round 1, refuses a second message of party 2: the text says "party 1, round 2, culprit 1". *)
Theorem C37_refuted :
  tk_view (tk_run (tk_new k3 1 1 0) (prc :: hnd (kg1_of 2))) = (false, 1, 0%nat, [2], false) /\
  m_From (first (kg1_of 2)) = 2 /\
  herr (tk_run (tk_new k3 1 1 0) (prc :: hnd (kg1_of 2))) (first (kg1_of 2)) = Some (1, 2, Some 1).
Proof. vm_compute. repeat split. Qed.

(** ** C19 *)
(** Five bytes that decode without error and crash the next ProcessAll (a KeyGen1 message of 2 without body). *)
Definition crash_bytes : list byte := [x01; x00; x02; x00; x00].
Theorem C19_refuted :
  match @msg_UnmarshalBinary toy_group (@zero_message toy_group) crash_bytes with
  | Ret m =>
    herr (tk_run (tk_new k3 1 1 0) [prc]) m = None /\
    match tk_run (tk_new k3 1 1 0) (prc :: hnd (m :: kg1_of 3) ++ [prc]) with Panics w => Some w | _ => None end = Some "nil KeyGen1"%string
  | _ => False
  end.
Proof. vm_compute. repeat split. Qed.

(** ** C11, C13, C15: concrete cases *)
Example C11_example :
  herr (tk_run (tk_new k3 1 1 0) [prc]) (first (kg1_of 2)) = None /\                               (* stored *)
  herr (tk_run (tk_new k3 1 1 0) [prc]) (first (kg1_of 1)) = None /\                               (* our own: dropped *)
  herr (tk_run (tk_new k3 1 1 0) [prc]) (@NewKeyGen1 toy_group 9 (mkSchnorr f0 f0) []) <> None /\  (* not a party *)
  herr (tk_run (tk_new k3 1 1 0) [prc]) (@NewSign2 toy_group 2 f0) <> None.                        (* type *)
Proof. vm_compute. repeat split; discriminate. Qed.
Example C13_example :
  match tk_new k3 1 1 0 with Ret s => @emissions toy_group tkround tkg s (good_history 1 ++ [prc; prc]) | _ => [] end = [0; 1].
Proof. vm_compute. reflexivity. Qed.
Example C15_example :
  tk_view (tk_run (tk_new k3 1 1 0) (prc :: hnd (kg1_of 2) ++ [prc])) = (false, 1, 0%nat, [2], false) /\
  tk_view (tk_run (tk_new k3 1 1 0) (prc :: hnd (kg1_of 2) ++ hnd (kg1_of 3) ++ [prc])) = (false, 2, 0%nat, [], false).
Proof. vm_compute. repeat split. Qed.

Print Assumptions C11_accepts.
Print Assumptions C11_rejects.
Print Assumptions C13_final.
Print Assumptions C13_emits_once_per_round.
Print Assumptions C15_all_in.
Print Assumptions C16_current_partial.
Print Assumptions C17_aborts.
Print Assumptions C12_refuted.
