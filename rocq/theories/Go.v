(** Results of Go functions: a value, a returned [error], or a run-time panic. *)
From Coq Require Import String List.
Import ListNotations.

(** A panic is never recovered in /repo, so it ends the process. *)
Inductive outcome (A : Type) : Type :=
| Ret (a : A)
| Fail (e : string)
| Panics (why : string).
Arguments Ret {A} _.
Arguments Fail {A} _.
Arguments Panics {A} _.

Definition obind {A B} (x : outcome A) (f : A -> outcome B) : outcome B :=
  match x with Ret a => f a | Fail e => Fail e | Panics w => Panics w end.

Definition oret_option {A} (e : string) (x : option A) : outcome A :=
  match x with Some a => Ret a | None => Fail e end.

(** [for _, x := range l { ... }] threading an accumulator, stopping at the first error or panic. *)
Fixpoint ofold {A S} (f : S -> A -> outcome S) (s : S) (l : list A) : outcome S :=
  match l with
  | [] => Ret s
  | x :: l' => obind (f s x) (fun s' => ofold f s' l')
  end.

Definition is_panic {A} (x : outcome A) : bool :=
  match x with Panics _ => true | _ => false end.

Notation "'let*' x ':=' e 'in' f" := (obind e (fun x => f))
  (at level 200, x pattern, e at level 100, f at level 200, right associativity).

Lemma obind_ret {A B} (x : outcome A) (f : A -> outcome B) b :
  obind x f = Ret b -> exists a, x = Ret a /\ f a = Ret b.
Proof. destruct x; simpl; intros H; try discriminate. eauto. Qed.

Lemma ofold_app {A S} (f : S -> A -> outcome S) s l1 l2 :
  ofold f s (l1 ++ l2) = obind (ofold f s l1) (fun s' => ofold f s' l2).
Proof.
  revert s. induction l1 as [|x l1 IH]; intros s; simpl; [reflexivity|].
  destruct (f s x); simpl; auto.
Qed.

Lemma Ret_inj {A} (x y : A) : Ret x = Ret y -> x = y.
Proof. now injection 1. Qed.
