(** Goroutines on one State at the level of single memory accesses, for the fields that are read without the mutex.
    Definitions only.

    Memory follows the Go memory model: a location keeps all its writes, a goroutine has a view (which writes happen
    before its next step), a read without newer knowledge may return any write that is not hidden by its view.
    Unlock/Lock and close/receive pass views on; nothing else does.  With [fresh = true] every read returns the newest
    write, which is sequential consistency.  Reads do not move the view, so that two racy reads may even go backwards. *)
From Coq Require Import ZArith Lia List Bool.
Import ListNotations.
Local Open Scope Z_scope.

(** pkg/state/state.go:31-33 done, err (with error.go RoundNumber), and the two fields of keygen.Output (output.go;
    sign.Output has one, which counts as both).  0 stands for false or nil. *)
Inductive loc := LDone | LErr | LRound | LPub | LSec.
Definition loc_eqb (a b : loc) : bool :=
  match a, b with LDone, LDone | LErr, LErr | LRound, LRound | LPub, LPub | LSec, LSec => true | _, _ => false end.

Inductive path := PDone | PFast | PSlow | PIsFinished.
Record result := { r_path : path; r_err : Z; r_round : Z; r_pub : Z; r_sec : Z }.

(** Programs: sequences of accesses. *)
Inductive prog :=
| Stop
| Lock (k : prog) | Unlock (k : prog)
| Read (l : loc) (k : Z -> prog) | Write (l : loc) (v : Z) (k : prog)
| Close (k : prog) | Recv (k : prog)
| Emit (r : result) (k : prog).

(** state.go:205-213 finish.  Reset and stopTimer do not touch these locations (Reset sets round.Output, the round's own
    pointer, to nil, not the fields behind it); that Reset may crash (C17) is left out here. *)
Definition finish (k : prog) : prog := Read LDone (fun d => if d =? 1 then k else Write LDone 1 (Close k)).
(** state.go:215-227 reportError, with the deferred finish; [e] is the error, [r] the round number. *)
Definition reportError (e : positive) (r : Z) (k : prog) : prog :=
  Read LDone (fun d => if d =? 1 then k else Read LErr (fun x => if x =? 0 then Write LRound r (Write LErr (Zpos e) (finish k)) else finish k)).
(** state.go:239-244 Err: two reads of s.err. *)
Definition Err (k : Z -> prog) : prog := Read LErr (fun x => if x =? 0 then k 0 else Read LErr k).

(** What a caller does after it has seen the end: read the error and the output. *)
Definition observe (p : path) (k : prog) : prog :=
  Err (fun e => Read LRound (fun r => Read LPub (fun a => Read LSec (fun s => Emit {| r_path := p; r_err := e; r_round := r; r_pub := a; r_sec := s |} k)))).

Inductive op :=
| OIdle                                (* HandleMessage; ProcessAll that ends no protocol *)
| OError (e : positive) (r : Z)        (* ProcessAll with an error of ProcessMessage or GenerateMessages *)
| OFinish                              (* ProcessAll of the last round *)
| OTimeout (e : positive) (r : Z)      (* the timer callback *)
| ODone | OIsFinished | OWait.         (* readers *)

Definition run_op (o : op) (k : prog) : prog :=
  match o with
  (* state.go:83-88, 136-146 *)
  | OIdle => Lock (Read LDone (fun _ => Unlock k))
  (* state.go:136-152, 160-164 *)
  | OError e r => Lock (Read LDone (fun d => if d =? 1 then Unlock k else reportError e r (Unlock k)))
  (* state.go:136-196; the output is written by GenerateMessages (keygen/round2.go:36-42, sign/round2.go:50) *)
  | OFinish => Lock (Read LDone (fun d => if d =? 1 then Unlock k else Write LPub 1 (Write LSec 1 (finish (Unlock k)))))
  (* state.go:45-49 *)
  | OTimeout e r => Lock (reportError e r (Unlock k))
  (* state.go:235-237: <-s.Done() *)
  | ODone => Recv (observe PDone k)
  (* state.go:257-259 *)
  | OIsFinished => Read LDone (fun d => if d =? 1 then observe PIsFinished k else k)
  (* state.go:249-254: the result of WaitForError is its Err, read first *)
  | OWait => Read LDone (fun d => if d =? 1 then observe PFast k else Recv (observe PSlow k))
  end.
Definition run_ops (os : list op) : prog := fold_right run_op Stop os.

(** ** The machine *)
Definition view := loc -> nat.
Definition vjoin (a b : view) : view := fun l => Nat.max (a l) (b l).
Definition upd {A} (f : loc -> A) (l : loc) (v : A) : loc -> A := fun l' => if loc_eqb l l' then v else f l'.
Record config := {
  c_mem : loc -> list Z;               (* all writes, oldest first *)
  c_lock : option nat; c_lview : view;
  c_chan : option view;                (* Some when closed *)
  c_prog : nat -> prog; c_view : nat -> view;
  c_results : list result;
  c_panic : bool                       (* a channel was closed twice, or an unlocked mutex was unlocked *)
}.
Definition upd_t {A} (f : nat -> A) (i : nat) (v : A) : nat -> A := fun j => if Nat.eqb i j then v else f j.
(** The newest write of each location. *)
Definition newest (c : config) : loc -> Z := fun l => List.last (c_mem c l) 0.

Inductive step (fresh : bool) (c : config) : config -> Prop :=
| step_lock i k : c_prog c i = Lock k -> c_lock c = None ->
    step fresh c {| c_mem := c_mem c; c_lock := Some i; c_lview := c_lview c; c_chan := c_chan c; c_prog := upd_t (c_prog c) i k;
      c_view := upd_t (c_view c) i (vjoin (c_view c i) (c_lview c)); c_results := c_results c; c_panic := c_panic c |}
| step_unlock i k : c_prog c i = Unlock k ->
    step fresh c {| c_mem := c_mem c; c_lock := None; c_lview := vjoin (c_lview c) (c_view c i); c_chan := c_chan c; c_prog := upd_t (c_prog c) i k;
      c_view := c_view c; c_results := c_results c;
      c_panic := c_panic c || match c_lock c with Some _ => false | None => true end |}
| step_read i l k t v : c_prog c i = Read l k -> (c_view c i l <= t)%nat -> nth_error (c_mem c l) t = Some v ->
    (fresh = true -> t = (List.length (c_mem c l) - 1)%nat) ->
    step fresh c {| c_mem := c_mem c; c_lock := c_lock c; c_lview := c_lview c; c_chan := c_chan c; c_prog := upd_t (c_prog c) i (k v);
      c_view := c_view c; c_results := c_results c; c_panic := c_panic c |}
| step_write i l v k : c_prog c i = Write l v k ->
    step fresh c {| c_mem := upd (c_mem c) l (c_mem c l ++ [v]); c_lock := c_lock c; c_lview := c_lview c; c_chan := c_chan c; c_prog := upd_t (c_prog c) i k;
      c_view := upd_t (c_view c) i (upd (c_view c i) l (List.length (c_mem c l))); c_results := c_results c; c_panic := c_panic c |}
| step_close i k : c_prog c i = Close k ->
    step fresh c {| c_mem := c_mem c; c_lock := c_lock c; c_lview := c_lview c; c_chan := Some (c_view c i); c_prog := upd_t (c_prog c) i k;
      c_view := c_view c; c_results := c_results c;
      c_panic := c_panic c || match c_chan c with Some _ => true | None => false end |}
| step_recv i k w : c_prog c i = Recv k -> c_chan c = Some w ->
    step fresh c {| c_mem := c_mem c; c_lock := c_lock c; c_lview := c_lview c; c_chan := c_chan c; c_prog := upd_t (c_prog c) i k;
      c_view := upd_t (c_view c) i (vjoin (c_view c i) w); c_results := c_results c; c_panic := c_panic c |}
| step_emit i r k : c_prog c i = Emit r k ->
    step fresh c {| c_mem := c_mem c; c_lock := c_lock c; c_lview := c_lview c; c_chan := c_chan c; c_prog := upd_t (c_prog c) i k;
      c_view := c_view c; c_results := r :: c_results c; c_panic := c_panic c |}.
Inductive steps (fresh : bool) (c : config) : config -> Prop :=
| steps_refl : steps fresh c c
| steps_step c1 c2 : steps fresh c c1 -> step fresh c1 c2 -> steps fresh c c2.

(** A new State: all fields zero, any number of goroutines with any calls. *)
Definition init (ops : nat -> list op) : config :=
  {| c_mem := fun _ => [0]; c_lock := None; c_lview := fun _ => O; c_chan := None; c_prog := fun i => run_ops (ops i);
     c_view := fun _ _ => O; c_results := []; c_panic := false |}.
