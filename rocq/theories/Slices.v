(** Go slices over shared arrays, and the functions of /repo that build byte strings or filter lists in place. *)
From Coq Require Import ZArith Lia List Bool String.
From Coq.Strings Require Import Byte.
From stdpp Require Import base gmap list.
From Verif Require Import ZField Primes Bytes Scalar Go Group Party Poly Zk Eddsa Messages State Keygen Sign.
Import ListNotations.
Local Open Scope Z_scope.

Section Slice.
  Context {A : Type} (zero : A).
  (** The arrays allocated so far; an array never changes its length. *)
  Definition arrays := list (list A).
  (** A slice: array, offset, length, capacity.  nil has capacity 0. *)
  Record slice := mkSlice { sl_arr : nat; sl_off : nat; sl_len : nat; sl_cap : nat }.
  Definition nil_slice : slice := mkSlice 0 0 0 0.
  Definition array (h : arrays) (a : nat) : list A := nth a h [].
  (** What a slice shows. *)
  Definition contents (h : arrays) (s : slice) : list A := firstn (sl_len s) (skipn (sl_off s) (array h (sl_arr s))).
  Definition slice_ok (h : arrays) (s : slice) : Prop := (sl_len s <= sl_cap s)%nat /\ (sl_off s + sl_cap s <= List.length (array h (sl_arr s)))%nat.

  (** Overwrite part of an array. *)
  Definition put (l : list A) (i : nat) (xs : list A) : list A := firstn i l ++ xs ++ skipn (i + List.length xs) l.
  Fixpoint set_array (h : arrays) (a : nat) (l : list A) : arrays :=
    match h, a with
    | [], _ => []
    | _ :: h', O => l :: h'
    | x :: h', S a' => x :: set_array h' a' l
    end.
  (** make([]A, len, cap) *)
  Definition make (h : arrays) (len cap : nat) : arrays * slice := (h ++ [repeat zero cap], mkSlice (List.length h) 0 len cap).
  (** append(s, xs...): in place while the capacity lasts, otherwise into a new array with [grow n] elements to spare for the n needed
      (the run-time's choice). *)
  Definition append (grow : nat -> nat) (h : arrays) (s : slice) (xs : list A) : arrays * slice :=
    let n := (sl_len s + List.length xs)%nat in
    if Nat.leb n (sl_cap s) then
      (set_array h (sl_arr s) (put (array h (sl_arr s)) (sl_off s + sl_len s) xs), mkSlice (sl_arr s) (sl_off s) n (sl_cap s))
    else (h ++ [contents h s ++ xs ++ repeat zero (grow n)], mkSlice (List.length h) 0 n (n + grow n)).
  (** Several appends, one after the other. *)
  Definition appends grow (h : arrays) (s : slice) (xss : list (list A)) : arrays * slice :=
    fold_left (fun hs xs => append grow (fst hs) (snd hs) xs) xss (h, s).
  (** s[i:j]; None is the panic. *)
  Definition reslice (s : slice) (i j : nat) : option slice :=
    if Nat.leb i j && Nat.leb j (sl_cap s) then Some (mkSlice (sl_arr s) (sl_off s + i) (j - i) (sl_cap s - i)) else None.
  (** copy(s, xs) *)
  Definition copy_into (h : arrays) (s : slice) (xs : list A) : arrays :=
    set_array h (sl_arr s) (put (array h (sl_arr s)) (sl_off s) (firstn (sl_len s) xs)).
  (** An assignment s[i] = x (for i < len). *)
  Definition set_at (h : arrays) (s : slice) (i : nat) (x : A) : arrays :=
    set_array h (sl_arr s) (put (array h (sl_arr s)) (sl_off s + i) [x]).
End Slice.
Arguments arrays : clear implicits.

(** state.go:169-179: [newQueue := s.queue[:0]]; the range over s.queue reads the element i of the array when it gets there, and newQueue,
    which has the same array, is appended to.  [i] counts the elements read. *)
Section Queue.
  Context {A : Type} (zero : A) (cur : A -> bool).
  Fixpoint filter_loop (grow : nat -> nat) (todo : nat) (i : nat) (queue : slice) (h : arrays A) (newQueue : slice) (taken : list A) : arrays A * slice * list A :=
    match todo with
    | O => (h, newQueue, taken)
    | S k =>
      let msg := nth i (contents h queue) zero in
      if cur msg then filter_loop grow k (S i) queue h newQueue (taken ++ [msg])
      else let '(h', q') := append zero grow h newQueue [msg] in filter_loop grow k (S i) queue h' q' taken
    end.
  (** The new queue, and the messages moved to receivedMessages in this order. *)
  Definition filter_queue (grow : nat -> nat) (h : arrays A) (queue : slice) : option (arrays A * slice * list A) :=
    match reslice queue 0 0 with
    | Some q0 => Some (filter_loop grow (sl_len queue) 0 queue h q0 [])
    | None => None
    end.
End Queue.

(** idslice.go:56-61 Copy, and idslice.go:11-15 NewIDSlice: the copy is sorted in place. *)
Definition ids_Copy (h : arrays Z) (ids : slice) : arrays Z * slice :=
  let '(h1, newIds) := make 0 h (sl_len ids) (sl_len ids) in (copy_into h1 newIds (contents h1 ids), newIds).
Definition ids_New (h : arrays Z) (partyIDs : slice) : arrays Z * slice :=
  let '(h1, ids) := ids_Copy h partyIDs in (copy_into h1 ids (NewIDSlice (contents h1 ids)), ids).

Section BytesAppend.
  Context `{Gr : group_ops} `{Hf : hash_fn}.
  Notation arrs := (arrays byte).
  Definition bappend := @append byte x00.
  Definition bappends := @appends byte x00.

  (** header.go:70-90 *)
  Definition header_BytesAppend grow (h : arrs) (existing : slice) (hd : Header) : outcome (arrs * slice) :=
    let* _ := header_check "Header.BytesAppend" hd in
    Ret (bappends grow h existing [[z2b (h_Type hd)]; id_bytes (h_From hd); id_bytes (h_To hd)]).
  (** schnorr.go:119-123 *)
  Definition schnorr_BytesAppend grow (h : arrs) (existing : slice) (p : Schnorr) : arrs * slice :=
    bappends grow h existing [scalar_bytes (pr_S p); scalar_bytes (pr_R p)].
  (** exponent.go:215-221 *)
  Definition exp_BytesAppend grow (h : arrs) (existing : slice) (p : Exponent) : arrs * slice :=
    bappends grow h existing (id_bytes (exp_degree p) :: map genc p).
  (** keygen1.go:29-40 *)
  Definition k1_BytesAppend grow (h : arrs) (existing : slice) (k : KeyGen1) : arrs * slice :=
    let '(h1, s1) := schnorr_BytesAppend grow h existing (k1_Proof k) in exp_BytesAppend grow h1 s1 (k1_Commitments k).
  (** keygen2.go:28-30, sign1.go:31-35, sign2.go:28-30 *)
  Definition k2_BytesAppend grow (h : arrs) (existing : slice) (k : KeyGen2) : arrs * slice := bappend grow h existing (scalar_bytes (k2_Share k)).
  Definition s1_BytesAppend grow (h : arrs) (existing : slice) (s : Sign1) : arrs * slice := bappends grow h existing [genc (s1_Di s); genc (s1_Ei s)].
  Definition s2_BytesAppend grow (h : arrs) (existing : slice) (s : Sign2) : arrs * slice := bappend grow h existing (scalar_bytes (s2_Zi s)).
  (** messages.go:29-55 *)
  Definition msg_BytesAppend grow (h : arrs) (existing : slice) (m : Message) : outcome (arrs * slice) :=
    let* hs := header_BytesAppend grow h existing (m_Header m) in
    let body := if m_Type m =? MTKeyGen1 then option_map (k1_BytesAppend grow (fst hs) (snd hs)) (m_KeyGen1 m)
           else if m_Type m =? MTKeyGen2 then option_map (k2_BytesAppend grow (fst hs) (snd hs)) (m_KeyGen2 m)
           else if m_Type m =? MTSign1 then option_map (s1_BytesAppend grow (fst hs) (snd hs)) (m_Sign1 m)
           else if m_Type m =? MTSign2 then option_map (s2_BytesAppend grow (fst hs) (snd hs)) (m_Sign2 m)
           else None in
    match body with Some r => Ret r | None => Fail "message does not contain any data" end.
  (** messages.go:80-84 MarshalBinary *)
  Definition msg_MarshalBinary_slice grow (h : arrs) (m : Message) : outcome (arrs * slice) :=
    let '(h1, buf) := make x00 h 0 (Z.to_nat (msg_Size m)) in msg_BytesAppend grow h1 buf m.
  (** The other MarshalBinary: header.go:26-29, schnorr.go:97-100, exponent.go:179-182, keygen1.go:42-46, keygen2.go:32-36, sign1.go:37-41,
      sign2.go:32-36. *)
  Definition header_MarshalBinary_slice grow (h : arrs) (hd : Header) : outcome (arrs * slice) := let '(h1, b) := make x00 h 0 headerSize in header_BytesAppend grow h1 b hd.
  Definition schnorr_MarshalBinary_slice grow (h : arrs) (p : Schnorr) : arrs * slice := let '(h1, b) := make x00 h 0 64 in schnorr_BytesAppend grow h1 b p.
  Definition exp_MarshalBinary_slice grow (h : arrs) (p : Exponent) : arrs * slice := let '(h1, b) := make x00 h 0 (Z.to_nat (exp_size p)) in exp_BytesAppend grow h1 b p.
  Definition k1_MarshalBinary_slice grow (h : arrs) (k : KeyGen1) : arrs * slice :=
    let '(h1, b) := make x00 h 0 (Z.to_nat (64 + exp_size (k1_Commitments k))) in k1_BytesAppend grow h1 b k.
  Definition k2_MarshalBinary_slice grow (h : arrs) (k : KeyGen2) : arrs * slice := let '(h1, b) := make x00 h 0 32 in k2_BytesAppend grow h1 b k.
  Definition s1_MarshalBinary_slice grow (h : arrs) (s : Sign1) : arrs * slice := let '(h1, b) := make x00 h 0 64 in s1_BytesAppend grow h1 b s.
  Definition s2_MarshalBinary_slice grow (h : arrs) (s : Sign2) : arrs * slice := let '(h1, b) := make x00 h 0 32 in s2_BytesAppend grow h1 b s.
  (** secret_share.go:34-39 MarshalBinary; signature.go:24-29 ToEd25519; signature.go:34-37, the bytes hashed by ComputeChallenge. *)
  Definition share_MarshalBinary_slice grow (h : arrs) (sk : SecretShare) : arrs * slice :=
    let '(h1, data) := make x00 h 0 34 in bappends grow h1 data [id_bytes (sh_ID sk); scalar_bytes (sh_Secret sk)].
  Definition sig_ToEd25519_slice grow (h : arrs) (s : Signature) : arrs * slice :=
    let '(h1, out) := make x00 h 0 64 in bappends grow h1 out [gencEd (sig_R s); scalar_bytes (sig_S s)].
  Definition challenge_data grow (h : arrs) (R groupKey : G) (message : list byte) : arrs * slice :=
    let '(h1, data) := make x00 h 0 (64 + List.length message) in bappends grow h1 data [gencEd R; gencEd groupKey; message].
  (** signature.go:51-54 and 75-79 *)
  Definition sig_BytesAppend grow (h : arrs) (existing : slice) (s : Signature) : arrs * slice := bappends grow h existing [genc (sig_R s); scalar_bytes (sig_S s)].
  Definition sig_MarshalBinary_slice grow (h : arrs) (s : Signature) : arrs * slice := let '(h1, out) := make x00 h 0 64 in sig_BytesAppend grow h1 out s.

  (** marshalling.go:23-65 CheckFROSTMarshaler; the interface's methods of the two arguments' type are parameters. *)
  Definition CheckFROSTMarshaler {A} (marshal : arrs -> A -> outcome (arrs * slice)) (unmarshal : A -> list byte -> outcome A)
      (bytesAppend : arrs -> slice -> A -> outcome (arrs * slice)) (size : A -> Z) (h : arrs) (input output : A) : outcome unit :=
    let* r1 := marshal h input in
    let firstData := contents (fst r1) (snd r1) in
    let* output' := unmarshal output firstData in
    let* r2 := marshal (fst r1) output' in
    if negb (bytes_eqb (contents (fst r2) (snd r1)) (contents (fst r2) (snd r2))) then Fail "both byte outputs should be the same" else
    if negb (size input =? Z.of_nat (sl_len (snd r1))) then Fail "reported size should be consistent" else
    let* r3 := bytesAppend (fst r2) nil_slice input in
    if negb (bytes_eqb (contents (fst r3) (snd r1)) (contents (fst r3) (snd r3))) then Fail "both byte outputs should be the same" else Ret tt.
  Definition check_message grow := CheckFROSTMarshaler (msg_MarshalBinary_slice grow) msg_UnmarshalBinary (msg_BytesAppend grow) msg_Size.
  (** signature.go:57-83; a signature's UnmarshalBinary overwrites the receiver. *)
  Definition check_signature grow := CheckFROSTMarshaler (fun h s => Ret (sig_MarshalBinary_slice grow h s)) (fun _ data => sig_unmarshal data)
    (fun h s x => Ret (sig_BytesAppend grow h s x)) (fun _ => 64).

  (** schnorr.go:86-88: [buffer := make([]byte, 64)]; [h.Sum(buffer)] appends. *)
  Definition challenge_Sum grow (h : arrs) (digest : list byte) : arrs * slice :=
    let '(h1, buffer) := make x00 h 64 64 in bappend grow h1 buffer digest.

  (** sign/round1.go:28-75 computeRhos: the buffer is filled once, the ID in it replaced before each hash.  sizeB is computed in uint16. *)
  Definition rho_header grow (h : arrs) (self : ID) (n : Z) (message : list byte) : arrs * slice :=
    let sizeB := u16 (n * 66) in
    let '(h1, buffer) := make x00 h 0 (Z.to_nat (12 + 2 + 64 + sizeB)) in
    bappends grow h1 buffer [hashDomainSeparation; id_bytes self; sha512 message].
  Definition rho_B_slice grow (hs : arrs * slice) (parties : gmap ID signer) (ids : list ID) : outcome (arrs * slice) :=
    ofold (fun hs id =>
      match parties !! id with
      | None => Panics "nil signer"
      | Some p => Ret (bappends grow (fst hs) (snd hs) [id_bytes id; genc (sg_Di p); genc (sg_Ei p)])
      end) hs ids.
  Definition rho_loop (buffer : slice) (h : arrs) (parties : gmap ID signer) (ids : list ID) : outcome (arrs * gmap ID signer) :=
    ofold (fun hp id =>
      match reslice buffer 12 (sl_len buffer) with
      | None => Panics "slice bounds out of range"
      | Some dst =>
        let h' := copy_into (fst hp) dst (id_bytes id) in
        match snd hp !! id with
        | None => Panics "nil signer"
        | Some p =>
          let rho := scalar_set_uniform (sg_Pi p) (sha512 (contents h' buffer)) in
          Ret (h', <[id := mkSigner (sg_Public p) (sg_Di p) (sg_Ei p) (sg_Ri p) rho (sg_Zi p)]> (snd hp))
        end
      end) (h, parties) ids.
  Definition computeRhos_slice grow (h : arrs) (s : sround) : outcome (arrs * gmap ID signer) :=
    let* hs := rho_B_slice grow (rho_header grow h (sr_self s) (N_ids (sr_ids s)) (sr_Message s)) (sr_Parties s) (sr_ids s) in
    rho_loop (snd hs) (fst hs) (sr_Parties s) (sr_ids s).
End BytesAppend.
