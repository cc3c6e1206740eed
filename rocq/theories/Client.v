(** A client of the library: API calls as one type, and several handles on one
    core.  Definitions only. *)
From Coq.Strings Require Import Byte.
From stdpp Require Import prelude gmap.
From Verif Require Import Bytes Codec Model Spec.

(** The method of [Hyperbee] behind each call (hb.rs:47-138 delegates to
    tree.rs, put.rs, del.rs and traverse.rs). *)
Definition call_prog (fuel : nat) (c : call) : prog reply :=
  match c with
  | CGet k => r <- tree_get fuel k ;; Ret (RGet r)
  | CPut k v => '(old, new) <- tree_put fuel k v ;; Ret (RPut old new)
  | CPutCas k v f => '(old, new) <- tree_put_cas fuel k v f ;; Ret (RPutCas old new)
  | CDel k => r <- tree_del fuel k ;; Ret (RDel r)
  | CDelCas k f => r <- tree_del_cas fuel k f ;; Ret (RDelCas r)
  | CVersion => v <- version ;; Ret (RVersion v)
  | CHeader md => create_header md ;; Ret RDone
  | CTraverse conf => '(its, b) <- tree_traverse fuel conf ;; Ret (RItems its b)
  end.

(** An [Err] is an answer; a panic or an endless loop is not. *)
Definition api (fuel : nat) (c : call) : prog reply :=
  r <- catch (call_prog fuel c) ;;
  match r with inl x => Ret x | inr e => Ret (RErr e) end.

(** A handle: its cache and the nodes it holds.  Opening a handle on a core
    reads nothing: the cache is empty (hb.rs:140-168, tree.rs:161-190, blocks.rs:22-37). *)
Record handle := Handle { h_cache : gmap nat entry; h_heap : list node }.
Definition fresh : handle := Handle ∅ [].

(** One core and any number of handles on it. *)
Record world := World { w_core : list bytes; w_handles : nat -> handle }.
Definition new_world (C : list bytes) : world := World C (fun _ => fresh).

(** What handle [i] sees, with fault schedule [o]. *)
Definition view (w : world) (i : nat) (o : list fault) : st :=
  St (w_core w) (h_cache (w_handles w i)) (h_heap (w_handles w i)) o.
Definition set_handle (f : nat -> handle) (i : nat) (h : handle) : nat -> handle :=
  fun j => if (j =? i)%nat then h else f j.
Definition commit_view (w : world) (i : nat) (s : st) : world :=
  World (core s) (set_handle (w_handles w) i (Handle (cache s) (heap s))).

(** Handle [i] runs a whole call, under the fault schedule [o]. *)
Definition do_call (fuel : nat) (i : nat) (c : call) (o : list fault) (w : world) : (reply + stop) * world :=
  let '(r, s') := run (api fuel c) (view w i o) in (r, commit_view w i s').

(** The same for a method that is not among the calls. *)
Definition do_prog {A} (p : prog A) (i : nat) (o : list fault) (w : world) : (A + stop) * world :=
  let '(r, s') := run p (view w i o) in (r, commit_view w i s').

(** A handle is thrown away and opened again. *)
Definition reopen (i : nat) (w : world) : world := World (w_core w) (set_handle (w_handles w) i fresh).

(** A sequence of calls, each through some handle, without faults. *)
Fixpoint do_calls (fuel : nat) (l : list (nat * call)) (w : world) : list (reply + stop) * world :=
  match l with
  | [] => ([], w)
  | (i, c) :: l' =>
      let '(r, w1) := do_call fuel i c [] w in
      let '(rs, w2) := do_calls fuel l' w1 in (r :: rs, w2)
  end.

(** The first [k] steps of a program: where it is when the process dies there, or its
    future is dropped. *)
Fixpoint run_upto {A} (k : nat) (p : prog A) (s : st) : prog A * st :=
  match k with
  | 0 => (p, s)
  | S k' => let '(p', s') := step p s in run_upto k' p' s'
  end.

(** A task: one call through one handle, as far as it has got. *)
Record thread := Thread { th_handle : nat; th_prog : prog reply; th_faults : list fault }.
Definition task (fuel : nat) (x : nat * call * list fault) : thread :=
  let '(i, c, o) := x in Thread i (api fuel c) o.
Definition thread_step (t : thread) (w : world) : thread * world :=
  let '(p, s) := step (th_prog t) (view w (th_handle t) (th_faults t)) in
  (Thread (th_handle t) p (oracle s), commit_view w (th_handle t) s).

(** Tasks that run at the same time, step by step in the order [sched]. *)
Fixpoint tasks_run (sched : list nat) (ts : list thread) (w : world) : list thread * world :=
  match sched with
  | [] => (ts, w)
  | j :: sched' =>
      match ts !! j with
      | Some t => let '(t', w') := thread_step t w in tasks_run sched' (<[j := t']> ts) w'
      | None => tasks_run sched' ts w
      end
  end.

(** A call, and tasks that run at the same time: [sched] says whose step is next, the
    call being the first task; after that the call runs to its end and the others are
    given up. *)
Definition do_busy (fuel i : nat) (c : call) (o : list fault) (xs : list (nat * call * list fault)) (sched : list nat) (w : world) : (reply + stop) * world :=
  let '(ts, w1) := tasks_run sched (map (task fuel) ((i, c, o) :: xs)) w in
  match ts !! 0 with
  | Some th => let '(r, s) := run (th_prog th) (view w1 i (th_faults th)) in (r, commit_view w1 i s)
  | None => (inr SPanic, w1)
  end.

(** Running a history. *)
Fixpoint play (fuel : nat) (l : list event) (w : world) : list (reply + stop) * world :=
  match l with
  | [] => ([], w)
  | EvCall i c o :: l' =>
      let '(r, w1) := do_call fuel i c o w in
      let '(rs, w2) := play fuel l' w1 in (r :: rs, w2)
  | EvReopen i :: l' => play fuel l' (reopen i w)
  | EvDrop i c o k :: l' => play fuel l' (commit_view w i (snd (run_upto k (api fuel c) (view w i o))))
  | EvReads xs sched :: l' => play fuel l' (snd (tasks_run sched (map (task fuel) xs) w))
  | EvBusy i c o xs sched :: l' =>
      let '(r, w1) := do_busy fuel i c o xs sched w in
      let '(rs, w2) := play fuel l' w1 in (r :: rs, w2)
  end.

(** The world after a history that started from an empty core. *)
Definition world_after (fuel : nat) (l : list event) : world := snd (play fuel l (new_world [])).

(** Handle [i] answers in [w1] as in [w]. *)
Definition answers_as (fuel i : nat) (w1 w : world) : Prop :=
  forall c2, call_ok c2 -> exists r2 w2 w3,
    do_call fuel i c2 [] w1 = (inl r2, w2) /\ do_call fuel i c2 [] w = (inl r2, w3) /\ w_core w2 = w_core w3.

(** Opening the core [C] afresh, with any number of handles, one sees the store [b]. *)
Definition behaves (fuel : nat) (C : list bytes) (b : store) : Prop :=
  forall l, Forall event_ok l -> Forall clean l ->
    (Nat.max 1 (length C) + length l <= fuel)%nat -> (N.of_nat (Nat.max 1 (length C) + length l) < 2 ^ 50)%N ->
    exists w, play fuel l (new_world C) = (map inl (fst (spec_run (calls_of l) b)), w).
