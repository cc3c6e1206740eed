(** Tasks that run at the same time.  Definitions only.

    The methods of [Hyperbee] take [&self] and only read locks of the tree
    (hb.rs:47-138, tree.rs:24-60), so calls on one handle overlap at every await
    point; different handles share nothing but the core.  A task can be preempted
    between any two commands of its program: that includes every await point of
    the code, and more. *)
From Coq.Strings Require Import Byte.
From stdpp Require Import prelude gmap.
From Verif Require Import Bytes Codec Model Spec Client.

(** A client that works through a list of calls and reopenings, one after the other,
    and the replies it has received. *)
Record actor := Actor { a_now : option thread; a_todo : list event; a_done : list (reply + stop) }.

Definition actor_step (fuel : nat) (a : actor) (w : world) : actor * world :=
  match a_now a with
  | Some t =>
      match th_prog t with
      | Ret r => (Actor None (a_todo a) (a_done a ++ [inl r]), w)
      | Stop x => (Actor None (a_todo a) (a_done a ++ [inr x]), w)
      | _ => let '(t', w') := thread_step t w in (Actor (Some t') (a_todo a) (a_done a), w')
      end
  | None =>
      match a_todo a with
      | [] => (a, w)
      | EvCall i c o :: l => (Actor (Some (task fuel (i, c, o))) l (a_done a), w)
      | EvReopen i :: l => (Actor None l (a_done a), reopen i w)
      | _ :: l => (Actor None l (a_done a), w)
      end
  end.

(** The actor and any number of tasks, on one core. *)
Record sys := Sys { y_actor : actor; y_threads : list thread; y_world : world }.
Definition idle : actor := Actor None [] [].

Inductive move := MActor | MThread (j : nat).

Definition sys_step (fuel : nat) (m : move) (y : sys) : sys :=
  match m with
  | MActor => let '(a, w) := actor_step fuel (y_actor y) (y_world y) in Sys a (y_threads y) w
  | MThread j =>
      match y_threads y !! j with
      | Some t => let '(t', w) := thread_step t (y_world y) in Sys (y_actor y) (<[j := t']> (y_threads y)) w
      | None => y
      end
  end.

(** A schedule: who moves next. *)
Fixpoint sys_run (fuel : nat) (sched : list move) (y : sys) : sys :=
  match sched with
  | [] => y
  | m :: sched' => sys_run fuel sched' (sys_step fuel m y)
  end.

(** What task [j] has answered. *)
Definition answer (y : sys) (j : nat) : option reply :=
  match th_prog <$> y_threads y !! j with Some (Ret r) => Some r | _ => None end.
Definition stopped_at (y : sys) (j : nat) : option stop :=
  match th_prog <$> y_threads y !! j with Some (Stop x) => Some x | _ => None end.

(** A call that only reads, through a handle that is usable after [l1] and not used
    in [l2]. *)
Definition reading (l1 l2 : list event) (x : nat * call * list fault) : Prop :=
  let '(i, c, o) := x in usable l1 i /\ Forall (fun e => ~ uses e i) l2 /\ reads_only c /\ call_ok c.

Definition ended (y : sys) (j : nat) : Prop := is_Some (answer y j) \/ is_Some (stopped_at y j).

(** What [r] reports was in the store of [w], as handle [i] would have answered, or is
    the entry that [c] puts, in the next block. *)
Definition in_store (fuel : nat) (w : world) (i : nat) (q : nat) (k : bytes) (v : option bytes) : Prop :=
  fst (do_call fuel i (CGet k) [] w) = inl (RGet (Some (q, v))).
Definition put_by (c : call) (w : world) (q : nat) (k : bytes) (v : option bytes) : Prop :=
  match c with CPut k' v' | CPutCas k' v' _ => q = length (w_core w) /\ k = k' /\ v = v' | _ => False end.
Definition old_or_put (fuel : nat) (w : world) (i : nat) (c : call) (r : reply) : Prop :=
  match r with
  | RGet (Some (q, v)) => exists k, in_store fuel w i q k v \/ put_by c w q k v
  | RItems its _ => forall e, IOk e ∈ its -> in_store fuel w i (kv_seq e) (kv_key e) (kv_value e) \/ put_by c w (kv_seq e) (kv_key e) (kv_value e)
  | _ => True
  end.
