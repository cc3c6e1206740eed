(** A reader whose core is a replica of the writer's.  Definitions only.

    [Hyperbee::add_stream] (hb.rs:30-42, tree.rs:30-42, blocks.rs:39-46) connects the
    core of a handle with the core of a peer; from then on the replicator extends the
    local core in the background, beside the calls of the handle.  The peer is the
    writer (or holds what the writer wrote), and hypercore checks what it receives, so
    the local core is always a part of the writer's: it knows of some number of blocks
    and has fetched some of them.  A read of a block that has not arrived finds nothing
    ([Ok(None)], blocks.rs:76-90), and a reader cannot append. *)
From Coq.Strings Require Import Byte.
From stdpp Require Import prelude gmap.
From Verif Require Import Bytes Codec Model Spec Client.

(** What has arrived: the number of blocks, and which of them. *)
Record replica := Replica { rp_len : nat; rp_have : nat -> bool }.
(** Nothing yet. *)
Definition rp_new : replica := Replica 0 (fun _ => false).

(** What the next command of a call meets on the replica (blocks.rs:76-90, 96-98). *)
Definition rp_fault (r : replica) (p : prog reply) : list fault :=
  match p with
  | CoreGet q _ => [if (q <? rp_len r)%nat && negb (rp_have r q) then FMissing else FNone]
  | CoreAppend _ _ => [FErr]
  | _ => []
  end.

(** The replica, handles on it and calls under way, each on a handle. *)
Record rsys := RSys { v_rep : replica; v_hand : nat -> handle; v_task : list (nat * prog reply) }.
Definition rstart (fuel : nat) (rds : list (nat * call)) : rsys :=
  RSys rp_new (fun _ => Handle ∅ []) (map (fun x => (fst x, api fuel (snd x))) rds).

(** The replicator works ([RSync]: what has arrived now), or call [j] takes a step. *)
Inductive rmove := RSync (r : replica) | RPoll (j : nat).

(** [C] is the core of the writer, with all it ever writes. *)
Definition rstep (C : list bytes) (m : rmove) (y : rsys) : rsys :=
  match m with
  | RSync r => RSys r (v_hand y) (v_task y)
  | RPoll j =>
      match v_task y !! j with
      | Some (i, p) =>
          let h := v_hand y i in
          let '(p', s) := step p (St (take (rp_len (v_rep y)) C) (h_cache h) (h_heap h) (rp_fault (v_rep y) p)) in
          RSys (v_rep y) (fun k => if (k =? i)%nat then Handle (cache s) (heap s) else v_hand y k) (<[j := (i, p')]> (v_task y))
      | None => y
      end
  end.
Fixpoint rrun (C : list bytes) (sched : list rmove) (y : rsys) : rsys :=
  match sched with
  | [] => y
  | m :: sched' => rrun C sched' (rstep C m y)
  end.

(** The replica never gets shorter, nor longer than what the writer writes; which blocks
    it holds may change in any way (they are fetched in any order, and may be cleared). *)
Definition rp_later (C : list bytes) (r r' : replica) : Prop := (rp_len r <= rp_len r' <= length C)%nat.
Fixpoint syncs (C : list bytes) (r : replica) (sched : list rmove) : Prop :=
  match sched with
  | [] => True
  | RSync r' :: l => rp_later C r r' /\ syncs C r' l
  | RPoll _ :: l => syncs C r l
  end.

Definition r_answer (y : rsys) (j : nat) : option reply :=
  match snd <$> v_task y !! j with Some (Ret r) => Some r | _ => None end.
Definition r_stopped (y : rsys) (j : nat) : option stop :=
  match snd <$> v_task y !! j with Some (Stop x) => Some x | _ => None end.
(** Call [j] is about to read block [q]. *)
Definition r_asks (y : rsys) (j q : nat) : Prop := exists i k, v_task y !! j = Some (i, CoreGet q k).
(** Block [q] has been announced and has not arrived. *)
Definition r_lacks (y : rsys) (q : nat) : Prop := (q < rp_len (v_rep y))%nat /\ rp_have (v_rep y) q = false.

(** [b] is the store that the writer had when its core had [n] blocks. *)
Definition version_is (fuel : nat) (l : list event) (n : nat) (b : store) : Prop :=
  s_blocks b = n /\ behaves fuel (take n (w_core (world_after fuel l))) b /\
  (b = Store 1 [] \/ exists l1 l2 rs, l = l1 ++ l2 /\ play fuel l1 (new_world []) = (rs, world_after fuel l1) /\ explains l1 empty_store rs b).
