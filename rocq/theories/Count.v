(** Counting the reads of the core.  Definitions only. *)
From Coq.Strings Require Import Byte.
From stdpp Require Import prelude gmap.
From Verif Require Import Bytes Codec Model Spec Client.

(** How often an uninterrupted run asks the core for a block ([Hypercore::get], blocks.rs:58-71). *)
Fixpoint reads {A} (p : prog A) (s : st) : nat :=
  match p with
  | Ret _ | Stop _ => 0
  | CoreLen k => reads (k (length (core s))) s
  | CoreGet q k => let '(r, s') := exec_get q s in S (reads (k r) s')
  | CoreAppend b k => let '(r, s') := exec_append b s in reads (k r) s'
  | CacheGet q k => reads (k (cache s !! q)) s
  | CachePut q e k => reads k (set_cache s (<[q := e]> (cache s)))
  | NodeNew nd k => reads (k (length (heap s))) (set_heap s (heap s ++ [nd]))
  | NodeGet n k => match heap s !! n with Some nd => reads (k nd) s | None => 0 end
  | NodeUpd n f k =>
      match heap s !! n with
      | Some nd =>
          match f nd with
          | Some nd' => reads (k nd) (set_heap s (<[n := nd']> (heap s)))
          | None => 0
          end
      | None => 0
      end
  end.

(** The same of the first [k] commands, and how many of these brought no block that can be decoded (blocks.rs:58-71). *)
Fixpoint reads_upto {A} (k : nat) (p : prog A) (s : st) : nat :=
  match k with
  | 0 => 0
  | S k' => (match p with CoreGet _ _ => 1 | _ => 0 end + let '(p', s') := step p s in reads_upto k' p' s')%nat
  end.
Definition badget (r : ioget) : nat :=
  match r with GOk (Some raw) => match decode_block raw with DOk _ => 0 | _ => 1 end | _ => 1 end.
Fixpoint misses_upto {A} (k : nat) (p : prog A) (s : st) : nat :=
  match k with
  | 0 => 0
  | S k' => (match p with CoreGet q _ => badget (fst (exec_get q s)) | _ => 0 end + let '(p', s') := step p s in misses_upto k' p' s')%nat
  end.

(** The blocks that handle [i] reads during a call. *)
Definition call_reads (fuel : nat) (i : nat) (c : call) (o : list fault) (w : world) : nat :=
  reads (api fuel c) (view w i o).

(** The blocks that handle [i] reads during a history from [w]. *)
Fixpoint fetches (fuel : nat) (i : nat) (l : list event) (w : world) : nat :=
  match l with
  | [] => 0
  | EvCall j c o :: l' => ((if (j =? i)%nat then call_reads fuel i c o w else 0) + fetches fuel i l' (snd (do_call fuel j c o w)))%nat
  | EvDrop j c o k as e :: l' =>
      ((if (j =? i)%nat then reads_upto k (api fuel c) (view w i o) else 0) + fetches fuel i l' (snd (play fuel [e] w)))%nat
  | e :: l' => fetches fuel i l' (snd (play fuel [e] w))
  end.

(** The errors in an answer. *)
Definition errors (r : reply + stop) : nat :=
  match r with
  | inl (RErr _) => 1
  | inl (RItems its _) => length (List.filter (fun it => match it with IErr _ => true | IOk _ => false end) its)
  | _ => 0
  end.
(** The errors in the answers that handle [i] gives during a history. *)
Fixpoint complaints (i : nat) (l : list event) (rs : list (reply + stop)) : nat :=
  match l, rs with
  | EvCall j c o :: l', r :: rs' => ((if (j =? i)%nat then errors r else 0) + complaints i l' rs')%nat
  | EvBusy _ _ _ _ _ :: l', _ :: rs' => complaints i l' rs'
  | (EvReopen _ | EvDrop _ _ _ _ | EvReads _ _) :: l', rs => complaints i l' rs
  | _, _ => 0
  end.
(** The calls that handle [i] gave up, and their reads that brought nothing. *)
Fixpoint abandoned (fuel : nat) (i : nat) (l : list event) (w : world) : nat :=
  match l with
  | [] => 0
  | EvDrop j c o k as e :: l' =>
      ((if (j =? i)%nat then 1 + misses_upto k (api fuel c) (view w i o) else 0) + abandoned fuel i l' (snd (play fuel [e] w)))%nat
  | e :: l' => abandoned fuel i l' (snd (play fuel [e] w))
  end.
(** The event is a single call, finished or given up. *)
Definition single (e : event) : Prop := match e with EvCall _ _ _ | EvDrop _ _ _ _ => True | _ => False end.
(** Handle [i] answers all its calls: none panics or fails to return. *)
Fixpoint answers_all (i : nat) (l : list event) (rs : list (reply + stop)) : Prop :=
  match l, rs with
  | EvCall j c o :: l', r :: rs' => (j = i -> exists x, r = inl x) /\ answers_all i l' rs'
  | EvBusy _ _ _ _ _ :: l', _ :: rs' => answers_all i l' rs'
  | (EvReopen _ | EvDrop _ _ _ _ | EvReads _ _) :: l', rs => answers_all i l' rs
  | _, _ => True
  end.

(** The levels of the tree with [n] entries: one, unless the entries are many. *)
Definition level_bound (L n : nat) : Prop := L <= 1 \/ 2 * 5 ^ (L - 1) <= S n.
(** How many blocks a call may read on [L] levels. *)
Definition read_bound (c : call) (L : nat) : option nat :=
  match c with
  | CGet _ | CPut _ _ | CPutCas _ _ _ => Some (5 * L)
  | CDel _ | CDelCas _ _ => Some (20 * L)
  | CVersion | CHeader _ => Some 0
  | CTraverse _ => None
  end.

(** The blocks that overlapping tasks read. *)
Fixpoint tasks_reads (sched : list nat) (ts : list thread) (w : world) : nat :=
  match sched with
  | [] => 0
  | j :: sched' =>
      (match ts !! j with Some t => match th_prog t with CoreGet _ _ => 1 | _ => 0 end | None => 0 end +
       let '(ts', w') := tasks_run [j] ts w in tasks_reads sched' ts' w')%nat
  end.
