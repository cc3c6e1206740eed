(** The memory behind the C functions of external.rs: who owns what, and when it is
    gone.  Definitions only.

    A pointer is an allocation: addresses are not used again, so that a pointer to
    freed memory is never mistaken for a good one.  Not modelled: threads of the
    executor (a step of a task is atomic), a callback that calls back into the library
    itself, running out of memory. *)
From Coq.Strings Require Import Byte String.
From stdpp Require Import prelude gmap.
From Verif Require Import Bytes Codec Model Spec Client Ffi.

(** What the library hands out: [Runtime] and [Hyperbee] in a [Box] (external.rs:30-34),
    the message as a [CString] (external.rs:140) and the value as the elements of a [Vec]
    (external.rs:87-94). *)
Inductive obj := ORuntime | OBee | OString | OBuffer (b : bytes).
Notation memory := (list (option obj)).
(** [PEmpty]: the pointer of an empty [Vec], which owns no memory and is not null. *)
Inductive ptr := PNull | PEmpty | PAt (a : nat).
Definition alloc (x : obj) (m : memory) : nat * memory := (length m, m ++ [Some x]).
Definition alive (m : memory) (a : nat) : option obj := mjoin (m !! a).
Definition free (a : nat) (m : memory) : memory := <[a := None]> m.

(** A task spawned by [hb_get] (external.rs:136-148): the runtime it runs on, the
    [Hyperbee] it borrows, how far it has got.  It is over when it has ended, or when
    its runtime has been dropped. *)
Record get_task := GetTask { gt_rt : nat; gt_bee : nat; gt_prog : prog callback; gt_faults : list fault; gt_run : bool }.

(** [cs_base]: the [Hyperbee] at address [a] is the handle [cs_base + a]. *)
Record cstate := CState { cs_mem : memory; cs_base : nat; cs_world : world; cs_tasks : list get_task }.

(** The calls of a C program, and [KStep]: the executor runs a task on.  [ok] says
    whether the library succeeds; [path] whether the pointer is not null; the key is
    [None] for a null pointer. *)
Inductive ccall :=
| KInit (ok : bool)
| KCloseRuntime (rt : ptr)
| KOpen (rt : ptr) (path ok : bool)
| KCloseBee (hb : ptr)
| KGet (rt hb : ptr) (key : option bytes) (o : list fault)
| KFreeString (p : ptr)
| KFreeBuffer (p : ptr) (len : nat)
| KStep (j : nat).

(** What the program sees: what a function returns, and the calls of its callback;
    [j] is the number of the [hb_get] (a program can pass a different function each
    time). *)
Inductive cobs :=
| ONothing
| OPointer (p : ptr)
| OInt (n : Z)
| OCallback (j : nat) (code : Z) (msg : ptr) (seq : nat) (val : ptr) (len : nat).

Definition at_ptr (m : memory) (p : ptr) : option obj := match p with PAt a => alive m a | _ => None end.
Definition is_obj (m : memory) (p : ptr) (x : obj) : bool :=
  match at_ptr m p, x with
  | Some ORuntime, ORuntime | Some OBee, OBee | Some OString, OString => true
  | _, _ => false
  end.
Definition addr (p : ptr) : nat := match p with PAt a => a | _ => 0 end.

(** [c_vec_from_vec] (external.rs:87-94): without elements there is no allocation. *)
Definition hand_over (b : bytes) (m : memory) : ptr * memory :=
  match b with [] => (PEmpty, m) | _ => let '(a, m') := alloc (OBuffer b) m in (PAt a, m') end.

(** [rt] is dropped: its tasks are, too.  Dropping a task that has not ended gives back
    the locks of the [Hyperbee] it borrows, which counts as a use of it. *)
Definition cancel (rt : nat) (t : get_task) : get_task :=
  if (gt_rt t =? rt)%nat then GetTask (gt_rt t) (gt_bee t) (gt_prog t) (gt_faults t) false else t.
Definition cancels_well (m : memory) (rt : nat) (t : get_task) : bool :=
  negb (gt_run t) || negb (gt_rt t =? rt)%nat || is_obj m (PAt (gt_bee t)) OBee.

Definition stop_task (t : get_task) : get_task := GetTask (gt_rt t) (gt_bee t) (gt_prog t) (gt_faults t) false.

(** One call.  [None]: undefined behaviour. *)
Definition cstep (fuel : nat) (k : ccall) (st : cstate) : option (cobs * cstate) :=
  let m := cs_mem st in let w := cs_world st in
  let with_mem m' := CState m' (cs_base st) w (cs_tasks st) in
  match k with
  | KInit ok => (* external.rs:61-72 *)
      if ok then let '(a, m') := alloc ORuntime m in Some (OPointer (PAt a), with_mem m') else Some (OPointer PNull, st)
  | KCloseRuntime p => (* external.rs:74-79 *)
      if is_obj m p ORuntime && forallb (cancels_well m (addr p)) (cs_tasks st)
      then Some (ONothing, CState (free (addr p) m) (cs_base st) w (map (cancel (addr p)) (cs_tasks st)))
      else None
  | KOpen p path ok => (* external.rs:96-117 *)
      if is_obj m p ORuntime then
        if path && ok then let '(a, m') := alloc OBee m in Some (OPointer (PAt a), with_mem m')
        else Some (OPointer PNull, st)
      else None
  | KCloseBee p => (* external.rs:81-85 *)
      if is_obj m p OBee then Some (ONothing, with_mem (free (addr p) m)) else None
  | KGet rt hb key o => (* external.rs:119-150; slice::from_raw_parts wants a pointer that is not null *)
      match key with
      | Some key =>
          if is_obj m rt ORuntime && is_obj m hb OBee
          then Some (OInt 0, CState m (cs_base st) w (cs_tasks st ++ [GetTask (addr rt) (addr hb) (hb_get_task fuel key) o true]))
          else None
      | None => None
      end
  | KFreeString p => (* external.rs:41-44 *)
      if is_obj m p OString then Some (ONothing, with_mem (free (addr p) m)) else None
  | KFreeBuffer p len => (* external.rs:46-52: the length has to be that of the allocation *)
      match p with
      | PEmpty => if (len =? 0)%nat then Some (ONothing, st) else None
      | _ => match at_ptr m p with
             | Some (OBuffer b) => if (len =? length b)%nat then Some (ONothing, with_mem (free (addr p) m)) else None
             | _ => None
             end
      end
  | KStep j =>
      match cs_tasks st !! j with
      | Some t =>
          if gt_run t then
            match gt_prog t with
            | Ret cb => (* external.rs:138-144 *)
                let '(pv, m1) := hand_over (cb_value cb) m in
                let '(a, m2) := alloc OString m1 in
                Some (OCallback j (cb_error cb) (PAt a) (cb_seq cb) pv (length (cb_value cb)),
                      CState m2 (cs_base st) w (<[j := stop_task t]> (cs_tasks st)))
            | Stop _ => (* the executor catches the panic *)
                Some (ONothing, CState m (cs_base st) w (<[j := stop_task t]> (cs_tasks st)))
            | p => (* inside [hb.get(&rkey).await] *)
                if is_obj m (PAt (gt_bee t)) OBee then
                  let '(p', s) := step p (view w (cs_base st + gt_bee t) (gt_faults t)) in
                  Some (ONothing, CState m (cs_base st) (commit_view w (cs_base st + gt_bee t) s)
                    (<[j := GetTask (gt_rt t) (gt_bee t) p' (oracle s) true]> (cs_tasks st)))
                else None
            end
          else Some (ONothing, st)
      | None => Some (ONothing, st)
      end
  end.

(** A run, with what the program has seen. *)
Inductive creach (fuel : nat) (st0 : cstate) : list (ccall * cobs) -> cstate -> Prop :=
| cr_start : creach fuel st0 [] st0
| cr_step tr st k o st' : creach fuel st0 tr st -> cstep fuel k st = Some (o, st') -> creach fuel st0 (tr ++ [(k, o)]) st'.

(** A process that has nothing yet, on a core that is the work of a history [l]. *)
Definition cstart (fuel base : nat) (l : list event) : cstate := CState [] base (world_after fuel l) [].

(** ** Programs that keep the rules *)

(** What a program can note down from what it sees: the runtimes and the [Hyperbee]s it
    has and has not closed, the messages and values it has been given and has not given
    back, and the gets under way: not answered, and their runtime not closed. *)
Record book := Book { b_runtimes : list nat; b_bees : list nat; b_strings : list nat; b_buffers : list (nat * nat);
  b_gets : list (nat * nat * nat); b_count : nat }.
Definition empty_book : book := Book [] [] [] [] [] 0.

Definition without (a : nat) (l : list nat) : list nat := List.filter (fun x => negb (x =? a)%nat) l.
Definition note (b : book) (x : ccall * cobs) : book :=
  match x with
  | (KInit _, OPointer (PAt a)) => Book (a :: b_runtimes b) (b_bees b) (b_strings b) (b_buffers b) (b_gets b) (b_count b)
  | (KOpen _ _ _, OPointer (PAt a)) => Book (b_runtimes b) (a :: b_bees b) (b_strings b) (b_buffers b) (b_gets b) (b_count b)
  | (KCloseRuntime (PAt a), _) =>
      Book (without a (b_runtimes b)) (b_bees b) (b_strings b) (b_buffers b) (List.filter (fun g => negb (snd (fst g) =? a)%nat) (b_gets b)) (b_count b)
  | (KCloseBee (PAt a), _) => Book (b_runtimes b) (without a (b_bees b)) (b_strings b) (b_buffers b) (b_gets b) (b_count b)
  | (KGet (PAt rt) (PAt hb) _ _, _) => Book (b_runtimes b) (b_bees b) (b_strings b) (b_buffers b) ((b_count b, rt, hb) :: b_gets b) (S (b_count b))
  | (KFreeString (PAt a), _) => Book (b_runtimes b) (b_bees b) (without a (b_strings b)) (b_buffers b) (b_gets b) (b_count b)
  | (KFreeBuffer (PAt a) _, _) => Book (b_runtimes b) (b_bees b) (b_strings b) (List.filter (fun x => negb (fst x =? a)%nat) (b_buffers b)) (b_gets b) (b_count b)
  | (_, OCallback j _ msg _ val len) =>
      Book (b_runtimes b) (b_bees b) (match msg with PAt a => a :: b_strings b | _ => b_strings b end)
        (match val with PAt a => (a, len) :: b_buffers b | _ => b_buffers b end)
        (List.filter (fun g => negb (fst (fst g) =? j)%nat) (b_gets b)) (b_count b)
  | _ => b
  end.
Definition book_of (tr : list (ccall * cobs)) : book := fold_left note tr empty_book.

(** The rules: use what you have and have not closed; close a [Hyperbee] when no get on
    it is under way; free what you have been given, once, and a value with its length. *)
Definition allowed (b : book) (k : ccall) : Prop :=
  match k with
  | KInit _ | KStep _ => True
  | KOpen p _ _ | KCloseRuntime p => exists a, p = PAt a /\ a ∈ b_runtimes b
  | KCloseBee p => exists a, p = PAt a /\ a ∈ b_bees b /\ forall j rt, (j, rt, a) ∉ b_gets b
  | KGet rt hb key _ => exists a c x, rt = PAt a /\ a ∈ b_runtimes b /\ hb = PAt c /\ c ∈ b_bees b /\ key = Some x
  | KFreeString p => exists a, p = PAt a /\ a ∈ b_strings b
  | KFreeBuffer p len => (p = PEmpty /\ len = 0) \/ exists a, p = PAt a /\ (a, len) ∈ b_buffers b
  end.
Fixpoint keeps_rules (b : book) (tr : list (ccall * cobs)) : Prop :=
  match tr with
  | [] => True
  | x :: tr' => allowed b (fst x) /\ keeps_rules (note b x) tr'
  end.

(** The gets of a run, in order. *)
Definition gets_of (tr : list (ccall * cobs)) : list (nat * bytes * list fault) :=
  omap (fun x => match fst x with KGet _ hb (Some key) o => Some (addr hb, key, o) | _ => None end) tr.

(** A list of calls, one after the other. *)
Fixpoint crun (fuel : nat) (ks : list ccall) (st : cstate) : option (list (ccall * cobs) * cstate) :=
  match ks with
  | [] => Some ([], st)
  | k :: ks' =>
      match cstep fuel k st with
      | Some (o, st1) => match crun fuel ks' st1 with Some (tr, st2) => Some ((k, o) :: tr, st2) | None => None end
      | None => None
      end
  end.

(** [x] is an answer to get [j]. *)
Definition answers_get (j : nat) (x : ccall * cobs) : Prop := match snd x with OCallback j' _ _ _ _ _ => j' = j | _ => False end.
