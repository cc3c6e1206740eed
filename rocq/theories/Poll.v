(** The traverse stream as the state machine it is in the code: [poll_next] is called
    again and again, and polls at most one internal future each time. *)
From Coq.Strings Require Import Byte.
From stdpp Require Import prelude gmap.
From Verif Require Import Bytes Codec Model Client.

(** A boxed future ([PinnedFut], traverse.rs:18): a program part of which has been
    run.  [Finished]: it has returned Ready; polling an [async fn] after that panics. *)
Inductive fut (A : Type) := Running (p : prog A) | Finished.
Arguments Running {A}. Arguments Finished {A}.

Inductive polled (A : Type) := Ready (a : A) | Pending | Panics.
Arguments Ready {A}. Arguments Pending {A}. Arguments Panics {A}.

(** One poll of a future, which gets through [n] commands before it has to wait.  A
    future that returns Pending has arranged for a wake-up (contract of [Future]; the
    futures below this one are tokio's and hypercore's and not modelled). *)
Definition poll_fut {A} (n : nat) (f : fut A) (s : st) : polled (A + err) * fut A * st :=
  match f with
  | Finished => (Panics, Finished, s)
  | Running p =>
      let '(p', s') := run_upto n p s in
      match p' with
      | Ret a => (Ready (inl a), Finished, s')
      | Stop (SErr e) => (Ready (inr e), Finished, s')
      | Stop _ => (Panics, Finished, s')
      | _ => (Pending, Running p', s')
      end
  end.

(** [Traverse] (traverse.rs:245-269) without its configuration, which is the same in
    all streams of one traversal (traverse.rs:424-428). *)
Inductive traverse := Traverse
  (root : nid)
  (counts_fut : option (fut (nat * nat))) (counts : option (nat * nat))
  (iter_fut : option (fut (list nat))) (iter : option (list nat))
  (next_key : option (fut kvdata))
  (next_child : option (fut nid))
  (child_stream : option traverse).

(** [Traverse::new] (traverse.rs:274-286). *)
Definition new_traverse (n : nid) : traverse := Traverse n None None None None None None None.

(** [get_n_keys_and_children] (traverse.rs:290-295). *)
Definition get_counts (n : nid) : prog (nat * nat) := nk <- num_keys n ;; nc <- num_children n ;; Ret (nk, nc).

(** What [poll_next] returns. *)
Inductive outcome := OItem (x : item * nid) | OEnd | OPending | OPanic.

(** [poll_next] (traverse.rs:314-447).  The flag says that a wake-up has been arranged
    during the call: by [wake_by_ref], or by an internal future that is Pending. *)
Fixpoint poll_next (conf : config) (n : nat) (t : traverse) (s : st) : outcome * bool * traverse * st :=
  match t with
  | Traverse root cf counts itf iter key child stream =>
      match key with
      | Some kf =>
          let '(r, kf', s') := poll_fut n kf s in
          match r with
          | Panics => (OPanic, false, t, s')
          | Pending => (OPending, true, Traverse root cf counts itf iter (Some kf') child stream, s')
          | Ready (inl kv) =>
              if in_bounds conf (kv_key kv)
              then (OItem (IOk kv, root), false, Traverse root cf counts itf iter None child stream, s')
              else (OEnd, true, Traverse root cf counts itf iter (Some kf') child stream, s')
          | Ready (inr e) => (OItem (IErr e, root), false, Traverse root cf counts itf iter None child stream, s')
          end
      | None =>
      match child with
      | Some chf =>
          let '(r, chf', s') := poll_fut n chf s in
          match r with
          | Panics => (OPanic, false, t, s')
          | Pending => (OPending, true, Traverse root cf counts itf iter key (Some chf') stream, s')
          | Ready (inl c) => (OPending, true, Traverse root cf counts itf iter key None (Some (new_traverse c)), s')
          | Ready (inr e) => (OItem (IErr (EGetChildInTraverse e), root), false, Traverse root cf counts itf iter key None stream, s')
          end
      | None =>
      match stream with
      | Some c =>
          let '(o, w, c', s') := poll_next conf n c s in
          match o with
          | OItem x => (OItem x, w, Traverse root cf counts itf iter key child (Some c'), s')
          | OEnd => (OPending, w, Traverse root cf counts itf iter key child None, s')
          | OPending => (OPending, w, Traverse root cf counts itf iter key child (Some c'), s')
          | OPanic => (OPanic, w, t, s')
          end
      | None =>
      match counts with
      | None =>
          match cf with
          | None => (OPending, true, Traverse root (Some (Running (get_counts root))) counts itf iter key child stream, s)
          | Some cf0 =>
              let '(r, cf', s') := poll_fut n cf0 s in
              match r with
              | Panics | Ready (inr _) => (OPanic, false, t, s')
              | Pending => (OPending, true, Traverse root (Some cf') counts itf iter key child stream, s')
              | Ready (inl c) => (OPending, true, Traverse root (Some cf') (Some c) itf iter key child stream, s')
              end
          end
      | Some (nk, nc) =>
      match iter with
      | None =>
          match itf with
          | None => (OPending, true, Traverse root cf counts (Some (Running (make_iter conf root nk nc))) iter key child stream, s)
          | Some itf0 =>
              let '(r, itf', s') := poll_fut n itf0 s in
              match r with
              | Panics => (OPanic, false, t, s')
              | Pending => (OPending, true, Traverse root cf counts (Some itf') iter key child stream, s')
              | Ready (inl it) => (OPending, true, Traverse root cf counts (Some itf') (Some it) key child stream, s')
              | Ready (inr e) => (OItem (IErr (EBuildIterator e), root), false, Traverse root cf counts (Some itf') iter key child stream, s')
              end
          end
      | Some [] => (OEnd, true, t, s)
      | Some (i :: it) =>
          if Nat.even i
          then (OPending, true, Traverse root cf counts itf (Some it) key (Some (Running (get_child root (Nat.div2 i)))) stream, s)
          else (OPending, true, Traverse root cf counts itf (Some it) (Some (Running (get_key_value root (Nat.div2 i)))) child stream, s)
      end end end end end
  end.

(** The consumer polls until the stream ends.  [l] has one number for each poll. *)
Fixpoint poll_all (conf : config) (l : list nat) (t : traverse) (s : st) : list (outcome * bool) * st :=
  match l with
  | [] => ([], s)
  | n :: l' =>
      let '(o, w, t', s') := poll_next conf n t s in
      match o with
      | OEnd | OPanic => ([(o, w)], s')
      | _ => let '(os, s2) := poll_all conf l' t' s' in ((o, w) :: os, s2)
      end
  end.

(** [Tree::traverse] (tree.rs:148-159): the stream, without its items. *)
Definition open_stream : prog traverse :=
  r <- get_root false ;;
  match r with None => throw ENoRoot | Some root => Ret (new_traverse root) end.

(** The items among the outcomes. *)
Fixpoint items_of (os : list (outcome * bool)) : list item :=
  match os with
  | [] => []
  | (OItem x, _) :: os' => fst x :: items_of os'
  | _ :: os' => items_of os'
  end.

(** Polls that let the future proceed come again and again. *)
Definition fair (sched : nat -> nat) : Prop := forall j, exists j', (j <= j')%nat /\ (0 < sched j')%nat.

(** A poll that returned Pending has arranged to be polled again. *)
Definition woken (o : outcome * bool) : Prop := fst o = OPending -> snd o = true.
