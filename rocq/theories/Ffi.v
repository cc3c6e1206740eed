(** The foreign interfaces: ffi.rs (uniffi records and objects) and external.rs (C
    functions).  Definitions only.  Pointers and who frees them are in Cffi.v; the code
    uniffi generates is not modelled. *)
From Coq.Strings Require Import Byte String.
From stdpp Require Import prelude gmap strings pretty.
From Verif Require Import Bytes Codec Model Spec Client Subs.
Local Open Scope string_scope.

(** [Gotten] (ffi.rs:9-19) and [Putten] (ffi.rs:21-31). *)
Record gotten := Gotten { g_seq : nat; g_value : option bytes }.
Record putten := Putten { p_old_seq : option nat; p_new_seq : nat }.

(** [uniffi(flat_error)] (error.rs:14): an error crosses the border as the name of its
    variant and its [Display] text (error.rs:17-56; a boxed error is displayed with
    [{0}]).  [EHypercore] stands for HypercoreError and CoreMethodsError. *)
Definition variant (e : err) : string :=
  match e with
  | EHypercore => "HypercoreError"
  | EDecode => "DecodeError"
  | ENoBlockAtSeq _ => "NoBlockAtSeqError"
  | ENoRoot => "NoRootError"
  | EHeaderAlreadyExists => "HeaderAlreadyExists"
  | EGetChildInTraverse _ => "GetChildInTraverseError"
  | EBuildIterator _ => "BuildIteratorInTraverseError"
  | EKeyFromUtf8 => "KeyFromUtf8Error"
  end.
Fixpoint message (e : err) : string :=
  match e with
  | EHypercore => "There was an error in the underlying Hypercore"
  | EDecode => "There was an error decoding Hypercore data"
  | ENoBlockAtSeq q => "No block at seq  `" +:+ pretty q +:+ "`"
  | ENoRoot => "The tree has no root so this operation failed"
  | EHeaderAlreadyExists => "The tree already has a header"
  | EGetChildInTraverse e' => "Could not traverse child node. Got error: " +:+ message e'
  | EBuildIterator e' => "There was an error building the iterator to traverse a node. Got error: " +:+ message e'
  | EKeyFromUtf8 => "There was an error decoding a key"
  end.
Definition flat_error (e : err) : string * string := (variant e, message e).

(** ** uniffi *)
Inductive ffi_call := FGet (key : bytes) | FPut (key : bytes) (value : option bytes) | FDelete (key : bytes) | FVersion.
Inductive ffi_reply :=
| FGotten (g : option gotten)
| FPutten (p : putten)
| FDeleted (seq : option nat)
| FVersioned (v : nat)
| FError (e : string * string).

(** [Result::map_err] into the flat error, by the generated code. *)
Definition lowered (p : prog ffi_reply) : prog ffi_reply :=
  r <- catch p ;;
  match r with inl x => Ret x | inr e => Ret (FError (flat_error e)) end.

(** The methods of [Hyperbee] (ffi.rs:42-89). *)
Definition ffi_prog (fuel : nat) (c : ffi_call) : prog ffi_reply :=
  match c with
  | FVersion => v <- version ;; Ret (FVersioned v)
  | FGet key => r <- tree_get fuel key ;; Ret (FGotten ((fun '(seq, value) => Gotten seq value) <$> r))
  | FPut key value => '(old_seq, new_seq) <- tree_put fuel key value ;; Ret (FPutten (Putten old_seq new_seq))
  | FDelete key => r <- tree_del fuel key ;; Ret (FDeleted r)
  end.
Definition do_ffi (fuel i : nat) (c : ffi_call) (o : list fault) (w : world) : (ffi_reply + stop) * world :=
  do_prog (lowered (ffi_prog fuel c)) i o w.

(** [Hyperbee::sub] (ffi.rs:83-88) and the methods of [Prefixed] (ffi.rs:110-143).  A
    [Prefixed] holds the prefix and the separator. *)
Record ffi_sub := FfiSub { fs_prefix : bytes; fs_sep : bytes }.
Definition ffi_make_sub (prefix config : bytes) : ffi_sub := FfiSub prefix config.
(** [default_sub_config] (ffi.rs:145-149). *)
Definition ffi_default_config : bytes := DEFAULT_SEP.
Inductive ffi_sub_call := PGet (key : bytes) | PPut (key : bytes) (value : option bytes) | PDelete (key : bytes).
Definition ffi_sub_prog (fuel : nat) (b : ffi_sub) (c : ffi_sub_call) : prog ffi_reply :=
  match c with
  | PGet key => r <- sub_get fuel (fs_prefix b) (fs_sep b) key ;; Ret (FGotten ((fun '(seq, value) => Gotten seq value) <$> r))
  | PPut key value => '(old_seq, new_seq) <- sub_put fuel (fs_prefix b) (fs_sep b) key value ;; Ret (FPutten (Putten old_seq new_seq))
  | PDelete key => r <- sub_del fuel (fs_prefix b) (fs_sep b) key ;; Ret (FDeleted r)
  end.
Definition do_ffi_sub (fuel i : nat) (b : ffi_sub) (c : ffi_sub_call) (o : list fault) (w : world) : (ffi_reply + stop) * world :=
  do_prog (lowered (ffi_sub_prog fuel b c)) i o w.

(** ** C *)

(** The arguments of [HbGetResultCallback] (external.rs:22-30); the message is "". *)
Record callback := Callback { cb_error : Z; cb_seq : nat; cb_value : bytes }.

(** The task [hb_get] spawns (external.rs:135-147).  [todo!()] panics.  Assumed:
    [shrink_to_fit] makes the capacity equal to the length (external.rs:86-87). *)
Definition hb_get_task (fuel : nat) (key : bytes) : prog callback :=
  r <- catch (tree_get fuel key) ;;
  match r with
  | inl (Some (seq, Some value)) => Ret (Callback 0 seq value)
  | inl _ => panic
  | inr _ => panic
  end.

(** [hb_get] (external.rs:124-149): what it returns, and the calls of the callback by
    the time the task has ended.  A panic in a spawned task ends that task only. *)
Definition hb_get (fuel i : nat) (key : bytes) (o : list fault) (w : world) : nat * list callback * world :=
  match do_prog (hb_get_task fuel key) i o w with
  | (inl cb, w1) => (0, [cb], w1)
  | (inr _, w1) => (0, [], w1)
  end.

(** ** What they should tell *)
Definition rust_call (c : ffi_call) : call :=
  match c with FGet k => CGet k | FPut k v => CPut k v | FDelete k => CDel k | FVersion => CVersion end.
Definition rust_sub_call (c : ffi_sub_call) : sub_call :=
  match c with PGet k => SGet k | PPut k v => SPut k v | PDelete k => SDel k end.

(** The foreign answer for an answer of the Rust method. *)
Definition foreign (r : reply) : option ffi_reply :=
  match r with
  | RGet None => Some (FGotten None)
  | RGet (Some (q, v)) => Some (FGotten (Some (Gotten q v)))
  | RPut old new => Some (FPutten (Putten old new))
  | RDel q => Some (FDeleted q)
  | RVersion n => Some (FVersioned n)
  | RErr e => Some (FError (flat_error e))
  | _ => None
  end.
Definition same_answer (r : reply + stop) (f : ffi_reply + stop) : Prop :=
  match r with
  | inl x => exists y, f = inl y /\ foreign x = Some y
  | inr e => f = inr e
  end.
