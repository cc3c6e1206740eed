(** Calls through a sub ([Hyperbee::sub], hb.rs:127-130): a sub holds the same
    [Shared<Tree>] as its parent, hence the same handle.  Definitions only. *)
From Coq.Strings Require Import Byte.
From stdpp Require Import prelude gmap.
From Verif Require Import Bytes Codec Model Spec Client.

Inductive sub_call :=
| SGet (key : bytes)
| SPut (key : bytes) (value : option bytes)
| SPutCas (key : bytes) (value : option bytes) (cas : option kvdata -> kvdata -> bool)
| SDel (key : bytes)
| SDelCas (key : bytes) (cas : kvdata -> bool)
| STraverse (conf : config).

(** The method of [Prefixed] behind each call (prefixed.rs:66-176). *)
Definition sub_prog (fuel : nat) (pre sep : bytes) (c : sub_call) : prog reply :=
  match c with
  | SGet k => r <- sub_get fuel pre sep k ;; Ret (RGet r)
  | SPut k v => '(old, new) <- sub_put fuel pre sep k v ;; Ret (RPut old new)
  | SPutCas k v f => '(old, new) <- sub_put_cas fuel pre sep k v f ;; Ret (RPutCas old new)
  | SDel k => r <- sub_del fuel pre sep k ;; Ret (RDel r)
  | SDelCas k f => r <- sub_del_cas fuel pre sep k f ;; Ret (RDelCas r)
  | STraverse conf => '(its, b) <- sub_traverse fuel pre sep conf ;; Ret (RItems its b)
  end.
Definition sub_api (fuel : nat) (pre sep : bytes) (c : sub_call) : prog reply :=
  r <- catch (sub_prog fuel pre sep c) ;;
  match r with inl x => Ret x | inr e => Ret (RErr e) end.
Definition do_sub (fuel : nat) (i : nat) (pre sep : bytes) (c : sub_call) (o : list fault) (w : world) : (reply + stop) * world :=
  let '(r, s') := run (sub_api fuel pre sep c) (view w i o) in (r, commit_view w i s').

(** ** What they are supposed to be *)

(** The call on the parent; traversals are described separately. *)
Definition on_parent (pre sep : bytes) (c : sub_call) : option call :=
  match c with
  | SGet k => Some (CGet (pre ++ sep ++ k))
  | SPut k v => Some (CPut (pre ++ sep ++ k) v)
  | SPutCas k v f => Some (CPutCas (pre ++ sep ++ k) v f)
  | SDel k => Some (CDel (pre ++ sep ++ k))
  | SDelCas k f => Some (CDelCas (pre ++ sep ++ k) f)
  | STraverse _ => None
  end.

Definition starts (p x : bytes) : bool := bool_decide (take (length p) x = p).

(** The entries of a sub, with their own keys. *)
Definition strip (n : nat) (e : kvdata) : kvdata := KV (kv_seq e) (drop n (kv_key e)) (kv_value e).
Definition sub_entries (pre sep : bytes) (m : list kvdata) : list kvdata :=
  map (strip (length pre + length sep)) (List.filter (fun e => starts (pre ++ sep) (kv_key e)) m).

(** When [Prefixed::traverse] does what it should: with both bounds finite always;
    with an open lower or upper end only if no key of the parent starts with the
    prefix but not with prefix and separator; and with an open upper end only if the
    prefix is neither empty nor ends in the byte 255. *)
Definition sub_bounds_ok (pre sep : bytes) (conf : config) (m : list kvdata) : Prop :=
  sep <> [] /\ bounds_ok conf /\ t_min conf <> PosInf /\ t_max conf <> NegInf /\
  (t_max conf = PosInf -> pre <> [] /\ last pre <> Some xff) /\
  (t_min conf = NegInf \/ t_max conf = PosInf ->
     forall e, e ∈ m -> starts pre (kv_key e) = true -> starts (pre ++ sep) (kv_key e) = true).
