(** Cores that hold a store, whoever wrote them. *)
From Coq.Strings Require Import Byte.
From Coq Require Import Sorting.Sorted.
From stdpp Require Import prelude.
From Verif Require Import Bytes Codec Model Spec.

(** The entries below node [r], in order, each with the number of its block; [n] bounds
    the height. *)
Fixpoint read_entries (n : nat) (C : list bytes) (r : ref) : option (list kvdata) :=
  match n with
  | 0 => None
  | S n' =>
      b ← block_at C (fst r);
      nd ← b_nodes b !! snd r;
      es ← mapM (fun q => (fun b => KV q (b_key b) (b_value b)) <$> block_at C q) (n_keys nd);
      ess ← mapM (read_entries n' C) (n_children nd);
      Some (interleave ess es)
  end.

(** Node 0 of the last block is the root of a B-tree with the entries [m], in order. *)
Definition holds (C : list bytes) (m : list kvdata) : Prop :=
  (exists h t, read_tree (S h) C (length C - 1, 0) = Some t /\ balanced true h t /\
     read_entries (S h) C (length C - 1, 0) = Some m) /\
  StronglySorted key_lt (map kv_key m).

(** What one may find in a core: nothing, one block, or a tree.  The first block is
    whatever does not pass for a block of a tree, and the index of no block is beyond
    all bounds.  All else is left open: what is in the header, where the nodes are and in
    which order, what is in other blocks and other nodes, how blocks are encoded, former
    versions. *)
Definition found (C : list bytes) (m : list kvdata) : Prop :=
  block_at C 0 = None /\ (forall q b, block_at C q = Some b -> (N.of_nat (length (b_nodes b)) < 2 ^ 52)%N) /\
  ((length C <= 1)%nat /\ m = [] \/ (2 <= length C)%nat /\ holds C m).
