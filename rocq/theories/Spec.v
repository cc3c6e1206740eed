(** What the library is supposed to do, stated without the algorithms of the
    model: from [Model] only data types are used (entries, limits,
    configurations, stream items, errors). *)
From Coq.Strings Require Import String Byte.
From stdpp Require Import prelude.
From Verif Require Import Bytes Codec Model.

(** ** Order on keys *)
Inductive key_lt : bytes -> bytes -> Prop :=
| lt_nil y b : key_lt [] (y :: b)
| lt_head x y a b : (Byte.to_N x < Byte.to_N y)%N -> key_lt (x :: a) (y :: b)
| lt_tail x a b : key_lt a b -> key_lt (x :: a) (x :: b).

(** The same as a function. *)
Fixpoint lexb (a b : bytes) : bool :=
  match a, b with
  | [], [] => false
  | [], _ :: _ => true
  | _ :: _, [] => false
  | x :: a', y :: b' =>
      (Byte.to_N x <? Byte.to_N y)%N || (bool_decide (x = y) && lexb a' b')
  end.

(** ** The store: the number of blocks in the core, and the entries *)
Record store := Store { s_blocks : nat; s_entries : list kvdata }.

(** The entry of a key. *)
Definition lookup_key (k : bytes) (m : list kvdata) : option kvdata :=
  List.find (fun e => bool_decide (kv_key e = k)) m.

(** Adding an entry, replacing the one with the same key. *)
Definition put_entry (e : kvdata) (m : list kvdata) : list kvdata :=
  List.filter (fun x => lexb (kv_key x) (kv_key e)) m ++ [e] ++
  List.filter (fun x => lexb (kv_key e) (kv_key x)) m.

Definition remove_key (k : bytes) (m : list kvdata) : list kvdata :=
  List.filter (fun x => negb (bool_decide (kv_key x = k))) m.

(** The keys within the bounds of a traversal. *)
Definition above_min (conf : config) (k : bytes) : bool :=
  match t_min conf with
  | NegInf => true
  | PosInf => false
  | Finite a => lexb a k || (t_min_incl conf && bool_decide (a = k))
  end.
Definition below_max (conf : config) (k : bytes) : bool :=
  match t_max conf with
  | NegInf => false
  | PosInf => true
  | Finite a => lexb k a || (t_max_incl conf && bool_decide (a = k))
  end.
Definition within (conf : config) (e : kvdata) : bool :=
  above_min conf (kv_key e) && below_max conf (kv_key e).
Definition in_order (conf : config) (m : list kvdata) : list kvdata :=
  if t_rev conf then rev m else m.
Definition range (conf : config) (m : list kvdata) : list kvdata :=
  in_order conf (List.filter (within conf) m).

(** Bounds a forward traversal handles: the lower bound, when a key may equal it,
    is itself below the upper one. *)
Definition bounds_ok (conf : config) : Prop :=
  t_rev conf = true \/
  match t_min conf with
  | Finite a => t_min_incl conf = true -> below_max conf a = true
  | _ => True
  end.

(** Two finite bounds that are not contradictory. *)
Definition consistent_pair (mn mx : bytes) (mni mxi : bool) : Prop := key_lt mn mx \/ (mn = mx /\ mni = true /\ mxi = true).

(** ** Calls and what they answer *)
Inductive call :=
| CGet (key : bytes)
| CPut (key : bytes) (value : option bytes)
| CPutCas (key : bytes) (value : option bytes) (cas : option kvdata -> kvdata -> bool)
| CDel (key : bytes)
| CDelCas (key : bytes) (cas : kvdata -> bool)
| CVersion
| CHeader (md : option metadata)
| CTraverse (conf : config).

(** [RItems its b]: the items of the stream; [b] is true when it then panics
    instead of ending. *)
Inductive reply :=
| RGet (r : option (nat * option bytes))
| RPut (old : option nat) (new : nat)
| RPutCas (old new : option nat)
| RDel (r : option nat)
| RDelCas (r : option (bool * nat))
| RVersion (v : nat)
| RDone
| RItems (its : list item) (b : bool)
| RErr (e : err).

(** The first write finds or makes block 0, the header. *)
Definition with_header (n : nat) : nat := Nat.max 1 n.

Definition spec_put (key : bytes) (value : option bytes) (cas : option kvdata -> kvdata -> bool) (st : store)
    : option nat * option nat * store :=
  let q := with_header (s_blocks st) in
  let old := lookup_key key (s_entries st) in
  let e := KV q key value in
  if cas old e then (kv_seq <$> old, Some q, Store (S q) (put_entry e (s_entries st)))
  else (kv_seq <$> old, None, Store q (s_entries st)).

Definition spec_del (key : bytes) (cas : kvdata -> bool) (st : store) : option (bool * nat) * store :=
  match lookup_key key (s_entries st) with
  | None => (None, st)
  | Some e =>
      if cas e then (Some (true, kv_seq e), Store (S (s_blocks st)) (remove_key key (s_entries st)))
      else (Some (false, kv_seq e), st)
  end.

Definition spec_call (c : call) (st : store) : reply * store :=
  match c with
  | CGet k => (RGet ((fun e => (kv_seq e, kv_value e)) <$> lookup_key k (s_entries st)), st)
  | CPut k v =>
      let '(old, _, st') := spec_put k v (fun _ _ => true) st in
      (RPut old (with_header (s_blocks st)), st')
  | CPutCas k v f => let '(old, new, st') := spec_put k v f st in (RPutCas old new, st')
  | CDel k => let '(r, st') := spec_del k (fun _ => true) st in (RDel (snd <$> r), st')
  | CDelCas k f => let '(r, st') := spec_del k f st in (RDelCas r, st')
  | CVersion => (RVersion (s_blocks st), st)
  | CHeader _ => if (s_blocks st =? 0)%nat then (RDone, Store 1 []) else (RErr EHeaderAlreadyExists, st)
  | CTraverse conf =>
      if (s_blocks st <=? 1)%nat then (RErr ENoRoot, st)
      else (RItems (map IOk (range conf (s_entries st))) false, st)
  end.

Definition empty_store : store := Store 0 [].

Fixpoint spec_run (cs : list call) (st : store) : list reply * store :=
  match cs with
  | [] => ([], st)
  | c :: cs' =>
      let '(r, st1) := spec_call c st in
      let '(rs, st2) := spec_run cs' st1 in (r :: rs, st2)
  end.

(** A storage failure in the schedule of a call, one that is reported as [e], and
    one that an append can meet. *)
Definition has_fault (o : list fault) : Prop := Exists (fun f => f <> FNone) o.
Definition reports (e : err) (f : fault) : Prop :=
  match f with
  | FNone => False
  | FMissing => exists q, e = ENoBlockAtSeq q
  | FErr | FErrAfter | FReadErr => e = EHypercore
  end.
Definition append_fault (o : list fault) : Prop := Exists (fun f => f = FErr \/ f = FErrAfter) o.

(** [gappy K o its l b]: the items of a traversal that should yield [l], when the
    storage fails as in [o]: the entries in order, and for each of some of the failures,
    in their order, an error in place of one entry (or of none), of the stretch below a
    child ([K] says which those are), or of all that was left; in that case the stream
    then panics ([b]) instead of ending. *)
Inductive gappy (K : list kvdata -> Prop) : list fault -> list item -> list kvdata -> bool -> Prop :=
| gap_nil o : gappy K o [] [] false
| gap_ok o e its l b : gappy K o its l b -> gappy K o (IOk e :: its) (e :: l) b
| gap_pass f o its l b : gappy K o its l b -> gappy K (f :: o) its l b
| gap_key f o x seg its l b : reports x f -> (length seg <= 1)%nat ->
    gappy K o its l b -> gappy K (f :: o) (IErr x :: its) (seg ++ l) b
| gap_child f o x seg its l b : reports x f -> K seg ->
    gappy K o its l b -> gappy K (f :: o) (IErr (EGetChildInTraverse x) :: its) (seg ++ l) b
| gap_iter f o x l : reports x f -> gappy K (f :: o) [IErr (EBuildIterator x)] l true.

(** What may come back from a call during which the storage failed. *)
Definition failed_reply (K : config -> list kvdata -> Prop) (c : call) (o : list fault) (m : list kvdata) (r : reply) : Prop :=
  (exists e, r = RErr e /\ Exists (reports e) o) \/
  exists conf its b, c = CTraverse conf /\ r = RItems its b /\ gappy (K conf) o its (range conf m) b.

(** Calls that never write. *)
Definition reads_only (c : call) : Prop :=
  match c with CGet _ | CVersion | CTraverse _ => True | _ => False end.

(** Calls that put. *)
Definition puts (c : call) : Prop := match c with CPut _ _ | CPutCas _ _ _ => True | _ => False end.

(** Sizes: lengths below 2^64 (metadata: 2^63), and bounds as above. *)
Definition metadata_ok (md : option metadata) : Prop :=
  match md with
  | None => True
  | Some m => (N.of_nat (length (default [] (md_content_feed m)) + length (default [] (md_user_data m))) < 2 ^ 63)%N
  end.
Definition call_ok (c : call) : Prop :=
  match c with
  | CPut k v | CPutCas k v _ =>
      (N.of_nat (length k) < 2 ^ 64)%N /\ match v with None => True | Some x => (N.of_nat (length x) < 2 ^ 64)%N end
  | CDel k | CDelCas k _ => (N.of_nat (length k) < 2 ^ 64)%N
  | CTraverse conf => bounds_ok conf
  | CHeader md => metadata_ok md
  | _ => True
  end.

(** Where a call during which the storage failed may leave the store: untouched,
    with only the header added, or as if it had succeeded. *)
Definition after_failure (c : call) (a b : store) : Prop :=
  b = a \/ b = Store (with_header (s_blocks a)) (s_entries a) \/ b = snd (spec_call c a).

(** The same for a call that ran to its end: unless an append failed the store is
    untouched. *)
Definition after_fault (c : call) (o : list fault) (a b : store) : Prop :=
  after_failure c a b /\ (append_fault o \/ b = a).

(** ** Histories *)

(** A history: calls through handles, each with its fault schedule; handles thrown
    away and opened again; calls given up after [k] steps (the future of the call is
    dropped); calls that only read and run at the same time, [sched] saying whose
    step is next, given up where they are when [sched] ends; and a put during which, in
    the same way, others read (through the same handle, too), given up when it is done. *)
Inductive event :=
| EvCall (i : nat) (c : call) (o : list fault)
| EvReopen (i : nat)
| EvDrop (i : nat) (c : call) (o : list fault) (k : nat)
| EvReads (xs : list (nat * call * list fault)) (sched : list nat)
| EvBusy (i : nat) (c : call) (o : list fault) (xs : list (nat * call * list fault)) (sched : list nat).
Definition plain (e : event) : Prop := match e with EvCall _ _ _ | EvReopen _ => True | _ => False end.

(** A handle is not to be used after a put whose append failed, a del during which
    the storage failed, or a write that was given up, until it has been opened again;
    [bad] are the handles in that state. *)
Definition spoils (c : call) (o : list fault) : Prop :=
  match c with
  | CPut _ _ | CPutCas _ _ _ => append_fault o
  | CDel _ | CDelCas _ _ => has_fault o
  | _ => False
  end.
Definition bad_after (e : event) (bad : nat -> Prop) : nat -> Prop :=
  match e with
  | EvCall i c o | EvBusy i c o _ _ => fun j => bad j \/ (j = i /\ spoils c o)
  | EvReopen i => fun j => bad j /\ j <> i
  | EvDrop i c _ _ => fun j => bad j \/ (j = i /\ ~ reads_only c)
  | EvReads _ _ => bad
  end.
(** The handles an event uses. *)
Definition uses (e : event) (i : nat) : Prop :=
  match e with
  | EvCall j _ _ | EvReopen j | EvDrop j _ _ _ => j = i
  | EvReads xs _ => i ∈ map (fun x => fst (fst x)) xs
  | EvBusy j _ _ xs _ => j = i \/ i ∈ map (fun x => fst (fst x)) xs
  end.
Fixpoint trusted (bad : nat -> Prop) (l : list event) : Prop :=
  match l with
  | [] => True
  | e :: l' => match e with EvReopen _ => True | _ => forall i, uses e i -> ~ bad i end /\ trusted (bad_after e bad) l'
  end.
Fixpoint bad_end (l : list event) (bad : nat -> Prop) : nat -> Prop :=
  match l with [] => bad | e :: l' => bad_end l' (bad_after e bad) end.
Definition nobody (_ : nat) : Prop := False.
Definition usable (l : list event) (i : nat) : Prop := ~ bad_end l nobody i.
Definition event_ok (e : event) : Prop :=
  match e with
  | EvCall _ c _ | EvDrop _ c _ _ => call_ok c
  | EvReopen _ => True
  | EvReads xs _ => Forall (fun x => reads_only (snd (fst x)) /\ call_ok (snd (fst x))) xs
  | EvBusy _ c _ xs _ => puts c /\ call_ok c /\ Forall (fun x => reads_only (snd (fst x)) /\ call_ok (snd (fst x))) xs
  end.
Definition clean (e : event) : Prop :=
  match e with EvCall _ _ o | EvBusy _ _ o _ _ => ~ has_fault o | EvDrop _ c _ _ => reads_only c | EvReopen _ | EvReads _ _ => True end.

(** The calls of a history that ran to their end. *)
Fixpoint calls_of (l : list event) : list call :=
  match l with
  | [] => []
  | EvCall _ c _ :: l' | EvBusy _ c _ _ _ :: l' => c :: calls_of l'
  | _ :: l' => calls_of l'
  end.

(** [explains l a rs b]: the replies [rs] to the calls of [l] are right for a
    store that is [a] at first and [b] at the end. *)
Inductive explains : list event -> store -> list (reply + stop) -> store -> Prop :=
| ex_nil a : explains [] a [] a
| ex_reopen i l a rs b : explains l a rs b -> explains (EvReopen i :: l) a rs b
| ex_call i c o l a r a1 rs b :
    spec_call c a = (r, a1) -> explains l a1 rs b -> explains (EvCall i c o :: l) a (inl r :: rs) b
| ex_fault i c o l a r a1 rs b :
    has_fault o -> failed_reply (fun _ _ => True) c o (s_entries a) r -> after_fault c o a a1 ->
    explains l a1 rs b -> explains (EvCall i c o :: l) a (inl r :: rs) b
| ex_drop i c o k l a a1 rs b :
    after_failure c a a1 -> (reads_only c -> a1 = a) -> explains l a1 rs b -> explains (EvDrop i c o k :: l) a rs b
| ex_reads xs sched l a rs b : explains l a rs b -> explains (EvReads xs sched :: l) a rs b
| ex_busy i c o xs sched l a r a1 rs b :
    spec_call c a = (r, a1) -> explains l a1 rs b -> explains (EvBusy i c o xs sched :: l) a (inl r :: rs) b
| ex_busy_fault i c o xs sched l a r a1 rs b :
    has_fault o -> failed_reply (fun _ _ => True) c o (s_entries a) r -> after_fault c o a a1 ->
    explains l a1 rs b -> explains (EvBusy i c o xs sched :: l) a (inl r :: rs) b.

(** A history from an empty core, with room for [n] more calls.  [fuel] bounds the
    loops of the model; it only has to exceed the number of calls.  The other bound
    keeps sequence numbers, lengths and offsets within the u64 of the format. *)
Definition history (fuel n : nat) (l : list event) : Prop :=
  trusted nobody l /\ Forall event_ok l /\ (length l + n < fuel)%nat /\ (N.of_nat (length l + n) + 1 < 2 ^ 50)%N.

(** What a reply says about the effect of its call. *)
Definition refused (r : reply) : Prop :=
  match r with
  | RPutCas _ None | RDel None | RDelCas None | RDelCas (Some (false, _)) | RErr _ => True
  | _ => False
  end.
Definition stored_one (r : reply) : Prop :=
  match r with
  | RPut _ _ | RPutCas _ (Some _) | RDel (Some _) | RDelCas (Some (true, _)) => True
  | _ => False
  end.

(** The key and value a call writes in its block. *)
Definition written (c : call) : option (bytes * option bytes) :=
  match c with
  | CPut k v | CPutCas k v _ => Some (k, v)
  | CDel k | CDelCas k _ => Some (k, None)
  | _ => None
  end.

(** The decoded block [q] of a core has key [k] and value [v]. *)
Definition block_holds (C : list bytes) (q : nat) (k : bytes) (v : option bytes) : Prop :=
  exists raw nds, C !! q = Some raw /\ decode_block raw = DOk (Block nds k v).

(** A header block, and a core once it has one. *)
Definition hyperbee : bytes := String.list_byte_of_string "hyperbee"%string.
Definition header_block (md : option metadata) : bytes := enc_header (Header hyperbee md).
Definition headed (C : list bytes) : list bytes := match C with [] => [header_block None] | _ => C end.

(** [r], the reply to [c], is borne out by the blocks of [C]: what it says was found in a
    block that is there.  [quiet]: nothing writes through the handle meanwhile. *)
Definition borne_out (C : list bytes) (quiet : bool) (c : call) (r : reply) : Prop :=
  match c, r with
  | CGet k, RGet (Some (q, v)) => exists k', block_holds C q k' v /\ (quiet = true -> k' = k)
  | CPut k _, RPut (Some q) _ | CPutCas k _ _, RPutCas (Some q) _ | CDel k, RDel (Some q) | CDelCas k _, RDelCas (Some (_, q)) =>
      exists v, block_holds C q k v
  | CTraverse conf, RItems its _ =>
      forall e, IOk e ∈ its -> block_holds C (kv_seq e) (kv_key e) (kv_value e) /\
        above_min conf (kv_key e) = true /\ (below_max conf (kv_key e) = true \/ t_min conf = Finite (kv_key e))
  | _, _ => True
  end.

(** All calls of an event, finished or not, and the entries they bring. *)
Definition all_calls (e : event) : list call :=
  match e with
  | EvCall _ c _ | EvDrop _ c _ _ => [c]
  | EvReopen _ => []
  | EvReads xs _ => map (fun x => snd (fst x)) xs
  | EvBusy _ c _ xs _ => c :: map (fun x => snd (fst x)) xs
  end.
Definition brings (c : call) (k : bytes) (v : option bytes) : Prop :=
  match c with
  | CPut k' v' | CPutCas k' v' _ => k' = k /\ v' = v
  | CDel k' | CDelCas k' _ => k' = k /\ v = None
  | _ => False
  end.

(** ** The tree in the core *)

(** Block [q], decoded. *)
Definition block_at (C : list bytes) (q : nat) : option block :=
  raw ← C !! q; match decode_block raw with DOk b => Some b | _ => None end.

(** The tree below node [r = (block, index)], with the keys themselves; [n] bounds
    its height. *)
Inductive stree := SNode (keys : list bytes) (kids : list stree).
Fixpoint read_tree (n : nat) (C : list bytes) (r : ref) : option stree :=
  match n with
  | 0 => None
  | S n' =>
      b ← block_at C (fst r);
      nd ← b_nodes b !! snd r;
      ks ← mapM (fun q => b_key <$> block_at C q) (n_keys nd);
      ts ← mapM (read_tree n' C) (n_children nd);
      Some (SNode ks ts)
  end.

(** Its keys in order: those of the first child, the first key, those of the
    second child, and so on. *)
Fixpoint interleave {A} (cs : list (list A)) (ks : list A) : list A :=
  match cs, ks with
  | [], _ => ks
  | c :: cs', [] => c ++ concat cs'
  | c :: cs', k :: ks' => c ++ k :: interleave cs' ks'
  end.
Fixpoint inorder (t : stree) : list bytes :=
  match t with SNode ks ts => interleave (map inorder ts) ks end.

(** The trees below a node, itself not included, and their part of a traversal. *)
Inductive below : stree -> stree -> Prop :=
| below_kid t ks ts : t ∈ ts -> below t (SNode ks ts)
| below_down t u ks ts : below t u -> u ∈ ts -> below t (SNode ks ts).
Definition child_part (T : stree) (conf : config) (seg : list kvdata) : Prop :=
  exists t, below t T /\
    map kv_key seg = (if t_rev conf then rev (A:=bytes) else id) (List.filter (fun k => above_min conf k && below_max conf k) (inorder t)).

(** A B-tree whose leaves are all [h] levels below its root. *)
Fixpoint balanced (root : bool) (h : nat) (t : stree) : Prop :=
  match t with
  | SNode ks ts =>
      (length ks <= 8)%nat /\ (root = false -> (4 <= length ks)%nat) /\
      match h with
      | 0 => ts = []
      | S h' => (1 <= length ks)%nat /\ length ts = S (length ks) /\ Forall (balanced false h') ts
      end
  end.

(** The nodes of block [v] in depth-first preorder, from node [i] of that block
    and without following references into other blocks. *)
Fixpoint preorder (n : nat) (nds : list node) (v i : nat) : option (list nat) :=
  match n with
  | 0 => None
  | S n' =>
      nd ← nds !! i;
      ls ← mapM (fun r : ref => if (fst r =? v)%nat then preorder n' nds v (snd r) else Some []) (n_children nd);
      Some (i :: concat ls)
  end.

(** ** Cores the library did not write *)

(** Node [i] of block [q]: an internal node has more children than keys, and a child
    is in an earlier block or later in the same one, where there is such a node. *)
Definition sane_node (C : list bytes) (q i : nat) (nd : node) : Prop :=
  (n_children nd = [] \/ (length (n_keys nd) < length (n_children nd))%nat) /\
  Forall (fun r : ref =>
    ((fst r < q)%nat \/ (fst r = q /\ (i < snd r)%nat)) /\
    (forall b, block_at C (fst r) = Some b -> (snd r < length (b_nodes b))%nat)) (n_children nd).

(** Any list of blocks, decodable or not, in which the decodable ones are sane and the
    last of them has a node.  Keys may be in any order and refer to any block. *)
Definition sane (C : list bytes) : Prop :=
  (forall q raw, C !! q = Some raw -> decode_block raw <> DPanic) /\
  (forall q b i nd, block_at C q = Some b -> b_nodes b !! i = Some nd -> sane_node C q i nd) /\
  (forall b, block_at C (length C - 1) = Some b -> b_nodes b <> []).

(** The number of nodes in a core. *)
Definition node_count (C : list bytes) : nat :=
  sum_list (map (fun raw => match decode_block raw with DOk b => length (b_nodes b) | _ => 0 end) C).

(** A history of reads. *)
Definition only_reads (e : event) : Prop := match e with EvCall _ c _ => reads_only c | EvReopen _ => True | _ => False end.

(** The answer to a read: a value or an error. *)
Definition answered (r : reply + stop) : Prop :=
  match r with
  | inl (RItems its true) => exists its' e, its = its' ++ [IErr (EBuildIterator e)]
  | inl _ => True
  | inr _ => False
  end.

(** ** Height and printout *)

(** The number of nodes on each path from the root to a leaf. *)
Fixpoint path_lengths (t : stree) : list nat :=
  match t with SNode _ ts => match ts with [] => [1] | _ => map S (concat (map path_lengths ts)) end end.

(** The keys in order, each with its depth. *)
Fixpoint listing (d : nat) (t : stree) : list (nat * bytes) :=
  match t with SNode ks ts => interleave (map (listing (S d)) ts) (map (fun k => (d, k)) ks) end.
(** One line for each: tabs, the key, a line feed. *)
Definition printout (l : list (nat * bytes)) : bytes :=
  concat (map (fun x : nat * bytes => repeat x09 (fst x) ++ snd x ++ [x0a]) l).

(** UTF-8: the encodings of Unicode scalar values, one after the other. *)
Definition scalar (c : N) : Prop := (c < 55296 \/ 57344 <= c < 1114112)%N.
Definition utf8_char (c : N) : bytes :=
  if (c <? 128)%N then [byte_of c]
  else if (c <? 2048)%N then [byte_of (192 + c / 64); byte_of (128 + c mod 64)]
  else if (c <? 65536)%N then [byte_of (224 + c / 4096); byte_of (128 + c / 64 mod 64); byte_of (128 + c mod 64)]
  else [byte_of (240 + c / 262144); byte_of (128 + c / 4096 mod 64); byte_of (128 + c / 64 mod 64); byte_of (128 + c mod 64)].
Definition is_utf8 (b : bytes) : Prop := exists cs, Forall scalar cs /\ b = concat (map utf8_char cs).
