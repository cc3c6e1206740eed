(** The Hyperbee code as programs over a core, a cache and a heap of shared
    nodes.  Every definition cites the lines of /repo/src it models. *)
From Coq.Strings Require Import Byte.
From stdpp Require Import prelude gmap.
From Verif Require Import Bytes Codec.

(** * Data *)

(** u64 sequence numbers, u64 offsets and usize indices are [nat]; they become
    [N] at the codec boundary ([to_level], [level_to_node]). *)

(** [Child { seq, offset }] (lib.rs:84-97). *)
Notation ref := (nat * nat)%type.

(** A node's own data: [keys: Vec<KeyValue>] (a [KeyValue] is just a seq,
    lib.rs:58-70) and [children: RwLock<Vec<Child>>] (lib.rs:99-102, 178-182).
    The back pointer [blocks] is the same handle everywhere and is left out. *)
Record node := Node { n_keys : list nat; n_children : list ref }.

(** [SharedNode = Arc<RwLock<Node>>] (lib.rs:45-46): an index into the heap. *)
Notation nid := nat.

(** [BlockEntry] (blocks.rs:195-204). *)
Record entry := Entry { e_nodes : list nid; e_key : bytes; e_value : option bytes }.

(** [KeyValueData] (lib.rs:72-82). *)
Record kvdata := KV { kv_seq : nat; kv_key : bytes; kv_value : option bytes }.

(** The errors of error.rs that the modelled code can produce. *)
Inductive err :=
| EHypercore
| EDecode
| ENoBlockAtSeq (seq : nat)
| ENoRoot
| EHeaderAlreadyExists
| EGetChildInTraverse (e : err)
| EBuildIterator (e : err)
| EKeyFromUtf8.

(** How a program can end without a value: [Err(e)], a panic, or never. *)
Inductive stop := SErr (e : err) | SPanic | SDiverge.

(** MAX_KEYS (lib.rs:52) and [min_keys] (lib.rs:54-56). *)
Definition MAX_KEYS : nat := 8.
Definition min_keys (max_keys : nat) : nat := Nat.div2 max_keys.

(** * The environment *)

(** One entry of the fault schedule is consumed by every core read and append.
    [FErr]: the read or append fails without effect.  [FErrAfter]: an append takes
    effect but is reported as failed (or the process dies before it sees the
    acknowledgement); a read fails.  [FReadErr]: a read fails, an append works.
    [FMissing]: a read reports that the block is not there ([Ok(None)]), an append
    works.  An exhausted schedule means no faults. *)
Inductive fault := FNone | FErr | FMissing | FErrAfter | FReadErr.

(** [core]: the hypercore's blocks.  [cache]: Blocks::cache (blocks.rs:26).
    [heap]: the nodes reachable from the cache or from local variables. *)
Record st := St {
  core : list bytes;
  cache : gmap nat entry;
  heap : list node;
  oracle : list fault }.

Definition set_core (s : st) c := St c (cache s) (heap s) (oracle s).
Definition set_cache (s : st) c := St (core s) c (heap s) (oracle s).
Definition set_heap (s : st) h := St (core s) (cache s) h (oracle s).
Definition set_oracle (s : st) o := St (core s) (cache s) (heap s) o.

(** Result of [core.get]: an error, or [Ok(opt)]. *)
Inductive ioget := GErr | GOk (b : option bytes).

(** * Programs: trees of atomic commands *)
Inductive prog (A : Type) : Type :=
| Ret (a : A)
| Stop (x : stop)
| CoreLen (k : nat -> prog A)
| CoreGet (seq : nat) (k : ioget -> prog A)
| CoreAppend (b : bytes) (k : bool -> prog A)
| CacheGet (seq : nat) (k : option entry -> prog A)
| CachePut (seq : nat) (e : entry) (k : prog A)
| NodeNew (nd : node) (k : nid -> prog A)
| NodeGet (n : nid) (k : node -> prog A)
| NodeUpd (n : nid) (f : node -> option node) (k : node -> prog A).
Arguments Ret {A}. Arguments Stop {A}. Arguments CoreLen {A}.
Arguments CoreGet {A}. Arguments CoreAppend {A}. Arguments CacheGet {A}.
Arguments CachePut {A}. Arguments NodeNew {A}. Arguments NodeGet {A}.
Arguments NodeUpd {A}.

Fixpoint pbind {A B} (p : prog A) (f : A -> prog B) : prog B :=
  match p with
  | Ret a => f a
  | Stop x => Stop x
  | CoreLen k => CoreLen (fun v => pbind (k v) f)
  | CoreGet s k => CoreGet s (fun v => pbind (k v) f)
  | CoreAppend b k => CoreAppend b (fun v => pbind (k v) f)
  | CacheGet s k => CacheGet s (fun v => pbind (k v) f)
  | CachePut s e k => CachePut s e (pbind k f)
  | NodeNew nd k => NodeNew nd (fun v => pbind (k v) f)
  | NodeGet n k => NodeGet n (fun v => pbind (k v) f)
  | NodeUpd n g k => NodeUpd n g (fun v => pbind (k v) f)
  end.

Declare Scope prog_scope.
Delimit Scope prog_scope with prog.
Notation "x <- p ;; q" := (pbind p (fun x => q))
  (at level 100, p at next level, q at level 200, right associativity) : prog_scope.
Notation "' x <- p ;; q" := (pbind p (fun x => q))
  (at level 100, x pattern, p at next level, q at level 200, right associativity) : prog_scope.
Notation "p ;; q" := (pbind p (fun _ => q))
  (at level 100, q at level 200, right associativity) : prog_scope.
Open Scope prog_scope.

(** Turn an [Err] into a value (Rust code that matches on a [Result]). *)
Fixpoint catch {A} (p : prog A) : prog (A + err) :=
  match p with
  | Ret a => Ret (inl a)
  | Stop (SErr e) => Ret (inr e)
  | Stop x => Stop x
  | CoreLen k => CoreLen (fun v => catch (k v))
  | CoreGet s k => CoreGet s (fun v => catch (k v))
  | CoreAppend b k => CoreAppend b (fun v => catch (k v))
  | CacheGet s k => CacheGet s (fun v => catch (k v))
  | CachePut s e k => CachePut s e (catch k)
  | NodeNew nd k => NodeNew nd (fun v => catch (k v))
  | NodeGet n k => NodeGet n (fun v => catch (k v))
  | NodeUpd n g k => NodeUpd n g (fun v => catch (k v))
  end.

(** ** Atomic execution *)

(** What the core answers to a read, and the remaining fault schedule. *)
Definition exec_get (seq : nat) (s : st) : ioget * st :=
  match oracle s with
  | [] => (GOk (core s !! seq), s)
  | FNone :: o => (GOk (core s !! seq), set_oracle s o)
  | FMissing :: o => (GOk None, set_oracle s o)
  | (FErr | FErrAfter | FReadErr) :: o => (GErr, set_oracle s o)
  end.

Definition exec_append (b : bytes) (s : st) : bool * st :=
  match oracle s with
  | [] => (true, set_core s (core s ++ [b]))
  | (FNone | FMissing | FReadErr) :: o => (true, set_oracle (set_core s (core s ++ [b])) o)
  | FErr :: o => (false, set_oracle s o)
  | FErrAfter :: o => (false, set_oracle (set_core s (core s ++ [b])) o)
  end.

(** One atomic command. *)
Definition step {A} (p : prog A) (s : st) : prog A * st :=
  match p with
  | Ret _ | Stop _ => (p, s)
  | CoreLen k => (k (length (core s)), s)
  | CoreGet q k => let '(r, s') := exec_get q s in (k r, s')
  | CoreAppend b k => let '(r, s') := exec_append b s in (k r, s')
  | CacheGet q k => (k (cache s !! q), s)
  | CachePut q e k => (k, set_cache s (<[q := e]> (cache s)))
  | NodeNew nd k => (k (length (heap s)), set_heap s (heap s ++ [nd]))
  | NodeGet n k =>
      match heap s !! n with
      | Some nd => (k nd, s)
      | None => (Stop SPanic, s)
      end
  | NodeUpd n f k =>
      match heap s !! n with
      | Some nd =>
          match f nd with
          | Some nd' => (k nd, set_heap s (<[n := nd']> (heap s)))
          | None => (Stop SPanic, s)
          end
      | None => (Stop SPanic, s)
      end
  end.

(** Uninterrupted execution to the end. *)
Fixpoint run {A} (p : prog A) (s : st) : (A + stop) * st :=
  match p with
  | Ret a => (inl a, s)
  | Stop x => (inr x, s)
  | CoreLen k => run (k (length (core s))) s
  | CoreGet q k => let '(r, s') := exec_get q s in run (k r) s'
  | CoreAppend b k => let '(r, s') := exec_append b s in run (k r) s'
  | CacheGet q k => run (k (cache s !! q)) s
  | CachePut q e k => run k (set_cache s (<[q := e]> (cache s)))
  | NodeNew nd k => run (k (length (heap s))) (set_heap s (heap s ++ [nd]))
  | NodeGet n k =>
      match heap s !! n with
      | Some nd => run (k nd) s
      | None => (inr SPanic, s)
      end
  | NodeUpd n f k =>
      match heap s !! n with
      | Some nd =>
          match f nd with
          | Some nd' => run (k nd) (set_heap s (<[n := nd']> (heap s)))
          | None => (inr SPanic, s)
          end
      | None => (inr SPanic, s)
      end
  end.

(** * Small helpers *)
Definition throw {A} (e : err) : prog A := Stop (SErr e).
Definition panic {A} : prog A := Stop SPanic.
(** [opt.unwrap()], [opt.expect(..)], [vec[i]] *)
Definition unwrap {A} (o : option A) : prog A :=
  match o with Some a => Ret a | None => panic end.

Definition core_len : prog nat := CoreLen Ret.
Definition node_get (n : nid) : prog node := NodeGet n Ret.
Definition node_new (nd : node) : prog nid := NodeNew nd Ret.
(** Access under the node's write lock: [f] gives a result and the new node, or
    panics. *)
Definition node_mod {B} (n : nid) (f : node -> option (B * node)) : prog B :=
  NodeUpd n (fun nd => snd <$> f nd) (fun nd => unwrap (fst <$> f nd)).

(** Vec operations with their panics. *)
Definition vec_remove {A} (i : nat) (l : list A) : option (A * list A) :=
  match l !! i with
  | Some x => Some (x, take i l ++ drop (S i) l)
  | None => None
  end.
Definition vec_pop {A} (l : list A) : option (A * list A) :=
  match last l with
  | Some x => Some (x, take (length l - 1) l)
  | None => None
  end.
Definition vec_insert {A} (i : nat) (x : A) (l : list A) : option (list A) :=
  if (i <=? length l)%nat then Some (take i l ++ x :: drop i l) else None.
(** [l.splice(a..b, new)] *)
Definition vec_splice {A} (a b : nat) (new : list A) (l : list A) : option (list A) :=
  if (a <=? b)%nat && (b <=? length l)%nat then Some (take a l ++ new ++ drop b l) else None.
(** [l[i] = x] *)
Definition vec_set {A} (i : nat) (x : A) (l : list A) : option (list A) :=
  if (i <? length l)%nat then Some (<[i := x]> l) else None.

(** Updates of one of the two fields of a node. *)
Definition on_keys {B} (f : list nat -> option (B * list nat)) (nd : node) : option (B * node) :=
  match f (n_keys nd) with
  | Some (b, ks) => Some (b, Node ks (n_children nd))
  | None => None
  end.
Definition on_children {B} (f : list ref -> option (B * list ref)) (nd : node) : option (B * node) :=
  match f (n_children nd) with
  | Some (b, cs) => Some (b, Node (n_keys nd) cs)
  | None => None
  end.
Definition only {A} (o : option A) : option (unit * A) := (fun a => (tt, a)) <$> o.

(** * blocks.rs *)

(** [to_level] (lib.rs:220-231). *)
Definition flat_refs (cs : list ref) : list N :=
  concat (map (fun c : ref => [N.of_nat (fst c); N.of_nat (snd c)]) cs).
Definition to_level (nd : node) : level :=
  Level (map N.of_nat (n_keys nd)) (flat_refs (n_children nd)).

(** The closure of [make_node_vec] (blocks.rs:184-191): [level.children[i + 1]]
    panics when the number of children entries is odd ([None]). *)
Fixpoint pair_up (l : list N) : option (list ref) :=
  match l with
  | [] => Some []
  | [_] => None
  | a :: b :: l' => (fun r => (N.to_nat a, N.to_nat b) :: r) <$> pair_up l'
  end.
Definition level_to_node (l : level) : option node :=
  (fun cs => Node (map N.to_nat (lv_keys l)) cs) <$> pair_up (lv_children l).

(** A block as it is decoded: [NodeSchema::decode] then [BlockEntry::new] with
    [make_node_vec] (blocks.rs:76-88, 179-193, 206-213).  [DErr] is a
    [DecodeError], [DPanic] the index panic above. *)
Record block := Block { b_nodes : list node; b_key : bytes; b_value : option bytes }.
Inductive decoded := DErr | DPanic | DOk (b : block).

Definition decode_block (raw : bytes) : decoded :=
  match dec_node_schema raw with
  | None => DErr
  | Some ns =>
      match dec_yolo (ns_index ns) with
      | None => DErr
      | Some ls =>
          match mapM level_to_node ls with
          | None => DPanic
          | Some nds => DOk (Block nds (ns_key ns) (ns_value ns))
          end
      end
  end.

(** [Arc::new(RwLock::new(Node::new(..)))] for each node (blocks.rs:190). *)
Fixpoint alloc_all (nds : list node) : prog (list nid) :=
  match nds with
  | [] => Ret []
  | nd :: nds' => n <- node_new nd ;; ns <- alloc_all nds' ;; Ret (n :: ns)
  end.

(** [Blocks::get] with [get_from_cache] and [get_from_core] (blocks.rs:48-88). *)
Definition blocks_get (seq : nat) : prog entry :=
  c <- CacheGet seq Ret ;;
  match c with
  | Some e => Ret e
  | None =>
      r <- CoreGet seq Ret ;;
      match r with
      | GErr => throw EHypercore
      | GOk None => throw (ENoBlockAtSeq seq)
      | GOk (Some raw) =>
          match decode_block raw with
          | DErr => throw EDecode
          | DPanic => panic
          | DOk b =>
              ns <- alloc_all (b_nodes b) ;;
              let e := Entry ns (b_key b) (b_value b) in
              CachePut seq e (Ret e)
          end
      end
  end.

(** [BlockEntry::get_tree_node] (blocks.rs:215-226): [expect] panics on a bad
    offset.  usize = u64, so [try_from] cannot fail. *)
Definition get_tree_node (e : entry) (offset : nat) : prog nid := unwrap (e_nodes e !! offset).

(** [Blocks::append] (blocks.rs:94-96). *)
Definition blocks_append (b : bytes) : prog unit :=
  ok <- CoreAppend b Ret ;;
  if (ok : bool) then Ret tt else throw EHypercore.

(** * lib.rs *)

(** [Node::get_key_value] (lib.rs:233-257): both block lookups are made. *)
Definition get_key_value (n : nid) (index : nat) : prog kvdata :=
  nd <- node_get n ;;
  seq <- unwrap (n_keys nd !! index) ;;
  e1 <- blocks_get seq ;;
  e2 <- blocks_get seq ;;
  Ret (KV seq (e_key e1) (e_value e2)).

(** [Children::get_child] / [Node::get_child] (lib.rs:134-148, 259-262). *)
Definition get_child (n : nid) (index : nat) : prog nid :=
  nd <- node_get n ;;
  r <- unwrap (n_children nd !! index) ;;
  e <- blocks_get (fst r) ;;
  get_tree_node e (snd r).

Definition num_keys (n : nid) : prog nat := nd <- node_get n ;; Ret (length (n_keys nd)).
(** lib.rs:193-199 *)
Definition num_children (n : nid) : prog nat := nd <- node_get n ;; Ret (length (n_children nd)).
Definition is_leaf (n : nid) : prog bool := c <- num_children n ;; Ret (c =? 0)%nat.

(** The binary search loop of [get_index_of_key] (lib.rs:323-353).  The fuel is
    the number of keys plus one, which is always enough. *)
Fixpoint search_loop (fuel : nat) (n : nid) (key : limit) (low high : nat)
    : prog (option nat * nat) :=
  match fuel with
  | 0 => Stop SDiverge
  | S f =>
      if (low <=? high)%nat then
        let mid := (low + Nat.div2 (high - low))%nat in
        kv <- get_key_value n mid ;;
        if limit_eq key (kv_key kv) then Ret (Some (kv_seq kv), mid)
        else if limit_lt key (kv_key kv) then
          if (mid =? 0)%nat then Ret (None, low)
          else search_loop f n key low (mid - 1)
        else search_loop f n key (mid + 1) high
      else Ret (None, low)
  end.

(** [get_index_of_key] (lib.rs:293-356). *)
Definition get_index_of_key (n : nid) (key : limit) : prog (option nat * nat) :=
  nk <- num_keys n ;;
  if (nk =? 0)%nat then Ret (None, 0)
  else search_loop (S nk) n key 0 (nk - 1).

(** [NodePath] (lib.rs:47), stored with the last element first, so that
    [path.pop()] is the head. *)
Notation path := (list (nid * nat)).

(** [nearest_node] (lib.rs:358-396).  The Rust loop is unbounded; [fuel]
    exhaustion stands for an endless loop. *)
Fixpoint nearest_loop (fuel : nat) (n : nid) (key : limit) (acc : path)
    : prog (option nat * path) :=
  match fuel with
  | 0 => Stop SDiverge
  | S f =>
      '(matched, index) <- get_index_of_key n key ;;
      let acc' := (n, index) :: acc in
      match matched with
      | Some _ => Ret (matched, acc')
      | None =>
          leaf <- is_leaf n ;;
          if (leaf : bool) then Ret (matched, acc')
          else c <- get_child n index ;; nearest_loop f c key acc'
      end
  end.
Definition nearest_node (fuel : nat) (n : nid) (key : limit) : prog (option nat * path) :=
  nearest_loop fuel n key [].

(** [Children::insert] (lib.rs:112-132): without new children nothing happens,
    otherwise the child at [index] is replaced. *)
Definition children_insert (index : nat) (new : list ref) (cs : list ref) : option (list ref) :=
  match new with
  | [] => Some cs
  | _ => vec_splice index (index + 1) new cs
  end.

(** [Node::insert] (lib.rs:264-270). *)
Definition node_insert (key : nat) (children : list ref) (a b : nat) (nd : node) : option (unit * node) :=
  match vec_splice a b [key] (n_keys nd), children_insert a children (n_children nd) with
  | Some ks, Some cs => Some (tt, Node ks cs)
  | _, _ => None
  end.

(** * changes.rs *)
Record changes := Changes { ch_seq : nat; ch_key : bytes; ch_value : option bytes; ch_nodes : list nid }.

(** [Changes::add_node] (changes.rs:22-32). *)
Definition add_node (n : nid) (ch : changes) : ref * changes :=
  ((ch_seq ch, length (ch_nodes ch)),
   Changes (ch_seq ch) (ch_key ch) (ch_value ch) (ch_nodes ch ++ [n])).

(** * blocks.rs: committing changes *)

(** The positions [i] with [children[i].seq == seq], in order (blocks.rs:134-150;
    the code reverses the vector and pops from its end). *)
Fixpoint with_seq (seq i : nat) (cs : list ref) : list nat :=
  match cs with
  | [] => []
  | c :: cs' => if (fst c =? seq)%nat then i :: with_seq seq (S i) cs' else with_seq seq (S i) cs'
  end.
Definition take_children_with_seq (n : nid) (seq : nat) : prog (list (nid * nat)) :=
  nd <- node_get n ;;
  Ret (map (fun i => (n, i)) (with_seq seq 0 (n_children nd))).

(** The loop of [reorder_nodes] (blocks.rs:162-176); the stack's top is the head. *)
Fixpoint reorder_loop (fuel seq : nat) (nodes : list nid) (stack : list (nid * nat)) (out : list nid)
    : prog (list nid) :=
  match stack with
  | [] => Ret out
  | (n, ci) :: stack' =>
      match fuel with
      | 0 => Stop SDiverge
      | S f =>
          nd <- node_get n ;;
          c <- unwrap (n_children nd !! ci) ;;
          node_mod n (on_children (fun cs =>
            c' ← cs !! ci; only (vec_set ci (fst c', length out) cs))) ;;
          child <- unwrap (nodes !! snd c) ;;
          more <- take_children_with_seq child seq ;;
          reorder_loop f seq nodes (more ++ stack') (out ++ [child])
      end
  end.

(** [reorder_nodes] (blocks.rs:152-177).  Each round handles one reference to a
    node of [nodes]; when every node is referenced at most once the number of
    nodes is enough fuel.  (On a core whose blocks refer to the number of the next
    block a node may be referenced more often; a write there may end in [SDiverge]
    here where the code would go on.) *)
Definition reorder_nodes (seq : nat) (nodes : list nid) : prog (list nid) :=
  root <- unwrap (last nodes) ;;
  stack <- take_children_with_seq root seq ;;
  reorder_loop (length nodes) seq nodes stack [root].

Fixpoint read_levels (ns : list nid) : prog (list level) :=
  match ns with
  | [] => Ret []
  | n :: ns' => nd <- node_get n ;; ls <- read_levels ns' ;; Ret (to_level nd :: ls)
  end.

Definition encode_block (ls : list level) (key : bytes) (value : option bytes) : bytes :=
  enc_node_schema (NodeSchema (enc_yolo ls) key value).

(** [Blocks::add_changes] (blocks.rs:98-131). *)
Definition add_changes (ch : changes) : prog unit :=
  out <- reorder_nodes (ch_seq ch) (ch_nodes ch) ;;
  ls <- read_levels out ;;
  blocks_append (encode_block ls (ch_key ch) (ch_value ch)).

(** * tree.rs *)

(** [Tree::version] (tree.rs:48-50). *)
Definition version : prog nat := core_len.

(** PROTOCOL = "hyperbee" (lib.rs:50). *)
Definition PROTOCOL : bytes := [x68; x79; x70; x65; x72; x62; x65; x65].

(** [Tree::create_header] (tree.rs:117-135). *)
Definition create_header (md : option metadata) : prog unit :=
  len <- core_len ;;
  if (len =? 0)%nat then blocks_append (enc_header (Header PROTOCOL md))
  else throw EHeaderAlreadyExists.

(** [Tree::ensure_header] (tree.rs:106-115). *)
Definition ensure_header : prog bool :=
  r <- catch (create_header None) ;;
  match r with
  | inl _ => Ret true
  | inr EHeaderAlreadyExists => Ret false
  | inr e => throw e
  end.

(** [Tree::get_root] (tree.rs:51-72). *)
Definition get_root (ensure : bool) : prog (option nid) :=
  v <- version ;;
  if (v <=? 1)%nat then
    if (v =? 0)%nat && ensure then ensure_header ;; Ret None else Ret None
  else
    e <- blocks_get (v - 1) ;;
    n <- get_tree_node e 0 ;;
    Ret (Some n).

(** [Tree::get] (tree.rs:87-104). *)
Definition tree_get (fuel : nat) (key : bytes) : prog (option (nat * option bytes)) :=
  r <- get_root false ;;
  match r with
  | None => Ret None
  | Some root =>
      '(matched, p) <- nearest_node fuel root (Finite key) ;;
      match matched with
      | None => Ret None
      | Some _ =>
          '(n, i) <- unwrap (head p) ;;
          kv <- get_key_value n i ;;
          Ret (Some (kv_seq kv, kv_value kv))
      end
  end.

(** * put.rs *)

(** [propagate_changes_up_tree] (put.rs:11-30). *)
Fixpoint propagate (ch : changes) (p : path) (child : ref) : prog changes :=
  match p with
  | [] => Ret ch
  | (n, i) :: p' =>
      node_mod n (on_children (fun cs => only (vec_set i child cs))) ;;
      let '(r, ch') := add_node n ch in
      propagate ch' p' r
  end.

(** [Node::split] (put.rs:32-67): returns the contents of the left node, the
    middle key and the contents of the right node, and leaves the node empty. *)
Definition split_node (nd : node) : option ((node * nat * node) * node) :=
  let km := Nat.div2 (length (n_keys nd)) in
  let cm := Nat.div2 (length (n_children nd)) in
  match drop km (n_keys nd) with
  | [] => None
  | mid :: rkeys =>
      Some ((Node (take km (n_keys nd)) (take cm (n_children nd)), mid,
             Node rkeys (drop cm (n_children nd))), Node [] [])
  end.

(** The loop of [put_compare_and_swap] (put.rs:119-168): either the key found
    room and the changes are ready to be committed, or a new root is needed. *)
Inductive put_result :=
| PutReady (ch : changes)
| PutNewRoot (key : nat) (children : list ref) (ch : changes).

Fixpoint put_loop (matched : bool) (cur_key : nat) (children : list ref) (p : path) (ch : changes)
    : prog put_result :=
  match p with
  | [] => Ret (PutNewRoot cur_key children ch)
  | (n, i) :: p' =>
      nk <- num_keys n ;;
      if matched || (nk <? MAX_KEYS)%nat then
        node_mod n (node_insert cur_key children i (if matched then (i + 1)%nat else i)) ;;
        let '(child, ch') := add_node n ch in
        ch'' <- propagate ch' p' child ;;
        Ret (PutReady ch'')
      else
        node_mod n (node_insert cur_key children i i) ;;
        '(lnd, mid, rnd) <- node_mod n split_node ;;
        l <- node_new lnd ;;
        r <- node_new rnd ;;
        let '(lr, ch1) := add_node l ch in
        let '(rr, ch2) := add_node r ch1 in
        put_loop matched mid [lr; rr] p' ch2
  end.

(** [Tree::put_compare_and_swap] (put.rs:73-188).  The callback is a pure
    function of the two entries. *)
Definition tree_put_cas (fuel : nat) (key : bytes) (value : option bytes)
    (cas : option kvdata -> kvdata -> bool) : prog (option nat * option nat) :=
  maybe_root <- get_root true ;;
  seq <- version ;;
  let ch := Changes seq key value [] in
  let new_data := KV seq key value in
  match maybe_root with
  | None =>
      if cas None new_data then
        n <- node_new (Node [seq] []) ;;
        let '(_, ch') := add_node n ch in
        add_changes ch' ;; Ret (None, Some seq)
      else Ret (None, None)
  | Some root =>
      '(matched, p) <- nearest_node fuel root (Finite key) ;;
      old <- (match matched with
              | Some _ => '(n, i) <- unwrap (head p) ;; kv <- get_key_value n i ;; Ret (Some kv)
              | None => Ret None
              end) ;;
      if cas old new_data then
        r <- put_loop (bool_decide (is_Some matched)) seq [] p ch ;;
        match r with
        | PutReady ch' => add_changes ch' ;; Ret (matched, Some seq)
        | PutNewRoot k cs ch' =>
            n <- node_new (Node [k] cs) ;;
            let '(_, ch'') := add_node n ch' in
            add_changes ch'' ;; Ret (matched, Some seq)
        end
      else Ret (matched, None)
  end.

(** [Tree::put] (put.rs:198-210): [expect] on the new seq. *)
Definition tree_put (fuel : nat) (key : bytes) (value : option bytes) : prog (option nat * nat) :=
  '(old, new) <- tree_put_cas fuel key value (fun _ _ => true) ;;
  n <- unwrap new ;;
  Ret (old, n).

(** * del.rs *)
Inductive side := SLeft | SRight.

(** [replace_removed_internal_key_with_a_key_from_leaf] (del.rs:34-70). *)
Definition replace_removed (fuel : nat) (p : path) (n : nid) (key_index : nat) : prog path :=
  left_child <- get_child n key_index ;;
  '(_, left_path) <- nearest_node fuel left_child PosInf ;;
  '(ln, _) <- unwrap (head left_path) ;;
  num_left <- num_keys ln ;;
  right_child <- get_child n (key_index + 1) ;;
  '(_, right_path) <- nearest_node fuel right_child NegInf ;;
  '(rn, _) <- unwrap (head right_path) ;;
  num_right <- num_keys rn ;;
  '(child_index, key, bottom) <-
    (if (num_left <? num_right)%nat then
       donor <- node_mod rn (on_keys (vec_remove 0)) ;;
       Ret ((key_index + 1)%nat, donor, right_path)
     else
       donor <- node_mod ln (on_keys vec_pop) ;;
       Ret (key_index, donor, left_path)) ;;
  node_mod n (on_keys (fun ks => only (vec_insert key_index key ks))) ;;
  Ret (bottom ++ (n, child_index) :: p).

(** [get_donor_index] (del.rs:75-86). *)
Definition get_donor_index (sd : side) (father : nid) (di : nat) : prog (option nat) :=
  match sd with
  | SLeft => Ret (if (di =? 0)%nat then None else Some (di - 1)%nat)
  | SRight =>
      nc <- num_children father ;;
      Ret (if (nc <=? di + 1)%nat then None else Some (di + 1)%nat)
  end.

(** [get_key_index] (del.rs:88-94); the subtraction would panic at 0 but is only
    reached with [di > 0] on the left side. *)
Definition get_key_index (sd : side) (di : nat) : nat :=
  match sd with SRight => di | SLeft => (di - 1)%nat end.

(** [get_donor_key] (del.rs:96-106). *)
Definition get_donor_key (sd : side) (donor : nid) : prog nat :=
  match sd with
  | SRight => node_mod donor (on_keys (vec_remove 0))
  | SLeft => node_mod donor (on_keys vec_pop)
  end.

(** [get_donor_child] (del.rs:108-116). *)
Definition get_donor_child (sd : side) (donor : nid) : prog (option ref) :=
  leaf <- is_leaf donor ;;
  if (leaf : bool) then Ret None
  else
    c <- (match sd with
          | SRight => node_mod donor (on_children (vec_remove 0))
          | SLeft => node_mod donor (on_children vec_pop)
          end) ;;
    Ret (Some c).

(** [swap_donor_key_in_father] (del.rs:118-133). *)
Definition swap_donor_key (sd : side) (father : nid) (di key : nat) : prog nat :=
  let ki := get_key_index sd di in
  node_mod father (on_keys (fun ks =>
    old ← ks !! ki; ks' ← vec_splice ki (ki + 1) [key] ks; Some (old, ks'))).

(** [insert_donations_into_deficient_child] (del.rs:135-155). *)
Definition insert_donations (sd : side) (dc : nid) (key : nat) (child : option ref) : prog unit :=
  match sd with
  | SRight =>
      node_mod dc (on_keys (fun ks => Some (tt, ks ++ [key]))) ;;
      match child with
      | Some c => node_mod dc (on_children (fun cs => Some (tt, cs ++ [c])))
      | None => Ret tt
      end
  | SLeft =>
      node_mod dc (on_keys (fun ks => Some (tt, key :: ks))) ;;
      match child with
      | Some c => node_mod dc (on_children (fun cs => Some (tt, c :: cs)))
      | None => Ret tt
      end
  end.

(** [can_rotate] (del.rs:157-173). *)
Definition can_rotate (sd : side) (father : nid) (di order : nat) : prog (option (nat * nid)) :=
  d <- get_donor_index sd father di ;;
  match d with
  | None => Ret None
  | Some donor_index =>
      donor <- get_child father donor_index ;;
      nk <- num_keys donor ;;
      Ret (if (min_keys order <? nk)%nat then Some (donor_index, donor) else None)
  end.

(** [wchildren!(n)[i] = r] *)
Definition set_child (n : nid) (i : nat) (r : ref) : prog unit :=
  node_mod n (on_children (fun cs => only (vec_set i r cs))).

(** [rotate] (del.rs:175-205). *)
Definition rotate (sd : side) (father : nid) (di : nat) (dc : nid) (donor_index : nat) (donor : nid)
    (ch : changes) : prog changes :=
  dk <- get_donor_key sd donor ;;
  dch <- get_donor_child sd donor ;;
  fk <- swap_donor_key sd father di dk ;;
  insert_donations sd dc fk dch ;;
  let '(r1, ch1) := add_node donor ch in
  set_child father donor_index r1 ;;
  let '(r2, ch2) := add_node dc ch1 in
  set_child father di r2 ;;
  Ret ch2.

(** [maybe_rotate] (del.rs:207-232). *)
Definition maybe_rotate (sd : side) (father : nid) (di : nat) (dc : nid) (order : nat) (ch : changes)
    : prog (option changes) :=
  d <- can_rotate sd father di order ;;
  match d with
  | None => Ret None
  | Some (donor_index, donor) =>
      ch' <- rotate sd father di dc donor_index donor ch ;;
      Ret (Some ch')
  end.

(** [maybe_merge] (del.rs:234-285). *)
Definition maybe_merge (sd : side) (father : nid) (di : nat) (dc : nid) (ch : changes)
    : prog (option changes) :=
  d <- get_donor_index sd father di ;;
  match d with
  | None => Ret None
  | Some donor_index =>
      donor <- get_child father donor_index ;;
      let '(l, r) := match sd with SRight => (dc, donor) | SLeft => (donor, dc) end in
      fk <- node_mod father (on_keys (vec_remove (get_key_index sd di))) ;;
      let rci := match sd with SRight => (di + 1)%nat | SLeft => di end in
      node_mod father (on_children (fun cs => only (vec_splice rci (rci + 1) [] cs))) ;;
      nl <- num_keys l ;;
      rk <- node_mod r (on_keys (fun ks => Some (ks, []))) ;;
      node_mod l (on_keys (fun ks => only (vec_splice nl nl (fk :: rk) ks))) ;;
      nlc <- num_children l ;;
      rc <- node_mod r (on_children (fun cs => Some (cs, []))) ;;
      node_mod l (on_children (fun cs => only (vec_splice nlc nlc rc cs))) ;;
      let '(lr, ch') := add_node l ch in
      node_mod father (on_children (fun cs => only (vec_splice (rci - 1) rci [lr] cs))) ;;
      Ret (Some ch')
  end.

(** [repair_one] (del.rs:288-356): rotate left, rotate right, merge left, merge
    right, else panic.  The father is updated in place. *)
Definition repair_one (father : nid) (di : nat) (dc : nid) (order : nat) (ch : changes) : prog changes :=
  r1 <- maybe_rotate SLeft father di dc order ch ;;
  match r1 with Some ch' => Ret ch' | None =>
  r2 <- maybe_rotate SRight father di dc order ch ;;
  match r2 with Some ch' => Ret ch' | None =>
  r3 <- maybe_merge SLeft father di dc ch ;;
  match r3 with Some ch' => Ret ch' | None =>
  r4 <- maybe_merge SRight father di dc ch ;;
  match r4 with Some ch' => Ret ch' | None => panic
  end end end end.

(** The loop of [repair] (del.rs:368-402); [p] is the path above [father]. *)
Fixpoint repair_loop (p : path) (father : nid) (di : nat) (dc : nid) (order : nat) (ch : changes)
    : prog (ref * path * changes) :=
  ch' <- repair_one father di dc order ch ;;
  nk <- num_keys father ;;
  nc <- num_children father ;;
  match p with
  | [] =>
      if (nk =? 0)%nat && (nc =? 1)%nat then
        nd <- node_get father ;;
        r <- unwrap (n_children nd !! 0) ;;
        Ret (r, [], ch')
      else
        let '(r, ch'') := add_node father ch' in Ret (r, [], ch'')
  | (n, i) :: p' =>
      if (min_keys order <=? nk)%nat then
        let '(r, ch'') := add_node father ch' in Ret (r, p, ch'')
      else repair_loop p' n i father order ch'
  end.

(** [repair] (del.rs:357-405). *)
Definition repair (p : path) (order : nat) (ch : changes) : prog (ref * path * changes) :=
  match p with
  | [] => panic
  | (father, di) :: p' =>
      dc <- get_child father di ;;
      repair_loop p' father di dc order ch
  end.

(** [Tree::del_compare_and_swap] (del.rs:412-477). *)
Definition tree_del_cas (fuel : nat) (key : bytes) (cas : kvdata -> bool) : prog (option (bool * nat)) :=
  r <- get_root false ;;
  match r with
  | None => Ret None
  | Some root =>
      '(matched, p) <- nearest_node fuel root (Finite key) ;;
      match matched with
      | None => Ret None
      | Some seq =>
          '(n, i) <- unwrap (head p) ;;
          kv <- get_key_value n i ;;
          if cas kv then
            v <- version ;;
            let ch := Changes v key None [] in
            '(cur, ci) <- unwrap (head p) ;;
            let p1 := tail p in
            node_mod cur (on_keys (vec_remove ci)) ;;
            leaf <- is_leaf cur ;;
            p2 <- (if (leaf : bool) then Ret ((cur, ci) :: p1)
                   else replace_removed fuel p1 cur ci) ;;
            '(bottom, _) <- unwrap (head p2) ;;
            let p3 := tail p2 in
            nk <- num_keys bottom ;;
            '(child, p4, ch') <-
              (if negb (bool_decide (p3 = [])) && (nk <? min_keys MAX_KEYS)%nat
               then repair p3 MAX_KEYS ch
               else let '(r, ch1) := add_node bottom ch in Ret (r, p3, ch1)) ;;
            ch'' <- propagate ch' p4 child ;;
            add_changes ch'' ;;
            Ret (Some (true, seq))
          else Ret (Some (false, seq))
      end
  end.

(** [Tree::del] (del.rs:479-487). *)
Definition tree_del (fuel : nat) (key : bytes) : prog (option nat) :=
  r <- tree_del_cas fuel key (fun _ => true) ;;
  match r with
  | None => Ret None
  | Some (true, seq) => Ret (Some seq)
  | Some (false, _) => panic
  end.

(** * traverse.rs *)

(** [TraverseConfig] (traverse.rs:97-116). *)
Record config := Config {
  t_min : limit; t_min_incl : bool; t_max : limit; t_max_incl : bool; t_rev : bool }.

(** [Default for TraverseConfig] (traverse.rs:118-128). *)
Definition default_config : config := Config NegInf true PosInf true false.

(** [TraverseConfigBuilder]: every field may be unset (derive_builder). *)
Record builder := Builder {
  bd_min : option limit; bd_min_incl : option bool;
  bd_max : option limit; bd_max_incl : option bool; bd_rev : option bool }.

(** [validate_traverse_config_builder] (traverse.rs:59-95): true is Ok. *)
Definition validate (b : builder) : bool :=
  match bd_min b, bd_max b with
  | Some mn, Some mx =>
      match mn, mx with
      | _, NegInf => false
      | PosInf, _ => false
      | Finite mn, Finite mx =>
          if bytes_ltb mx mn then false
          else if bytes_eqb mn mx then
            match bd_min_incl b, bd_max_incl b with
            | Some false, _ => false
            | _, Some false => false
            | _, _ => true
            end
          else true
      | _, _ => false
      end
  | _, _ => true
  end.

(** [TraverseConfigBuilder::build]: validate, then fill in the defaults. *)
Definition build (b : builder) : option config :=
  if validate b then
    Some (Config (default NegInf (bd_min b)) (default true (bd_min_incl b))
                 (default PosInf (bd_max b)) (default true (bd_max_incl b))
                 (default false (bd_rev b)))
  else None.

(** [(start..stop).step_by(step)] as a list, for step 1 or 2. *)
Fixpoint range_step (fuel start stop step : nat) : list nat :=
  match fuel with
  | 0 => []
  | S f => if (start <? stop)%nat then start :: range_step f (start + step) stop step else []
  end.
Definition range_by (start stop step : nat) : list nat := range_step (stop - start) start stop step.

(** The pure part of [make_child_key_index_iter] (traverse.rs:140-216).
    [key_index - step_by] cannot underflow: key_index is odd and the pair (1, 2)
    is handled first. *)
Definition iter_indices (conf : config) (n_keys n_children : nat) (matched : bool) (index : nat) : list nat :=
  let leaf := (n_children =? 0)%nat in
  let step_by := if leaf then 2 else 1 in
  let inclusive := if t_rev conf then t_max_incl conf else t_min_incl conf in
  let start :=
    if matched then
      let key_index := (index * 2 + 1)%nat in
      if inclusive then Some key_index
      else if negb (t_rev conf) then Some (key_index + step_by)%nat
      else if (key_index =? 1)%nat && (step_by =? 2)%nat then None
      else Some (key_index - step_by)%nat
    else
      let child_index := (index * 2)%nat in
      if negb leaf then Some child_index
      else if negb (t_rev conf) then Some (child_index + 1)%nat
      else if (child_index =? 0)%nat then Some 0
      else Some (child_index - 1)%nat in
  match start with
  | None => []
  | Some start =>
      if negb (t_rev conf) then range_by start (n_keys * 2 + 1) step_by
      else rev (range_by (if leaf then 1 else 0) (start + 1) step_by)
  end.

(** [make_child_key_index_iter] (traverse.rs:140-216). *)
Definition make_iter (conf : config) (n : nid) (n_keys n_children : nat) : prog (list nat) :=
  let key := if t_rev conf then t_max conf else t_min conf in
  '(matched, index) <- get_index_of_key n key ;;
  Ret (iter_indices conf n_keys n_children (bool_decide (is_Some matched)) index).

(** [TraverseConfig::in_bounds] (traverse.rs:218-239). *)
Definition in_bounds (conf : config) (k : bytes) : bool :=
  match limit_cmp (t_min conf) k with
  | Gt => false
  | Eq => t_min_incl conf
  | Lt =>
      match limit_cmp (t_max conf) k with
      | Gt => true
      | Eq => t_max_incl conf
      | Lt => false
      end
  end.

(** [KeyDataResult] (traverse.rs:19). *)
Inductive item := IOk (kv : kvdata) | IErr (e : err).

(** All items the stream yields until it ends, with the node each came from
    ([TreeItem], traverse.rs:21), and whether polling on after the last item
    panics instead of ending: a failed [iter_fut] is polled again after it has
    completed (traverse.rs:402-416). *)
Notation stream_result := (list (item * nid) * bool)%type.

(** The body of [poll_next] for one node (traverse.rs:311-448), run to the end:
    for each index, a child is traversed completely, or a key is yielded; a key
    out of bounds ends this node's stream (and only this one). *)
Fixpoint trav_loop (rec : nid -> prog stream_result) (conf : config) (n : nid) (idxs : list nat)
    : prog stream_result :=
  match idxs with
  | [] => Ret ([], false)
  | i :: idxs' =>
      if Nat.even i then
        c <- catch (get_child n (Nat.div2 i)) ;;
        match c with
        | inr e =>
            '(its, b) <- trav_loop rec conf n idxs' ;;
            Ret ((IErr (EGetChildInTraverse e), n) :: its, b)
        | inl child =>
            '(its1, b1) <- rec child ;;
            if (b1 : bool) then Ret (its1, true)
            else '(its2, b2) <- trav_loop rec conf n idxs' ;; Ret (its1 ++ its2, b2)
        end
      else
        kv <- catch (get_key_value n (Nat.div2 i)) ;;
        match kv with
        | inr e =>
            '(its, b) <- trav_loop rec conf n idxs' ;; Ret ((IErr e, n) :: its, b)
        | inl kv =>
            if in_bounds conf (kv_key kv) then
              '(its, b) <- trav_loop rec conf n idxs' ;; Ret ((IOk kv, n) :: its, b)
            else Ret ([], false)
        end
  end.

Fixpoint trav (fuel : nat) (conf : config) (n : nid) : prog stream_result :=
  match fuel with
  | 0 => Stop SDiverge
  | S f =>
      nk <- num_keys n ;;
      nc <- num_children n ;;
      it <- catch (make_iter conf n nk nc) ;;
      match it with
      | inr e => Ret ([(IErr (EBuildIterator e), n)], true)
      | inl idxs => trav_loop (trav f conf) conf n idxs
      end
  end.

(** [Tree::traverse] (tree.rs:148-159), collected by the consumer. *)
Definition tree_traverse (fuel : nat) (conf : config) : prog (list item * bool) :=
  r <- get_root false ;;
  match r with
  | None => throw ENoRoot
  | Some root =>
      '(its, b) <- trav fuel conf root ;;
      Ret (map fst its, b)
  end.

(** * Debug helpers *)

(** [Node::height] (lib.rs:201-218): follow the first children. *)
Fixpoint node_height (fuel : nat) (n : nid) : prog nat :=
  match fuel with
  | 0 => Stop SDiverge
  | S f =>
      leaf <- is_leaf n ;;
      if (leaf : bool) then Ret 1
      else c <- get_child n 0 ;; h <- node_height f c ;; Ret (S h)
  end.

(** [Tree::height] (tree.rs:74-85). *)
Definition tree_height (fuel : nat) : prog nat :=
  r <- get_root false ;;
  match r with
  | None => Ret 0
  | Some root => node_height fuel root
  end.

(** [String::from_utf8] succeeds: the table of std's [run_utf8_validation]
    (core/src/str/validations.rs), which is not in /repo; used at traverse.rs:465. *)
Definition byte_in (lo hi : N) (b : byte) : bool := (lo <=? Byte.to_N b)%N && (Byte.to_N b <=? hi)%N.
Fixpoint utf8 (l : bytes) : bool :=
  match l with
  | [] => true
  | a :: l1 =>
      if byte_in 0 127 a then utf8 l1
      else match l1 with
      | [] => false
      | b :: l2 =>
          if byte_in 194 223 a && byte_in 128 191 b then utf8 l2
          else match l2 with
          | [] => false
          | c :: l3 =>
              if (byte_in 224 224 a && byte_in 160 191 b) || (byte_in 225 236 a && byte_in 128 191 b) ||
                 (byte_in 237 237 a && byte_in 128 159 b) || (byte_in 238 239 a && byte_in 128 191 b)
              then byte_in 128 191 c && utf8 l3
              else match l3 with
              | [] => false
              | d :: l4 =>
                  if (byte_in 240 240 a && byte_in 144 191 b) || (byte_in 241 243 a && byte_in 128 191 b) ||
                     (byte_in 244 244 a && byte_in 128 143 b)
                  then byte_in 128 191 c && byte_in 128 191 d && utf8 l4
                  else false
              end
          end
      end
  end.

(** A consumer of the stream that runs [body] on each item before it polls for the next
    ([while let Some(..) = stream.next().await], traverse.rs:459): [trav_loop] and [trav],
    with [body] where they yield. *)
Fixpoint each_loop {A} (body : item * nid -> A -> prog A) (rec : nid -> A -> prog (A * bool))
    (conf : config) (n : nid) (idxs : list nat) (acc : A) : prog (A * bool) :=
  match idxs with
  | [] => Ret (acc, false)
  | i :: idxs' =>
      if Nat.even i then
        c <- catch (get_child n (Nat.div2 i)) ;;
        match c with
        | inr e =>
            acc' <- body (IErr (EGetChildInTraverse e), n) acc ;;
            each_loop body rec conf n idxs' acc'
        | inl child =>
            '(acc', b) <- rec child acc ;;
            if (b : bool) then Ret (acc', true) else each_loop body rec conf n idxs' acc'
        end
      else
        kv <- catch (get_key_value n (Nat.div2 i)) ;;
        match kv with
        | inr e => acc' <- body (IErr e, n) acc ;; each_loop body rec conf n idxs' acc'
        | inl kv =>
            if in_bounds conf (kv_key kv) then
              acc' <- body (IOk kv, n) acc ;; each_loop body rec conf n idxs' acc'
            else Ret (acc, false)
        end
  end.

Fixpoint each {A} (body : item * nid -> A -> prog A) (fuel : nat) (conf : config) (n : nid) (acc : A)
    : prog (A * bool) :=
  match fuel with
  | 0 => Stop SDiverge
  | S f =>
      nk <- num_keys n ;;
      nc <- num_children n ;;
      it <- catch (make_iter conf n nk nc) ;;
      match it with
      | inr e => acc' <- body (IErr (EBuildIterator e), n) acc ;; Ret (acc', true)
      | inl idxs => each_loop body (each body f conf) conf n idxs acc
      end
  end.

(** The body of the loop of [print] (traverse.rs:460-466).  [starting_height - h] panics
    when it underflows. *)
Definition print_line (fuel h0 : nat) (x : item * nid) (out : bytes) : prog bytes :=
  h <- node_height fuel (snd x) ;;
  if (h0 <? h)%nat then panic else
  match fst x with
  | IErr e => throw e
  | IOk kv =>
      if utf8 (kv_key kv) then Ret (out ++ repeat x09 (h0 - h) ++ kv_key kv ++ [x0a])
      else throw EKeyFromUtf8
  end.

(** [Tree::print] (tree.rs:137-146) and [print] (traverse.rs:450-469). *)
Definition tree_print (fuel : nat) : prog bytes :=
  r <- get_root false ;;
  match r with
  | None => throw ENoRoot
  | Some root =>
      h0 <- node_height fuel root ;;
      '(out, b) <- each (print_line fuel h0) fuel default_config root [] ;;
      if (b : bool) then panic else Ret out
  end.

(** * prefixed.rs *)

(** [with_key_prefix!] (prefixed.rs:52-56). *)
Definition prefix_key (prefix sep key : bytes) : bytes := prefix ++ sep ++ key.

(** DEFAULT_PREFIXED_SEPERATOR (prefixed.rs:16). *)
Definition DEFAULT_SEP : bytes := [x00].

(** prefixed.rs:66-128 *)
Definition sub_get fuel prefix sep key := tree_get fuel (prefix_key prefix sep key).
Definition sub_put fuel prefix sep key value := tree_put fuel (prefix_key prefix sep key) value.
Definition sub_put_cas fuel prefix sep key value cas :=
  tree_put_cas fuel (prefix_key prefix sep key) value cas.
Definition sub_del fuel prefix sep key := tree_del fuel (prefix_key prefix sep key).
Definition sub_del_cas fuel prefix sep key cas := tree_del_cas fuel (prefix_key prefix sep key) cas.

(** [increment_bytes] (prefixed.rs:179-195). *)
Definition increment_bytes (pref : bytes) : bytes :=
  match last pref with
  | None => [x00]
  | Some b =>
      if (Byte.to_N b =? 255)%N then pref ++ [x00]
      else take (length pref - 1) pref ++ [byte_of (Byte.to_N b + 1)]
  end.

(** The configuration built in [Prefixed::traverse] (prefixed.rs:134-163). *)
Definition sub_config (prefix sep : bytes) (conf : config) : config :=
  let '(mn, mni) :=
    match t_min conf with
    | Finite k => (Finite (prefix_key prefix sep k), t_min_incl conf)
    | _ => (Finite prefix, true)
    end in
  let '(mx, mxi) :=
    match t_max conf with
    | Finite k => (Finite (prefix_key prefix sep k), t_max_incl conf)
    | _ => (Finite (increment_bytes prefix), false)
    end in
  Config mn mni mx mxi (t_rev conf).

(** The closure that strips the prefix: [x.key.drain(..len_drain)] panics when
    the key is shorter (prefixed.rs:166-175).  The flag is the same as above:
    the consumer panics when it polls on. *)
Fixpoint strip_items (len_drain : nat) (its : list item) (b : bool) : list item * bool :=
  match its with
  | [] => ([], b)
  | IErr e :: its' => let '(r, b') := strip_items len_drain its' b in (IErr e :: r, b')
  | IOk kv :: its' =>
      if (len_drain <=? length (kv_key kv))%nat then
        let '(r, b') := strip_items len_drain its' b in
        (IOk (KV (kv_seq kv) (drop len_drain (kv_key kv)) (kv_value kv)) :: r, b')
      else ([], true)
  end.

(** [Prefixed::traverse] (prefixed.rs:130-176). *)
Definition sub_traverse (fuel : nat) (prefix sep : bytes) (conf : config) : prog (list item * bool) :=
  '(its, b) <- tree_traverse fuel (sub_config prefix sep conf) ;;
  Ret (strip_items (length prefix + length sep) its b).
