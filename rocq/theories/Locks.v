(** The locks of nodes and of the cache: tokio's [RwLock], which is first come, first
    served.  Definitions only.

    The functions of [Model.v] that take locks are written down once more, with the
    guards as they live in the code (a guard in an expression lives until the end of its
    statement).  [LockProofs.v] shows that without the guards they are the functions of
    [Model.v].

    Left out are the locks that are only ever taken for reading, so that nobody waits for
    them: those of the tree (hb.rs), of the blocks ([Shared<Blocks>]), of the entries of
    the cache ([Shared<BlockEntry>]) and of ffi.rs.  The lock within the core is held
    during one command. *)
From Coq.Strings Require Import Byte.
From stdpp Require Import prelude gmap.
From Verif Require Import Bytes Codec Model Spec Client.

(** [RwLock<Node>] (lib.rs:45-46), [children: RwLock<Vec<Child>>] (lib.rs:101) and the cache
    of a handle (blocks.rs:26). *)
Inductive lock := LNode (n : nid) | LKids (n : nid) | LCache.
Inductive mode := MRead | MWrite.

(** The commands of [prog], and [LAcq]: [.read().await] or [.write().await], and [LRel]:
    the guard is dropped. *)
Inductive lprog (A : Type) : Type :=
| LRet (a : A)
| LStop (x : stop)
| LCoreLen (k : nat -> lprog A)
| LCoreGet (seq : nat) (k : ioget -> lprog A)
| LCoreAppend (b : bytes) (k : bool -> lprog A)
| LCacheGet (seq : nat) (k : option entry -> lprog A)
| LCachePut (seq : nat) (e : entry) (k : lprog A)
| LNodeNew (nd : node) (k : nid -> lprog A)
| LNodeGet (n : nid) (k : node -> lprog A)
| LNodeUpd (n : nid) (f : node -> option node) (k : node -> lprog A)
| LAcq (l : lock) (m : mode) (k : lprog A)
| LRel (l : lock) (m : mode) (k : lprog A).
Arguments LRet {A}. Arguments LStop {A}. Arguments LCoreLen {A}.
Arguments LCoreGet {A}. Arguments LCoreAppend {A}. Arguments LCacheGet {A}.
Arguments LCachePut {A}. Arguments LNodeNew {A}. Arguments LNodeGet {A}.
Arguments LNodeUpd {A}. Arguments LAcq {A}. Arguments LRel {A}.

Fixpoint lbind {A B} (p : lprog A) (f : A -> lprog B) : lprog B :=
  match p with
  | LRet a => f a
  | LStop x => LStop x
  | LCoreLen k => LCoreLen (fun v => lbind (k v) f)
  | LCoreGet s k => LCoreGet s (fun v => lbind (k v) f)
  | LCoreAppend b k => LCoreAppend b (fun v => lbind (k v) f)
  | LCacheGet s k => LCacheGet s (fun v => lbind (k v) f)
  | LCachePut s e k => LCachePut s e (lbind k f)
  | LNodeNew nd k => LNodeNew nd (fun v => lbind (k v) f)
  | LNodeGet n k => LNodeGet n (fun v => lbind (k v) f)
  | LNodeUpd n g k => LNodeUpd n g (fun v => lbind (k v) f)
  | LAcq l m k => LAcq l m (lbind k f)
  | LRel l m k => LRel l m (lbind k f)
  end.

(** However [p] ends, as a value. *)
Fixpoint attempt {A} (p : lprog A) : lprog (A + stop) :=
  match p with
  | LRet a => LRet (inl a)
  | LStop x => LRet (inr x)
  | LCoreLen k => LCoreLen (fun v => attempt (k v))
  | LCoreGet s k => LCoreGet s (fun v => attempt (k v))
  | LCoreAppend b k => LCoreAppend b (fun v => attempt (k v))
  | LCacheGet s k => LCacheGet s (fun v => attempt (k v))
  | LCachePut s e k => LCachePut s e (attempt k)
  | LNodeNew nd k => LNodeNew nd (fun v => attempt (k v))
  | LNodeGet n k => LNodeGet n (fun v => attempt (k v))
  | LNodeUpd n g k => LNodeUpd n g (fun v => attempt (k v))
  | LAcq l m k => LAcq l m (attempt k)
  | LRel l m k => LRel l m (attempt k)
  end.

Declare Scope lock_scope.
Delimit Scope lock_scope with lock.
Notation "x <- p ;; q" := (lbind p (fun x => q))
  (at level 100, p at next level, q at level 200, right associativity) : lock_scope.
Notation "' x <- p ;; q" := (lbind p (fun x => q))
  (at level 100, x pattern, p at next level, q at level 200, right associativity) : lock_scope.
Notation "p ;; q" := (lbind p (fun _ => q))
  (at level 100, q at level 200, right associativity) : lock_scope.
Open Scope lock_scope.

Definition lcatch {A} (p : lprog A) : lprog (A + err) :=
  r <- attempt p ;;
  match r with
  | inl a => LRet (inl a)
  | inr (SErr e) => LRet (inr e)
  | inr x => LStop x
  end.

(** The guard of lock [l] lives as long as [body] runs; it is dropped when [body] returns an
    [Err] or panics, too. *)
Definition locked {A} (l : lock) (m : mode) (body : lprog A) : lprog A :=
  LAcq l m (r <- attempt body ;; LRel l m (match r with inl a => LRet a | inr x => LStop x end)).

(** Code that takes no lock. *)
Fixpoint lift {A} (p : prog A) : lprog A :=
  match p with
  | Ret a => LRet a
  | Stop x => LStop x
  | CoreLen k => LCoreLen (fun v => lift (k v))
  | CoreGet s k => LCoreGet s (fun v => lift (k v))
  | CoreAppend b k => LCoreAppend b (fun v => lift (k v))
  | CacheGet s k => LCacheGet s (fun v => lift (k v))
  | CachePut s e k => LCachePut s e (lift k)
  | NodeNew nd k => LNodeNew nd (fun v => lift (k v))
  | NodeGet n k => LNodeGet n (fun v => lift (k v))
  | NodeUpd n g k => LNodeUpd n g (fun v => lift (k v))
  end.

(** [n.read().await], [n.write().await]; [n.read().await.children.children.read().await];
    [wchildren!(n)] (lib.rs:170-174). *)
Definition node_read {A} (n : nid) (p : lprog A) : lprog A := locked (LNode n) MRead p.
Definition node_write {A} (n : nid) (p : lprog A) : lprog A := locked (LNode n) MWrite p.
Definition kids_read {A} (n : nid) (p : lprog A) : lprog A := node_read n (locked (LKids n) MRead p).
Definition wchildren {A} (n : nid) (p : lprog A) : lprog A := node_read n (locked (LKids n) MWrite p).

(** * blocks.rs *)

(** [Blocks::get] (blocks.rs:48-88): the cache is locked for the look-up and for the
    insertion, and not in between. *)
Definition l_blocks_get (seq : nat) : lprog entry :=
  c <- locked LCache MRead (LCacheGet seq LRet) ;;
  match c with
  | Some e => LRet e
  | None =>
      r <- LCoreGet seq LRet ;;
      match r with
      | GErr => LStop (SErr EHypercore)
      | GOk None => LStop (SErr (ENoBlockAtSeq seq))
      | GOk (Some raw) =>
          match decode_block raw with
          | DErr => LStop (SErr EDecode)
          | DPanic => LStop SPanic
          | DOk b =>
              ns <- lift (alloc_all (b_nodes b)) ;;
              let e := Entry ns (b_key b) (b_value b) in
              locked LCache MWrite (LCachePut seq e (LRet e))
          end
      end
  end.

(** * lib.rs *)

(** [n.read().await.get_key_value(index).await] (lib.rs:233-257; tree.rs:100, lib.rs:329,
    put.rs:110, del.rs:431, traverse.rs:298). *)
Definition l_get_key_value (n : nid) (index : nat) : lprog kvdata :=
  node_read n (
    nd <- lift (node_get n) ;;
    seq <- lift (unwrap (n_keys nd !! index)) ;;
    e1 <- l_blocks_get seq ;;
    e2 <- l_blocks_get seq ;;
    LRet (KV seq (e_key e1) (e_value e2))).

(** [n.read().await.get_child(index).await] (lib.rs:134-148, 259-262). *)
Definition l_get_child (n : nid) (index : nat) : lprog nid :=
  node_read n (
    r <- locked (LKids n) MRead (nd <- lift (node_get n) ;; lift (unwrap (n_children nd !! index))) ;;
    e <- l_blocks_get (fst r) ;;
    lift (get_tree_node e (snd r))).

(** [n.read().await.keys.len()]; [n.read().await.n_children().await] (lib.rs:150-152, 193-199). *)
Definition l_num_keys (n : nid) : lprog nat := node_read n (lift (num_keys n)).
Definition l_num_children (n : nid) : lprog nat := kids_read n (lift (num_children n)).
Definition l_is_leaf (n : nid) : lprog bool := c <- l_num_children n ;; LRet (c =? 0)%nat.

(** [get_index_of_key] (lib.rs:293-356). *)
Fixpoint l_search_loop (fuel : nat) (n : nid) (key : limit) (low high : nat)
    : lprog (option nat * nat) :=
  match fuel with
  | 0 => LStop SDiverge
  | S f =>
      if (low <=? high)%nat then
        let mid := (low + Nat.div2 (high - low))%nat in
        kv <- l_get_key_value n mid ;;
        if limit_eq key (kv_key kv) then LRet (Some (kv_seq kv), mid)
        else if limit_lt key (kv_key kv) then
          if (mid =? 0)%nat then LRet (None, low)
          else l_search_loop f n key low (mid - 1)
        else l_search_loop f n key (mid + 1) high
      else LRet (None, low)
  end.
Definition l_get_index_of_key (n : nid) (key : limit) : lprog (option nat * nat) :=
  nk <- l_num_keys n ;;
  if (nk =? 0)%nat then LRet (None, 0)
  else l_search_loop (S nk) n key 0 (nk - 1).

(** [nearest_node] (lib.rs:358-396). *)
Fixpoint l_nearest_loop (fuel : nat) (n : nid) (key : limit) (acc : path)
    : lprog (option nat * path) :=
  match fuel with
  | 0 => LStop SDiverge
  | S f =>
      '(matched, index) <- l_get_index_of_key n key ;;
      let acc' := (n, index) :: acc in
      match matched with
      | Some _ => LRet (matched, acc')
      | None =>
          leaf <- l_is_leaf n ;;
          if (leaf : bool) then LRet (matched, acc')
          else c <- l_get_child n index ;; l_nearest_loop f c key acc'
      end
  end.
Definition l_nearest_node (fuel : nat) (n : nid) (key : limit) : lprog (option nat * path) :=
  l_nearest_loop fuel n key [].

(** [n.write().await.insert(key, children, a..b).await] (lib.rs:264-270, 112-132; put.rs:134-138,
    153-157): the children are locked when there are any to insert. *)
Definition l_insert (n : nid) (key : nat) (children : list ref) (a b : nat) : lprog unit :=
  node_write n (
    match children with
    | [] => lift (node_mod n (node_insert key children a b))
    | _ => locked (LKids n) MWrite (lift (node_mod n (node_insert key children a b)))
    end).

(** * blocks.rs: committing changes *)

(** blocks.rs:134-150 *)
Definition l_take_children_with_seq (n : nid) (seq : nat) : lprog (list (nid * nat)) :=
  kids_read n (lift (take_children_with_seq n seq)).

(** [reorder_nodes] (blocks.rs:152-177). *)
Fixpoint l_reorder_loop (fuel seq : nat) (nodes : list nid) (stack : list (nid * nat)) (out : list nid)
    : lprog (list nid) :=
  match stack with
  | [] => LRet out
  | (n, ci) :: stack' =>
      match fuel with
      | 0 => LStop SDiverge
      | S f =>
          c <- kids_read n (nd <- lift (node_get n) ;; lift (unwrap (n_children nd !! ci))) ;;
          wchildren n (lift (node_mod n (on_children (fun cs =>
            c' ← cs !! ci; only (vec_set ci (fst c', length out) cs))))) ;;
          child <- lift (unwrap (nodes !! snd c)) ;;
          more <- l_take_children_with_seq child seq ;;
          l_reorder_loop f seq nodes (more ++ stack') (out ++ [child])
      end
  end.
Definition l_reorder_nodes (seq : nat) (nodes : list nid) : lprog (list nid) :=
  root <- lift (unwrap (last nodes)) ;;
  stack <- l_take_children_with_seq root seq ;;
  l_reorder_loop (length nodes) seq nodes stack [root].

(** [node.read().await.to_level().await] for each node (blocks.rs:111-114, lib.rs:220-231). *)
Fixpoint l_read_levels (ns : list nid) : lprog (list level) :=
  match ns with
  | [] => LRet []
  | n :: ns' => nd <- kids_read n (lift (node_get n)) ;; ls <- l_read_levels ns' ;; LRet (to_level nd :: ls)
  end.

(** [Blocks::add_changes] (blocks.rs:98-131). *)
Definition l_add_changes (ch : changes) : lprog unit :=
  out <- l_reorder_nodes (ch_seq ch) (ch_nodes ch) ;;
  ls <- l_read_levels out ;;
  lift (blocks_append (encode_block ls (ch_key ch) (ch_value ch))).

(** * tree.rs *)

(** [Tree::get_root] (tree.rs:51-72). *)
Definition l_get_root (ensure : bool) : lprog (option nid) :=
  v <- lift version ;;
  if (v <=? 1)%nat then
    if (v =? 0)%nat && ensure then lift ensure_header ;; LRet None else LRet None
  else
    e <- l_blocks_get (v - 1) ;;
    n <- lift (get_tree_node e 0) ;;
    LRet (Some n).

(** [Tree::get] (tree.rs:87-104). *)
Definition l_tree_get (fuel : nat) (key : bytes) : lprog (option (nat * option bytes)) :=
  r <- l_get_root false ;;
  match r with
  | None => LRet None
  | Some root =>
      '(matched, p) <- l_nearest_node fuel root (Finite key) ;;
      match matched with
      | None => LRet None
      | Some _ =>
          '(n, i) <- lift (unwrap (head p)) ;;
          kv <- l_get_key_value n i ;;
          LRet (Some (kv_seq kv, kv_value kv))
      end
  end.

(** * put.rs *)

(** [wchildren!(n)[i] = r] (put.rs:27, del.rs:202-203). *)
Definition l_set_child (n : nid) (i : nat) (r : ref) : lprog unit := wchildren n (lift (set_child n i r)).

(** [propagate_changes_up_tree] (put.rs:11-30). *)
Fixpoint l_propagate (ch : changes) (p : path) (child : ref) : lprog changes :=
  match p with
  | [] => LRet ch
  | (n, i) :: p' =>
      l_set_child n i child ;;
      let '(r, ch') := add_node n ch in
      l_propagate ch' p' r
  end.

(** [n.write().await.split().await] (put.rs:32-67, 160): the children are locked three times. *)
Definition l_split (n : nid) : lprog (node * nat * node) :=
  node_write n (
    locked (LKids n) MRead (LRet tt) ;;
    r <- locked (LKids n) MWrite (lift (node_mod n split_node)) ;;
    locked (LKids n) MWrite (LRet r)).

(** The loop of [put_compare_and_swap] (put.rs:119-168). *)
Fixpoint l_put_loop (matched : bool) (cur_key : nat) (children : list ref) (p : path) (ch : changes)
    : lprog put_result :=
  match p with
  | [] => LRet (PutNewRoot cur_key children ch)
  | (n, i) :: p' =>
      nk <- l_num_keys n ;;
      if matched || (nk <? MAX_KEYS)%nat then
        l_insert n cur_key children i (if matched then (i + 1)%nat else i) ;;
        let '(child, ch') := add_node n ch in
        ch'' <- l_propagate ch' p' child ;;
        LRet (PutReady ch'')
      else
        l_insert n cur_key children i i ;;
        '(lnd, mid, rnd) <- l_split n ;;
        l <- lift (node_new lnd) ;;
        r <- lift (node_new rnd) ;;
        let '(lr, ch1) := add_node l ch in
        let '(rr, ch2) := add_node r ch1 in
        l_put_loop matched mid [lr; rr] p' ch2
  end.

(** [Tree::put_compare_and_swap] (put.rs:73-188). *)
Definition l_tree_put_cas (fuel : nat) (key : bytes) (value : option bytes)
    (cas : option kvdata -> kvdata -> bool) : lprog (option nat * option nat) :=
  maybe_root <- l_get_root true ;;
  seq <- lift version ;;
  let ch := Changes seq key value [] in
  let new_data := KV seq key value in
  match maybe_root with
  | None =>
      if cas None new_data then
        n <- lift (node_new (Node [seq] [])) ;;
        let '(_, ch') := add_node n ch in
        l_add_changes ch' ;; LRet (None, Some seq)
      else LRet (None, None)
  | Some root =>
      '(matched, p) <- l_nearest_node fuel root (Finite key) ;;
      old <- (match matched with
              | Some _ => '(n, i) <- lift (unwrap (head p)) ;; kv <- l_get_key_value n i ;; LRet (Some kv)
              | None => LRet None
              end) ;;
      if cas old new_data then
        r <- l_put_loop (bool_decide (is_Some matched)) seq [] p ch ;;
        match r with
        | PutReady ch' => l_add_changes ch' ;; LRet (matched, Some seq)
        | PutNewRoot k cs ch' =>
            n <- lift (node_new (Node [k] cs)) ;;
            let '(_, ch'') := add_node n ch' in
            l_add_changes ch'' ;; LRet (matched, Some seq)
        end
      else LRet (matched, None)
  end.

(** [Tree::put] (put.rs:198-210). *)
Definition l_tree_put (fuel : nat) (key : bytes) (value : option bytes) : lprog (option nat * nat) :=
  '(old, new) <- l_tree_put_cas fuel key value (fun _ _ => true) ;;
  n <- lift (unwrap new) ;;
  LRet (old, n).

(** * del.rs *)

(** [replace_removed_internal_key_with_a_key_from_leaf] (del.rs:34-70). *)
Definition l_replace_removed (fuel : nat) (p : path) (n : nid) (key_index : nat) : lprog path :=
  left_child <- l_get_child n key_index ;;
  '(_, left_path) <- l_nearest_node fuel left_child PosInf ;;
  '(ln, _) <- lift (unwrap (head left_path)) ;;
  num_left <- l_num_keys ln ;;
  right_child <- l_get_child n (key_index + 1) ;;
  '(_, right_path) <- l_nearest_node fuel right_child NegInf ;;
  '(rn, _) <- lift (unwrap (head right_path)) ;;
  num_right <- l_num_keys rn ;;
  '(child_index, key, bottom) <-
    (if (num_left <? num_right)%nat then
       donor <- node_write rn (lift (node_mod rn (on_keys (vec_remove 0)))) ;;
       LRet ((key_index + 1)%nat, donor, right_path)
     else
       donor <- node_write ln (lift (node_mod ln (on_keys vec_pop))) ;;
       LRet (key_index, donor, left_path)) ;;
  node_write n (lift (node_mod n (on_keys (fun ks => only (vec_insert key_index key ks))))) ;;
  LRet (bottom ++ (n, child_index) :: p).

(** [get_donor_index] (del.rs:75-86). *)
Definition l_get_donor_index (sd : side) (father : nid) (di : nat) : lprog (option nat) :=
  match sd with
  | SLeft => LRet (if (di =? 0)%nat then None else Some (di - 1)%nat)
  | SRight =>
      nc <- l_num_children father ;;
      LRet (if (nc <=? di + 1)%nat then None else Some (di + 1)%nat)
  end.

(** [get_donor_key] (del.rs:96-106). *)
Definition l_get_donor_key (sd : side) (donor : nid) : lprog nat := node_write donor (lift (get_donor_key sd donor)).

(** [get_donor_child] (del.rs:108-116). *)
Definition l_get_donor_child (sd : side) (donor : nid) : lprog (option ref) :=
  leaf <- l_is_leaf donor ;;
  if (leaf : bool) then LRet None
  else
    c <- wchildren donor (lift (match sd with
          | SRight => node_mod donor (on_children (vec_remove 0))
          | SLeft => node_mod donor (on_children vec_pop)
          end)) ;;
    LRet (Some c).

(** [swap_donor_key_in_father] (del.rs:118-133). *)
Definition l_swap_donor_key (sd : side) (father : nid) (di key : nat) : lprog nat :=
  node_write father (lift (swap_donor_key sd father di key)).

(** [insert_donations_into_deficient_child] (del.rs:135-155). *)
Definition l_insert_donations (sd : side) (dc : nid) (key : nat) (child : option ref) : lprog unit :=
  match sd with
  | SRight =>
      node_write dc (lift (node_mod dc (on_keys (fun ks => Some (tt, ks ++ [key]))))) ;;
      match child with
      | Some c => wchildren dc (lift (node_mod dc (on_children (fun cs => Some (tt, cs ++ [c])))))
      | None => LRet tt
      end
  | SLeft =>
      node_write dc (lift (node_mod dc (on_keys (fun ks => Some (tt, key :: ks))))) ;;
      match child with
      | Some c => wchildren dc (lift (node_mod dc (on_children (fun cs => Some (tt, c :: cs)))))
      | None => LRet tt
      end
  end.

(** [can_rotate] (del.rs:157-173). *)
Definition l_can_rotate (sd : side) (father : nid) (di order : nat) : lprog (option (nat * nid)) :=
  d <- l_get_donor_index sd father di ;;
  match d with
  | None => LRet None
  | Some donor_index =>
      donor <- l_get_child father donor_index ;;
      nk <- l_num_keys donor ;;
      LRet (if (min_keys order <? nk)%nat then Some (donor_index, donor) else None)
  end.

(** [rotate] (del.rs:175-205). *)
Definition l_rotate (sd : side) (father : nid) (di : nat) (dc : nid) (donor_index : nat) (donor : nid)
    (ch : changes) : lprog changes :=
  dk <- l_get_donor_key sd donor ;;
  dch <- l_get_donor_child sd donor ;;
  fk <- l_swap_donor_key sd father di dk ;;
  l_insert_donations sd dc fk dch ;;
  let '(r1, ch1) := add_node donor ch in
  l_set_child father donor_index r1 ;;
  let '(r2, ch2) := add_node dc ch1 in
  l_set_child father di r2 ;;
  LRet ch2.

(** [maybe_rotate] (del.rs:207-232). *)
Definition l_maybe_rotate (sd : side) (father : nid) (di : nat) (dc : nid) (order : nat) (ch : changes)
    : lprog (option changes) :=
  d <- l_can_rotate sd father di order ;;
  match d with
  | None => LRet None
  | Some (donor_index, donor) =>
      ch' <- l_rotate sd father di dc donor_index donor ch ;;
      LRet (Some ch')
  end.

(** [maybe_merge] (del.rs:234-285).  The children of both nodes are locked while they are
    moved: both guards live in one statement (del.rs:275-278). *)
Definition l_maybe_merge (sd : side) (father : nid) (di : nat) (dc : nid) (ch : changes)
    : lprog (option changes) :=
  d <- l_get_donor_index sd father di ;;
  match d with
  | None => LRet None
  | Some donor_index =>
      donor <- l_get_child father donor_index ;;
      let '(l, r) := match sd with SRight => (dc, donor) | SLeft => (donor, dc) end in
      fk <- node_write father (lift (node_mod father (on_keys (vec_remove (get_key_index sd di))))) ;;
      let rci := match sd with SRight => (di + 1)%nat | SLeft => di end in
      wchildren father (lift (node_mod father (on_children (fun cs => only (vec_splice rci (rci + 1) [] cs))))) ;;
      nl <- l_num_keys l ;;
      rk <- node_write r (lift (node_mod r (on_keys (fun ks => Some (ks, []))))) ;;
      node_write l (lift (node_mod l (on_keys (fun ks => only (vec_splice nl nl (fk :: rk) ks))))) ;;
      nlc <- l_num_children l ;;
      wchildren l (wchildren r (
        rc <- lift (node_mod r (on_children (fun cs => Some (cs, [])))) ;;
        lift (node_mod l (on_children (fun cs => only (vec_splice nlc nlc rc cs)))))) ;;
      let '(lr, ch') := add_node l ch in
      wchildren father (lift (node_mod father (on_children (fun cs => only (vec_splice (rci - 1) rci [lr] cs))))) ;;
      LRet (Some ch')
  end.

(** [repair_one] (del.rs:288-356). *)
Definition l_repair_one (father : nid) (di : nat) (dc : nid) (order : nat) (ch : changes) : lprog changes :=
  r1 <- l_maybe_rotate SLeft father di dc order ch ;;
  match r1 with Some ch' => LRet ch' | None =>
  r2 <- l_maybe_rotate SRight father di dc order ch ;;
  match r2 with Some ch' => LRet ch' | None =>
  r3 <- l_maybe_merge SLeft father di dc ch ;;
  match r3 with Some ch' => LRet ch' | None =>
  r4 <- l_maybe_merge SRight father di dc ch ;;
  match r4 with Some ch' => LRet ch' | None => LStop SPanic
  end end end end.

(** The loop of [repair] (del.rs:368-402).  The numbers of keys and children are asked for
    in every round, as in [Model.repair_loop]; the code sometimes does without one. *)
Fixpoint l_repair_loop (p : path) (father : nid) (di : nat) (dc : nid) (order : nat) (ch : changes)
    : lprog (ref * path * changes) :=
  ch' <- l_repair_one father di dc order ch ;;
  nk <- l_num_keys father ;;
  nc <- l_num_children father ;;
  match p with
  | [] =>
      if (nk =? 0)%nat && (nc =? 1)%nat then
        r <- kids_read father (nd <- lift (node_get father) ;; lift (unwrap (n_children nd !! 0))) ;;
        LRet (r, [], ch')
      else
        let '(r, ch'') := add_node father ch' in LRet (r, [], ch'')
  | (n, i) :: p' =>
      if (min_keys order <=? nk)%nat then
        let '(r, ch'') := add_node father ch' in LRet (r, p, ch'')
      else l_repair_loop p' n i father order ch'
  end.

(** [repair] (del.rs:357-405). *)
Definition l_repair (p : path) (order : nat) (ch : changes) : lprog (ref * path * changes) :=
  match p with
  | [] => LStop SPanic
  | (father, di) :: p' =>
      dc <- l_get_child father di ;;
      l_repair_loop p' father di dc order ch
  end.

(** [Tree::del_compare_and_swap] (del.rs:412-477). *)
Definition l_tree_del_cas (fuel : nat) (key : bytes) (cas : kvdata -> bool) : lprog (option (bool * nat)) :=
  r <- l_get_root false ;;
  match r with
  | None => LRet None
  | Some root =>
      '(matched, p) <- l_nearest_node fuel root (Finite key) ;;
      match matched with
      | None => LRet None
      | Some seq =>
          '(n, i) <- lift (unwrap (head p)) ;;
          kv <- l_get_key_value n i ;;
          if cas kv then
            v <- lift version ;;
            let ch := Changes v key None [] in
            '(cur, ci) <- lift (unwrap (head p)) ;;
            let p1 := tail p in
            node_write cur (lift (node_mod cur (on_keys (vec_remove ci)))) ;;
            leaf <- l_is_leaf cur ;;
            p2 <- (if (leaf : bool) then LRet ((cur, ci) :: p1)
                   else l_replace_removed fuel p1 cur ci) ;;
            '(bottom, _) <- lift (unwrap (head p2)) ;;
            let p3 := tail p2 in
            nk <- l_num_keys bottom ;;
            '(child, p4, ch') <-
              (if negb (bool_decide (p3 = [])) && (nk <? min_keys MAX_KEYS)%nat
               then l_repair p3 MAX_KEYS ch
               else let '(r, ch1) := add_node bottom ch in LRet (r, p3, ch1)) ;;
            ch'' <- l_propagate ch' p4 child ;;
            l_add_changes ch'' ;;
            LRet (Some (true, seq))
          else LRet (Some (false, seq))
      end
  end.

(** [Tree::del] (del.rs:479-487). *)
Definition l_tree_del (fuel : nat) (key : bytes) : lprog (option nat) :=
  r <- l_tree_del_cas fuel key (fun _ => true) ;;
  match r with
  | None => LRet None
  | Some (true, seq) => LRet (Some seq)
  | Some (false, _) => LStop SPanic
  end.

(** * traverse.rs *)

(** [get_n_keys_and_children] (traverse.rs:289-295): one expression, so that the first guard
    of the node lives while the second one is asked for. *)
Definition l_n_keys_and_children (n : nid) : lprog (nat * nat) :=
  node_read n (
    nk <- lift (num_keys n) ;;
    nc <- kids_read n (lift (num_children n)) ;;
    LRet (nk, nc)).

(** [make_child_key_index_iter] (traverse.rs:140-216). *)
Definition l_make_iter (conf : config) (n : nid) (n_keys n_children : nat) : lprog (list nat) :=
  let key := if t_rev conf then t_max conf else t_min conf in
  '(matched, index) <- l_get_index_of_key n key ;;
  LRet (iter_indices conf n_keys n_children (bool_decide (is_Some matched)) index).

(** [poll_next] for one node, run to the end (traverse.rs:311-448).  A stream that is not
    polled keeps the guards it has: its futures are parts of it (traverse.rs:244-268). *)
Fixpoint l_trav_loop (rec : nid -> lprog stream_result) (conf : config) (n : nid) (idxs : list nat)
    : lprog stream_result :=
  match idxs with
  | [] => LRet ([], false)
  | i :: idxs' =>
      if Nat.even i then
        c <- lcatch (l_get_child n (Nat.div2 i)) ;;
        match c with
        | inr e =>
            '(its, b) <- l_trav_loop rec conf n idxs' ;;
            LRet ((IErr (EGetChildInTraverse e), n) :: its, b)
        | inl child =>
            '(its1, b1) <- rec child ;;
            if (b1 : bool) then LRet (its1, true)
            else '(its2, b2) <- l_trav_loop rec conf n idxs' ;; LRet (its1 ++ its2, b2)
        end
      else
        kv <- lcatch (l_get_key_value n (Nat.div2 i)) ;;
        match kv with
        | inr e =>
            '(its, b) <- l_trav_loop rec conf n idxs' ;; LRet ((IErr e, n) :: its, b)
        | inl kv =>
            if in_bounds conf (kv_key kv) then
              '(its, b) <- l_trav_loop rec conf n idxs' ;; LRet ((IOk kv, n) :: its, b)
            else LRet ([], false)
        end
  end.
Fixpoint l_trav (fuel : nat) (conf : config) (n : nid) : lprog stream_result :=
  match fuel with
  | 0 => LStop SDiverge
  | S f =>
      '(nk, nc) <- l_n_keys_and_children n ;;
      it <- lcatch (l_make_iter conf n nk nc) ;;
      match it with
      | inr e => LRet ([(IErr (EBuildIterator e), n)], true)
      | inl idxs => l_trav_loop (l_trav f conf) conf n idxs
      end
  end.

(** [Tree::traverse] (tree.rs:148-159), collected by the consumer. *)
Definition l_tree_traverse (fuel : nat) (conf : config) : lprog (list item * bool) :=
  r <- l_get_root false ;;
  match r with
  | None => LStop (SErr ENoRoot)
  | Some root =>
      '(its, b) <- l_trav fuel conf root ;;
      LRet (map fst its, b)
  end.

(** * hb.rs *)

(** As [Client.call_prog] and [Client.api] (hb.rs:47-138). *)
Definition l_call_prog (fuel : nat) (c : call) : lprog reply :=
  match c with
  | CGet k => r <- l_tree_get fuel k ;; LRet (RGet r)
  | CPut k v => '(old, new) <- l_tree_put fuel k v ;; LRet (RPut old new)
  | CPutCas k v f => '(old, new) <- l_tree_put_cas fuel k v f ;; LRet (RPutCas old new)
  | CDel k => r <- l_tree_del fuel k ;; LRet (RDel r)
  | CDelCas k f => r <- l_tree_del_cas fuel k f ;; LRet (RDelCas r)
  | CVersion => v <- lift version ;; LRet (RVersion v)
  | CHeader md => lift (create_header md) ;; LRet RDone
  | CTraverse conf => '(its, b) <- l_tree_traverse fuel conf ;; LRet (RItems its b)
  end.
Definition l_api (fuel : nat) (c : call) : lprog reply :=
  r <- lcatch (l_call_prog fuel c) ;;
  match r with inl x => LRet x | inr e => LRet (RErr e) end.

(** * Tasks and their locks *)

(** Somebody holds, or waits for, a lock of a handle. *)
Record req := Req { rq_task : nat; rq_handle : nat; rq_lock : lock; rq_mode : mode }.

Definition same_lock (a b : req) : bool :=
  (rq_handle a =? rq_handle b)%nat &&
  match rq_lock a, rq_lock b with
  | LNode n, LNode n' | LKids n, LKids n' => (n =? n')%nat
  | LCache, LCache => true
  | _, _ => false
  end.
Definition together (a b : req) : bool :=
  match rq_mode a, rq_mode b with MRead, MRead => true | _, _ => false end.

(** First come, first served: a request is granted when all that came before it, and are
    still there, are for other locks or can be held together with it.  (tokio's semaphore:
    one that waits has taken what there was, so that nobody gets past it.) *)
Definition granted (older : list req) (r : req) : bool :=
  forallb (fun o => negb (same_lock o r) || together o r) older.

(** The requests, the newest first; the newest one of task [j]. *)
Fixpoint newest (j : nat) (q : list req) : option (req * list req) :=
  match q with
  | [] => None
  | r :: q' => if (rq_task r =? j)%nat then Some (r, q') else newest j q'
  end.
Definition may_go (j : nat) (q : list req) : bool :=
  match newest j q with Some (r, older) => granted older r | None => false end.

(** A guard is dropped. *)
Definition same_req (a b : req) : bool :=
  (rq_task a =? rq_task b)%nat && same_lock a b &&
  match rq_mode a, rq_mode b with MRead, MRead | MWrite, MWrite => true | _, _ => false end.
Fixpoint release (r : req) (q : list req) : list req :=
  match q with
  | [] => []
  | x :: q' => if same_req x r then q' else x :: release r q'
  end.

(** All guards of task [j] are dropped, and what it waits for is forgotten. *)
Definition without (j : nat) (q : list req) : list req := List.filter (fun r => negb (rq_task r =? j)%nat) q.

(** A task runs, or has asked for a lock, or has been given up. *)
Inductive phase := Runs | Waits | Gone.
Record ltask := LTask { lt_handle : nat; lt_prog : lprog reply; lt_faults : list fault; lt_phase : phase }.
Definition ltask_of (fuel : nat) (x : nat * call * list fault) : ltask :=
  let '(i, c, o) := x in LTask i (l_api fuel c) o Runs.

(** One command, other than of locks. *)
Definition lstep {A} (p : lprog A) (s : st) : lprog A * st :=
  match p with
  | LRet _ | LStop _ | LAcq _ _ _ | LRel _ _ _ => (p, s)
  | LCoreLen k => (k (length (core s)), s)
  | LCoreGet q k => let '(r, s') := exec_get q s in (k r, s')
  | LCoreAppend b k => let '(r, s') := exec_append b s in (k r, s')
  | LCacheGet q k => (k (cache s !! q), s)
  | LCachePut q e k => (k, set_cache s (<[q := e]> (cache s)))
  | LNodeNew nd k => (k (length (heap s)), set_heap s (heap s ++ [nd]))
  | LNodeGet n k =>
      match heap s !! n with
      | Some nd => (k nd, s)
      | None => (LStop SPanic, s)
      end
  | LNodeUpd n f k =>
      match heap s !! n with
      | Some nd =>
          match f nd with
          | Some nd' => (k nd, set_heap s (<[n := nd']> (heap s)))
          | None => (LStop SPanic, s)
          end
      | None => (LStop SPanic, s)
      end
  end.

Record lsys := LSys { ls_tasks : list ltask; ls_reqs : list req; ls_world : world }.

(** The task [j] is polled; or its future is dropped, and its guards with it. *)
Inductive lmove := LPoll (j : nat) | LQuit (j : nat).

(** A panic drops all guards of the task. *)
Definition task_step (j : nat) (t : ltask) (q : list req) (w : world) : ltask * list req * world :=
  let i := lt_handle t in
  match lt_phase t with
  | Gone => (t, q, w)
  | Waits =>
      match lt_prog t with
      | LAcq l m k => if may_go j q then (LTask i k (lt_faults t) Runs, q, w) else (t, q, w)
      | _ => (t, q, w)
      end
  | Runs =>
      match lt_prog t with
      | LRet _ | LStop _ => (t, q, w)
      | LAcq l m k => (LTask i (lt_prog t) (lt_faults t) Waits, Req j i l m :: q, w)
      | LRel l m k => (LTask i k (lt_faults t) Runs, release (Req j i l m) q, w)
      | _ =>
          let '(p, s) := lstep (lt_prog t) (view w i (lt_faults t)) in
          (LTask i p (oracle s) Runs, match p with LStop _ => without j q | _ => q end, commit_view w i s)
      end
  end.

Definition lsys_step (m : lmove) (y : lsys) : lsys :=
  match m with
  | LPoll j =>
      match ls_tasks y !! j with
      | Some t => let '(t', q, w) := task_step j t (ls_reqs y) (ls_world y) in LSys (<[j := t']> (ls_tasks y)) q w
      | None => y
      end
  | LQuit j =>
      match ls_tasks y !! j with
      | Some t => LSys (<[j := LTask (lt_handle t) (lt_prog t) (lt_faults t) Gone]> (ls_tasks y))
                       (without j (ls_reqs y)) (ls_world y)
      | None => y
      end
  end.
Fixpoint lsys_run (ms : list lmove) (y : lsys) : lsys :=
  match ms with [] => y | m :: ms' => lsys_run ms' (lsys_step m y) end.

(** Calls that start in [w], nobody holding a lock. *)
Definition lsys_start (fuel : nat) (xs : list (nat * call * list fault)) (w : world) : lsys :=
  LSys (map (ltask_of fuel) xs) [] w.

(** What task [j] has answered; whether it has ended (or was given up). *)
Definition l_answer (y : lsys) (j : nat) : option reply :=
  match ls_tasks y !! j with
  | Some t => match lt_phase t, lt_prog t with Gone, _ => None | _, LRet r => Some r | _, _ => None end
  | None => None
  end.
Definition l_over (t : ltask) : bool :=
  match lt_phase t, lt_prog t with Gone, _ | _, LRet _ | _, LStop _ => true | _, _ => false end.

Definition l_stopped (y : lsys) (j : nat) : option stop :=
  match ls_tasks y !! j with
  | Some t => match lt_phase t, lt_prog t with Gone, _ => None | _, LStop x => Some x | _, _ => None end
  | None => None
  end.

(** Two calls through handle 0; a call through handle 0 and one through handle 1. *)
Definition l_both (fuel : nat) (l : list event) (c0 c1 : call) : lsys :=
  lsys_start fuel [(0, c0, []); (0, c1, [])] (world_after fuel l).
Definition l_apart (fuel : nat) (l : list event) (c0 c1 : call) : lsys :=
  lsys_start fuel [(0, c0, []); (1, c1, [])] (world_after fuel l).

(** Task [j] can do nothing but wait. *)
Definition blocked (y : lsys) (j : nat) : Prop :=
  exists t, ls_tasks y !! j = Some t /\ lt_phase t = Waits /\ may_go j (ls_reqs y) = false.
(** Nobody can do anything, and not all are done. *)
Definition stuck (y : lsys) : Prop :=
  (exists j t, ls_tasks y !! j = Some t /\ l_over t = false) /\
  forall j t, ls_tasks y !! j = Some t -> l_over t = false -> blocked y j.

(** Task [j] waits for a lock that it holds itself. *)
Definition waits_for_itself (y : lsys) (j : nat) : Prop :=
  blocked y j /\ exists r older o, newest j (ls_reqs y) = Some (r, older) /\
    In o older /\ rq_task o = j /\ same_lock o r = true.

Definition deletes (c : call) : Prop := match c with CDel _ | CDelCas _ _ => True | _ => False end.
Definition streams (c : call) : Prop := match c with CTraverse _ => True | _ => False end.
