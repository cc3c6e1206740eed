(** Properties that the code does not have, each with a witness. *)
From Coq.Strings Require Import Byte.
From stdpp Require Import prelude gmap.
From Verif Require Import Bytes Codec Model Wp Spec Client Subs Threads Locks Demo Raw Ffi.

Definition put_n (n : nat) : event := EvCall 0 (CPut (kb n) (Some (kb n))) [].

(** Two keys; eight keys in one leaf that is full; twelve keys in three nodes. *)
Definition two_keys : list event := [put_n 1; put_n 2].
Definition full_leaf : list event := map put_n (seq 0 8).
Definition three_nodes : list event := map put_n (seq 0 12).
(** Nine keys in two leaves that are as small as can be, each in a block of its own. *)
Definition two_blocks : list event := map put_n (seq 0 9) ++ [put_n 8].

Ltac witness := cbv zeta; split_and?; first [case_hyp | by vm_compute | vm_compute; congruence].

(** ** C14 *)
Lemma hand_built_wrong : exists fuel l i conf es,
  history fuel 1 l /\ usable l i /\ t_rev conf = false /\
  fst (do_call fuel i (CTraverse conf) [] (world_after fuel l)) = inl (RItems (map IOk es) false) /\
  exists e, e ∈ es /\ below_max conf (kv_key e) = false.
Proof.
  exists 60, two_keys, 0, (Config (Finite (kb 2)) true (Finite (kb 2)) false false), [KV 2 (kb 2) (Some (kb 2))].
  split_and!; [case_hyp..|]. exists (KV 2 (kb 2) (Some (kb 2))). split; [by left|by vm_compute].
Qed.

(** ** C15 *)
Lemma builder_rejects : exists k conf,
  above_min conf k = true /\ below_max conf k = true /\
  build (Builder (Some (t_min conf)) (Some (t_min_incl conf)) (Some (t_max conf)) (Some (t_max_incl conf)) (Some (t_rev conf))) = None.
Proof. exists (kb 2), (Config (Finite (kb 1)) true PosInf true false). witness. Qed.
Lemma builder_accepts : exists b conf, build b = Some conf /\ forall k, above_min conf k && below_max conf k = false.
Proof. exists (Builder (Some PosInf) None None None None), (Config PosInf true PosInf true false). by split. Qed.

(** ** C17 *)
Lemma subs_meet : exists (s : byte) (p p' k k' : bytes), p <> p' /\ p ++ [s] ++ k = p' ++ [s] ++ k'.
Proof. exists x00, [x01], [x01; x00; x02], [x02; x00; x03], [x03]. by split. Qed.

(** ** C18 *)

(** A prefix that ends in 255; the empty prefix. *)
Definition sub_keys (pre : bytes) : list event :=
  [EvCall 0 (CPut (pre ++ DEFAULT_SEP ++ kb 1) None) []; EvCall 0 (CPut (pre ++ DEFAULT_SEP ++ kb 2) None) []].
Lemma sub_misses pre : pre = [xff] \/ pre = [] -> exists fuel l i rs b es,
  history fuel 1 l /\ usable l i /\ play fuel l (new_world []) = (rs, world_after fuel l) /\ explains l empty_store rs b /\
  fst (do_sub fuel i pre DEFAULT_SEP (STraverse default_config) [] (world_after fuel l)) = inl (RItems (map IOk es) false) /\
  exists e, e ∈ range default_config (sub_entries pre DEFAULT_SEP (s_entries b)) /\ ~ e ∈ es.
Proof.
  intros H. exists 60, (sub_keys pre), 0, [inl (RPut None 1); inl (RPut None 2)],
    (Store 3 [KV 1 (pre ++ DEFAULT_SEP ++ kb 1) None; KV 2 (pre ++ DEFAULT_SEP ++ kb 2) None]), [].
  destruct H as [-> | ->]; (split_and!; [case_hyp..| | |]).
  1,4: eapply ex_call; [by vm_compute|]; eapply ex_call; [by vm_compute|]; constructor.
  1,3: case_hyp.
  all: exists (KV 1 (kb 1) None); split; [|by intros ?%elem_of_nil].
  all: vm_compute; left.
Qed.

(** A key of the parent that starts with the prefix but belongs to no sub of that
    name: it is reported with its first bytes cut off; if it is too short, the
    stream panics. *)
Lemma sub_leaks : exists fuel l i pre rs b e,
  history fuel 1 l /\ usable l i /\ play fuel l (new_world []) = (rs, world_after fuel l) /\ explains l empty_store rs b /\
  sub_entries pre DEFAULT_SEP (s_entries b) = [] /\
  fst (do_sub fuel i pre DEFAULT_SEP (STraverse default_config) [] (world_after fuel l)) = inl (RItems [IOk e] false).
Proof.
  exists 60, [EvCall 0 (CPut [x01; x02; x03] None) []], 0, [x01], [inl (RPut None 1)], (Store 2 [KV 1 [x01; x02; x03] None]), (KV 1 [x03] None).
  split_and!; [case_hyp..| |case_hyp|case_hyp].
  eapply ex_call; [by vm_compute|]; constructor.
Qed.
Lemma sub_panics : exists fuel l i pre,
  history fuel 1 l /\ usable l i /\
  fst (do_sub fuel i pre DEFAULT_SEP (STraverse default_config) [] (world_after fuel l)) = inl (RItems [] true).
Proof.
  exists 60, [EvCall 0 (CPut [x01] None) []], 0, [x01]. witness.
Qed.

(** ** C23 *)

(** A put whose append fails: the key is in the cached leaf although no block holds it. *)
Lemma put_breaks_handle : exists fuel l i j k v o e e' w1,
  history fuel 2 l /\ usable l i /\ usable l j /\ call_ok (CPut k v) /\
  do_call fuel i (CPut k v) o (world_after fuel l) = (inl (RErr e), w1) /\ w_core w1 = w_core (world_after fuel l) /\
  fst (do_call fuel i (CGet k) [] (world_after fuel l)) = inl (RGet None) /\
  fst (do_call fuel i (CGet k) [] w1) = inl (RErr e') /\
  fst (do_call fuel i (CPut k v) [] w1) = inl (RErr e') /\
  fst (do_call fuel j (CGet k) [] w1) = inl (RGet None).
Proof.
  set (w1 := snd (do_call 60 0 (CPut (kb 3) None) [FNone; FErr] (world_after 60 two_keys))).
  exists 60, two_keys, 0, 1, (kb 3), None, [FNone; FErr], EHypercore, (ENoBlockAtSeq 3), w1.
  split_and!; try case_hyp.
Qed.

(** A del whose read of a sibling fails: the key is gone from the cached leaf, and
    the next put through the handle writes that leaf. *)
Lemma del_breaks_handle : exists fuel l i j k k2 v2 o e x q w1 w2,
  history fuel 3 l /\ usable l i /\ usable l j /\ call_ok (CDel k) /\ call_ok (CPut k2 v2) /\ k2 <> k /\
  do_call fuel i (CDel k) o (world_after fuel l) = (inl (RErr e), w1) /\ w_core w1 = w_core (world_after fuel l) /\
  fst (do_call fuel i (CGet k) [] (world_after fuel l)) = inl (RGet (Some x)) /\
  fst (do_call fuel i (CGet k) [] w1) = inl (RGet None) /\
  fst (do_call fuel j (CGet k) [] w1) = inl (RGet (Some x)) /\
  do_call fuel i (CPut k2 v2) [] w1 = (inl (RPut None q), w2) /\
  fst (do_call fuel j (CGet k) [] w2) = inl (RGet None).
Proof.
  set (o := [FNone; FNone; FNone; FNone; FReadErr]).
  set (w1 := snd (do_call 60 5 (CDel (kb 8)) o (world_after 60 two_blocks))).
  set (w2 := snd (do_call 60 5 (CPut [x07; x01] None) [] w1)).
  exists 60, two_blocks, 5, 1, (kb 8), [x07; x01], None, o, EHypercore, (10, Some (kb 8)), 11, w1, w2.
  split_and!; try case_hyp.
Qed.

(** ** C45 *)

(** A put given up when it is about to append. *)
Lemma dropped_put_breaks_handle : exists fuel l i j k v n e,
  let w1 := world_after fuel (l ++ [EvDrop i (CPut k v) [] n]) in
  history fuel 2 l /\ usable l i /\ usable l j /\ call_ok (CPut k v) /\ w_core w1 = w_core (world_after fuel l) /\
  fst (do_call fuel i (CGet k) [] w1) = inl (RErr e) /\
  fst (do_call fuel i (CPut k v) [] w1) = inl (RErr e) /\
  fst (do_call fuel j (CGet k) [] w1) = inl (RGet None).
Proof. exists 60, two_keys, 0, 1, (kb 3), None, 18, (ENoBlockAtSeq 3). cbv zeta. split_and!; case_hyp. Qed.
(** A del given up when it is about to read a sibling. *)
Lemma dropped_del_breaks_handle : exists fuel l i j k k2 v2 n x q w2,
  let w1 := world_after fuel (l ++ [EvDrop i (CDel k) [] n]) in
  history fuel 3 l /\ usable l i /\ usable l j /\ call_ok (CDel k) /\ call_ok (CPut k2 v2) /\ k2 <> k /\
  w_core w1 = w_core (world_after fuel l) /\
  fst (do_call fuel i (CGet k) [] w1) = inl (RGet None) /\
  fst (do_call fuel j (CGet k) [] w1) = inl (RGet (Some x)) /\
  do_call fuel i (CPut k2 v2) [] w1 = (inl (RPut None q), w2) /\
  fst (do_call fuel j (CGet k) [] w2) = inl (RGet None).
Proof.
  set (w1 := world_after 60 (two_blocks ++ [EvDrop 5 (CDel (kb 8)) [] 43])).
  set (w2 := snd (do_call 60 5 (CPut [x07; x01] None) [] w1)).
  exists 60, two_blocks, 5, 1, (kb 8), [x07; x01], None, 43, (10, Some (kb 8)), 11, w2. cbv zeta. fold w1.
  split_and!; try case_hyp.
Qed.

(** ** C27, C28, C29

    Two tasks on one handle.  Task 0 runs for some steps, then task 1 to its end,
    then task 0 to its end; with the locks of the code. *)
Definition interrupt (n : nat) : list lmove := repeat (LPoll 0) n ++ repeat (LPoll 1) 700 ++ repeat (LPoll 0) 900.

(** Task 0 waits for the length of the core ([self.version().await], put.rs:83). *)
Lemma puts_collide_first : exists fuel l ms k0 k1 v q0 q1,
  let y := lsys_run ms (l_both fuel l (CPut k0 v) (CPut k1 v)) in
  history fuel 2 l /\ usable l 0 /\ k0 <> k1 /\
  l_answer y 0 = Some (RPut None q0) /\ l_answer y 1 = Some (RPut None q1) /\
  forall i, (i < 3)%nat -> fst (do_call fuel i (CGet k1) [] (ls_world y)) = inl (RGet None).
Proof.
  exists 60, [], (interrupt 3), (kb 1), (kb 2), None, 2, 1. cbv zeta. split_and!; try case_hyp.
  intros [|[|[|i]]] Hi; [by vm_compute..|]. exfalso. by apply Nat.ltb_lt in Hi.
Qed.

(** Task 0 waits for the root block from the core (blocks.rs:83). *)
Lemma puts_collide : exists fuel l ms k0 k1 v q0 q1,
  let y := lsys_run ms (l_both fuel l (CPut k0 v) (CPut k1 v)) in
  history fuel 2 l /\ usable l 0 /\ k0 <> k1 /\ (2 <= length (w_core (world_after fuel l)))%nat /\
  l_answer y 0 = Some (RPut None q0) /\ l_answer y 1 = Some (RPut None q1) /\
  forall i, (i < 3)%nat -> fst (do_call fuel i (CGet k1) [] (ls_world y)) = inl (RGet None).
Proof.
  exists 60, (two_keys ++ [EvReopen 0]), (interrupt 5), (kb 7), (kb 8), None, 4, 3. cbv zeta. split_and!; try case_hyp.
  intros [|[|[|i]]] Hi; [by vm_compute..|]. exfalso. by apply Nat.ltb_lt in Hi.
Qed.

(** Task 0 waits for its append (blocks.rs:134); the leaf has been split, so that its
    node, still the root for everybody else, is empty. *)
Lemma get_during_put : exists fuel l ms k k0 v q x,
  let y := lsys_run ms (l_both fuel l (CPut k0 v) (CGet k)) in
  history fuel 2 l /\ usable l 0 /\ k0 <> k /\
  fst (do_call fuel 0 (CGet k) [] (world_after fuel l)) = inl (RGet (Some x)) /\
  l_answer y 0 = Some (RPut None q) /\ l_answer y 1 = Some (RGet None) /\
  fst (do_call fuel 0 (CGet k) [] (ls_world y)) = inl (RGet (Some x)).
Proof. exists 60, full_leaf, (interrupt 100), (kb 3), (kb 9), None, 9, (4, Some (kb 3)). witness. Qed.

(** The same, and the get asks for the key that is being put. *)
Lemma get_put_fails : exists fuel l ms k v q e,
  let y := lsys_run ms (l_both fuel l (CPut k v) (CGet k)) in
  history fuel 2 l /\ usable l 0 /\
  fst (do_call fuel 0 (CGet k) [] (world_after fuel l)) = inl (RGet None) /\
  l_answer y 0 = Some (RPut None q) /\ l_answer y 1 = Some (RErr e).
Proof. exists 60, two_keys, (interrupt 60), (kb 9), None, 3, (ENoBlockAtSeq 3). witness. Qed.

(** Task 0 has found its key and given back the lock of the leaf; task 1, which waits for
    it, inserts its key before that one; then task 0 reads at the place where its key was
    (tree.rs:95-100). *)
Definition three_keys : list event := [EvCall 0 (CPut (kb 2) (Some (kb 2))) []; EvCall 0 (CPut (kb 4) (Some (kb 4))) []; EvCall 0 (CPut (kb 6) (Some (kb 6))) []; EvReopen 0].
Lemma get_other_key : exists fuel l ms k k1 k0 v q x x1,
  let y := lsys_run ms (l_both fuel l (CGet k) (CPut k0 v)) in
  history fuel 2 l /\ usable l 0 /\ k <> k1 /\ x <> x1 /\
  fst (do_call fuel 0 (CGet k) [] (world_after fuel l)) = inl (RGet (Some x)) /\
  fst (do_call fuel 0 (CGet k1) [] (world_after fuel l)) = inl (RGet (Some x1)) /\
  l_answer y 1 = Some (RPut None q) /\ l_answer y 0 = Some (RGet (Some x1)) /\
  fst (do_call fuel 0 (CGet k) [] (ls_world y)) = inl (RGet (Some x)).
Proof. exists 60, three_keys, (interrupt 33), (kb 4), (kb 2), (kb 1), None, 4, (2, Some (kb 4)), (1, Some (kb 2)). witness. Qed.

(** Task 0 has found its key and asks for the length of the core (del.rs:438); task 1 runs to its end. *)
Lemma del_other_key : exists fuel l ms k k1 k0 v q x x1,
  let y := lsys_run ms (l_both fuel l (CDel k) (CPut k0 v)) in
  history fuel 2 l /\ usable l 0 /\ k <> k1 /\
  fst (do_call fuel 0 (CGet k) [] (world_after fuel l)) = inl (RGet (Some x)) /\
  fst (do_call fuel 0 (CGet k1) [] (world_after fuel l)) = inl (RGet (Some x1)) /\
  l_answer y 1 = Some (RPut None q) /\ l_answer y 0 = Some (RDel (Some (fst x))) /\
  forall i, (i < 3)%nat -> fst (do_call fuel i (CGet k) [] (ls_world y)) = inl (RGet (Some x)) /\
    fst (do_call fuel i (CGet k1) [] (ls_world y)) = inl (RGet None).
Proof.
  exists 60, three_keys, (interrupt 45), (kb 4), (kb 2), (kb 1), None, 4, (2, Some (kb 4)), (1, Some (kb 2)). cbv zeta. split_and!; try case_hyp.
  intros [|[|[|i]]] Hi; [split; by vm_compute..|]. exfalso. by apply Nat.ltb_lt in Hi.
Qed.

(** The stream has been created and not yet been polled. *)
Lemma stream_loses : exists fuel l ms k v q es,
  let y := lsys_run ms (l_both fuel l (CTraverse default_config) (CPut k v)) in
  history fuel 2 l /\ usable l 0 /\
  fst (do_call fuel 0 (CTraverse default_config) [] (world_after fuel l)) = inl (RItems es false) /\ es <> [] /\
  l_answer y 1 = Some (RPut None q) /\ l_answer y 0 = Some (RItems [] false).
Proof.
  exists 60, full_leaf, (interrupt 11), (kb 9), None, 9, (map (fun n => IOk (KV (S n) (kb n) (Some (kb n)))) (seq 0 8)). witness.
Qed.
Lemma stream_sees : exists fuel l ms k v q es es',
  let y := lsys_run ms (l_both fuel l (CTraverse default_config) (CPut k v)) in
  history fuel 2 l /\ usable l 0 /\
  fst (do_call fuel 0 (CTraverse default_config) [] (world_after fuel l)) = inl (RItems (map IOk es) false) /\
  l_answer y 1 = Some (RPut None q) /\ l_answer y 0 = Some (RItems (map IOk (es ++ es')) false) /\ es' <> [].
Proof.
  exists 60, two_keys, (interrupt 11), (kb 9), None, 3, [KV 1 (kb 1) (Some (kb 1)); KV 2 (kb 2) (Some (kb 2))], [KV 3 (kb 9) None]. witness.
Qed.

(** The stream has yielded its first item. *)
Lemma stream_panics : exists fuel l ms k v q,
  let y := lsys_run ms (l_both fuel l (CTraverse default_config) (CPut k v)) in
  history fuel 2 l /\ usable l 0 /\ l_answer y 1 = Some (RPut None q) /\ l_stopped y 0 = Some SPanic.
Proof. exists 60, full_leaf, (interrupt 38), (kb 9), None, 9. witness. Qed.

(** ** C46

    A get waits for the root block from the core (blocks.rs:81), for which a del on the
    same handle waits too.  The del continues first and takes the root and a leaf from the
    entry it has put in the cache (blocks.rs:68); while it waits for a key from another
    block, the get puts its own copy of the root block in the cache.  [repair] (del.rs:366)
    looks the leaf up again and finds the copy, without the change made to the leaf.  All
    switches are where a task waits for the core. *)
Definition overtake (n : nat) : list lmove := repeat (LPoll 0) 5 ++ repeat (LPoll 1) n ++ repeat (LPoll 0) 300 ++ repeat (LPoll 1) 900.
Definition nine_keys : list event := map put_n (seq 0 9) ++ [EvReopen 0].

Lemma get_undoes_del : exists fuel l ms k0 k x0 x,
  let y := lsys_run ms (l_both fuel l (CGet k0) (CDel k)) in
  history fuel 2 l /\ usable l 0 /\ k0 <> k /\
  fst (do_call fuel 0 (CGet k0) [] (world_after fuel l)) = inl (RGet (Some x0)) /\
  fst (do_call fuel 0 (CGet k) [] (world_after fuel l)) = inl (RGet (Some x)) /\
  l_answer y 0 = Some (RGet (Some x0)) /\ l_answer y 1 = Some (RDel (Some (fst x))) /\
  forall i, (i < 3)%nat -> fst (do_call fuel i (CGet k) [] (ls_world y)) = inl (RGet (Some x)).
Proof.
  exists 60, nine_keys, (overtake 53), (kb 0), (kb 8), (1, Some (kb 0)), (9, Some (kb 8)). cbv zeta. split_and!; try case_hyp.
  intros [|[|[|i]]] Hi; [by vm_compute..|]. exfalso. by apply Nat.ltb_lt in Hi.
Qed.

(** The deleted key is in an inner node and is replaced by the last key of a leaf, which
    is then not removed from that leaf. *)
Lemma get_doubles_key : exists fuel l ms k0 k x0 q e es1 es2,
  let y := lsys_run ms (l_both fuel l (CGet k0) (CDel k)) in
  history fuel 2 l /\ usable l 0 /\ k0 <> k /\
  fst (do_call fuel 0 (CGet k0) [] (world_after fuel l)) = inl (RGet (Some x0)) /\
  l_answer y 0 = Some (RGet (Some x0)) /\ l_answer y 1 = Some (RDel (Some q)) /\
  forall i, (i < 3)%nat -> fst (do_call fuel i (CTraverse default_config) [] (ls_world y)) = inl (RItems (map IOk (es1 ++ [e; e] ++ es2)) false).
Proof.
  exists 60, nine_keys, (overtake 70), (kb 0), (kb 4), (1, Some (kb 0)), 5, (KV 4 (kb 3) (Some (kb 3))),
    (map (fun n => KV (S n) (kb n) (Some (kb n))) (seq 0 3)), (map (fun n => KV (S n) (kb n) (Some (kb n))) (seq 5 4)).
  cbv zeta. split_and!; try case_hyp.
  intros [|[|[|i]]] Hi; [by vm_compute..|]. exfalso. by apply Nat.ltb_lt in Hi.
Qed.

(** ** C35 *)

(** A header and one block, which refers to itself as block 1.  The panics: an odd
    number of child entries; a child that does not exist; no node at all; a node with
    one key and one child. *)
Definition one_block (ls : list level) : list bytes := [header_block None; encode_block ls (kb 1) None].

Lemma malformed_panics C : C ∈ map one_block [[Level [1%N] [7%N]]; [Level [] [1; 5]%N]; []; [Level [1%N] [1; 1]%N; Level [] []]] ->
  exists k, fst (do_call 60 0 (CGet k) [] (new_world C)) = inr SPanic.
Proof.
  intros H. exists (kb 9). repeat (apply elem_of_cons in H as [->|H]; [by vm_compute|]). by apply elem_of_nil in H.
Qed.

(** A node that is its own child. *)
Lemma malformed_loops : exists C k, forall fuel, fst (do_call fuel 0 (CGet k) [] (new_world C)) = inr SDiverge.
Proof.
  exists (one_block [Level [] [1; 0]%N]), (kb 9). intros fuel.
  set (C := one_block _).
  set (s := St C {[1 := Entry [0] (kb 1) None]} [Node [] [(1, 0)]] []).
  assert (H : forall n acc, run (nearest_loop n 0 (Finite (kb 9)) acc) s = (inr SDiverge, s)).
  { induction n as [|n IH]; intros acc; [done|]. cbn [nearest_loop]. rewrite run_bind.
    replace (run (get_index_of_key 0 (Finite (kb 9))) s) with (inl (None, 0) : (option nat * nat) + stop, s) by by vm_compute.
    cbv iota beta. rewrite run_bind.
    replace (run (is_leaf 0) s) with (inl false : bool + stop, s) by by vm_compute.
    cbv iota beta. rewrite run_bind.
    replace (run (get_child 0 0) s) with (inl 0 : nid + stop, s) by by vm_compute.
    cbv iota beta. apply IH. }
  unfold do_call, api, call_prog, tree_get.
  rewrite run_bind, run_catch, !run_bind.
  change (view (new_world C) 0 []) with (St C ∅ [] []).
  replace (run (get_root false) (St C ∅ [] [])) with (inl (Some 0) : (option nid) + stop, s) by by vm_compute.
  cbv iota beta. rewrite run_bind. unfold nearest_node. by rewrite H.
Qed.
(** A key in a block that does not exist: the stream reports the error and then panics. *)
Lemma malformed_stream : exists C its, sane C /\ fst (do_call 60 0 (CTraverse default_config) [] (new_world C)) = inl (RItems its true).
Proof.
  exists [header_block None; encode_block [Level [7%N] []] (kb 1) None], [IErr (EBuildIterator (ENoBlockAtSeq 7))].
  split; [by apply saneb_ok; vm_compute|by vm_compute].
Qed.
Lemma malformed_panic : exists C k, fst (do_call 60 0 (CGet k) [] (new_world C)) = inr SPanic.
Proof. eexists. apply malformed_panics. left. Qed.

(** ** C36: the callback is not called *)
Lemma callback_absent : exists l i k, history 60 1 l /\ usable l i /\
  fst (do_call 60 i (CGet k) [] (world_after 60 l)) = inl (RGet None) /\ snd (fst (hb_get 60 i k [] (world_after 60 l))) = [].
Proof. exists demo, 0, (kb 250). a_case. Qed.
Lemma callback_no_value : exists l i k q, history 60 1 l /\ usable l i /\
  fst (do_call 60 i (CGet k) [] (world_after 60 l)) = inl (RGet (Some (q, None))) /\ snd (fst (hb_get 60 i k [] (world_after 60 l))) = [].
Proof. exists [EvCall 0 (CPut (kb 1) None) []], 0, (kb 1), 1. a_case. Qed.
Lemma callback_error : exists l i k o e, history 60 1 l /\ usable l i /\
  fst (do_call 60 i (CGet k) o (world_after 60 l)) = inl (RErr e) /\ snd (fst (hb_get 60 i k o (world_after 60 l))) = [].
Proof. exists demo, 7, (kb 8), [FNone; FErr], EHypercore. a_case. Qed.

(** ** C48

    Two tasks on two handles, which share nothing but the core. *)

(** Task 0 waits for the root block from the core (blocks.rs:83). *)
Lemma writers_collide : exists fuel l ms k0 k1 v q0 q1,
  let y := lsys_run ms (l_apart fuel l (CPut k0 v) (CPut k1 v)) in
  history fuel 2 l /\ usable l 0 /\ usable l 1 /\ k0 <> k1 /\ (2 <= length (w_core (world_after fuel l)))%nat /\
  l_answer y 0 = Some (RPut None q0) /\ l_answer y 1 = Some (RPut None q1) /\ q0 <> q1 /\
  forall i, (i < 3)%nat -> fst (do_call fuel i (CGet k1) [] (ls_world y)) = inl (RGet None).
Proof.
  exists 60, (two_keys ++ [EvReopen 0]), (interrupt 5), (kb 7), (kb 8), None, 4, 3. cbv zeta. split_and!; try case_hyp.
  intros [|[|[|i]]] Hi; [by vm_compute..|]. exfalso. by apply Nat.ltb_lt in Hi.
Qed.

(** Task 0 has the number of its block and waits for the block of a key (blocks.rs:83).
    Both tasks get the same number; the entry that task 0 was to replace is gone, too. *)
Lemma writers_lose_old : exists fuel l ms k0 k1 v q q' x,
  let y := lsys_run ms (l_apart fuel l (CPut k0 v) (CPut k1 v)) in
  history fuel 2 l /\ usable l 0 /\ usable l 1 /\ k0 <> k1 /\
  fst (do_call fuel 0 (CGet k0) [] (world_after fuel l)) = inl (RGet (Some x)) /\
  l_answer y 0 = Some (RPut (Some q') q) /\ l_answer y 1 = Some (RPut None q) /\
  fst (do_call fuel 2 (CGet k0) [] (ls_world y)) = inl (RGet None).
Proof. exists 60, (full_leaf ++ [EvReopen 0]), (interrupt 20), (kb 7), (kb 8), None, 9, 8, (8, Some (kb 7)). witness. Qed.

(** Both tasks find the core empty (tree.rs:123) and write a header each; the second
    header is then taken for a root, and nothing can be read or written. *)
Lemma two_headers : exists fuel ms k0 k1 v,
  let y := lsys_run ms (l_apart fuel [] (CPut k0 v) (CPut k1 v)) in
  history fuel 2 [] /\ k0 <> k1 /\ w_core (ls_world y) = [header_block None; header_block None] /\
  fst (do_call fuel 2 (CGet k0) [] (ls_world y)) = inl (RErr EDecode) /\
  fst (do_call fuel 2 (CPut k0 v) [] (ls_world y)) = inl (RErr EDecode).
Proof. exists 60, [LPoll 0; LPoll 0; LPoll 1; LPoll 1; LPoll 1; LPoll 0], (kb 7), (kb 8), None. witness. Qed.
