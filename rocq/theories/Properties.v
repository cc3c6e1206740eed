(** The properties of /verif/properties.jsonl.  Nothing else is in this file: the
    statements use [Spec] (what the library should do), [Wire] (the format of the
    blocks), [Client] (calls on handles)
    and the model of the library itself ([Bytes], [Codec], [Model]); every proof is a
    lemma of another file.  After each theorem, an example meets its hypotheses. *)
From Coq.Strings Require Import Byte.
From Coq Require Import Lia Sorting.Sorted.
From stdpp Require Import prelude gmap.
From Coq.Strings Require Import (notations) String.
From stdpp Require Import (notations) strings.
From stdpp Require pretty.
From Verif Require Import Bytes Codec Model Wire Spec Client Subs Threads Count CodecProofs WireProofs Store OrderProofs Main CountProofs Shape Own Hand Sub Conc Demo Raw PrintProofs Scan Poll PollProofs Ffi FfiProofs Refute Opaque Truth Thin Flow Cffi CffiProofs CffiNeeds Found Foreign Fuel Dry Locks LockProofs Alone Apart LockCases Replica ReplicaProofs.

(** ** C01: the store is a sorted map *)
Theorem C01_sorted_map : forall l fuel,
  Forall event_ok l -> Forall clean l -> (length l < fuel)%nat -> (N.of_nat (length l) + 1 < 2 ^ 50)%N ->
  let '(rs, b) := spec_run (calls_of l) empty_store in
  exists w, play fuel l (new_world []) = (map inl rs, w) /\ length (w_core w) = s_blocks b.
Proof. exact refines_map. Qed.
Print Assumptions C01_sorted_map.
Example C01_sorted_map_case : Forall event_ok demo_clean /\ Forall clean demo_clean /\ (length demo_clean < 60)%nat /\
  (N.of_nat (length demo_clean) + 1 < 2 ^ 50)%N /\ length (calls_of demo_clean) = 33 /\
  length (s_entries (snd (spec_run (calls_of demo_clean) empty_store))) = 20.
Proof. a_case. Qed.

(** ** C02: read your write, and nothing else changes *)
Theorem C02_read_your_write : forall fuel l i j j' k k' v,
  history fuel 3 l -> usable l i -> usable l j -> usable l j' -> call_ok (CPut k v) ->
  exists old q x w1,
    do_call fuel i (CPut k v) [] (world_after fuel l) = (inl (RPut old q), w1) /\
    fst (do_call fuel j (CGet k) [] w1) = inl (RGet (Some (q, v))) /\
    (k' <> k -> fst (do_call fuel j' (CGet k') [] (world_after fuel l)) = inl (RGet x) /\
                fst (do_call fuel j' (CGet k') [] w1) = inl (RGet x)).
Proof. exact read_your_write. Qed.
Print Assumptions C02_read_your_write.
Example C02_read_your_write_case : history 60 3 demo /\ usable demo 0 /\ usable demo 1 /\ usable demo 3 /\ call_ok (CPut (kb 8) None) /\ kb 9 <> kb 8 /\
  fst (do_call 60 0 (CPut (kb 8) None) [] demo_world) = inl (RPut (Some 9) 32) /\
  fst (do_call 60 3 (CGet (kb 9)) [] demo_world) = inl (RGet (Some (16, Some (kb 15)))).
Proof. a_case. Qed.

(** ** C03: delete removes exactly one key *)
Theorem C03_delete : forall fuel l i j j' k k',
  history fuel 3 l -> usable l i -> usable l j -> usable l j' -> call_ok (CDel k) ->
  exists x x' w1,
    fst (do_call fuel i (CGet k) [] (world_after fuel l)) = inl (RGet x) /\
    do_call fuel i (CDel k) [] (world_after fuel l) = (inl (RDel (fst <$> x)), w1) /\
    fst (do_call fuel j (CGet k) [] w1) = inl (RGet None) /\
    (k' <> k -> fst (do_call fuel j' (CGet k') [] (world_after fuel l)) = inl (RGet x') /\
                fst (do_call fuel j' (CGet k') [] w1) = inl (RGet x')) /\
    (x = None -> w_core w1 = w_core (world_after fuel l)).
Proof. exact delete_one. Qed.
Print Assumptions C03_delete.
Example C03_delete_case : history 60 3 demo /\ usable demo 0 /\ usable demo 1 /\ usable demo 3 /\ call_ok (CDel (kb 15)) /\ kb 9 <> kb 15 /\
  fst (do_call 60 0 (CDel (kb 15)) [] demo_world) = inl (RDel (Some 10)) /\
  fst (do_call 60 0 (CDel (kb 99)) [] demo_world) = inl (RDel None).
Proof. a_case. Qed.

(** ** C04: put reports the replaced and the new sequence number *)
Theorem C04_put_reports : forall fuel l i j k v,
  history fuel 2 l -> usable l i -> usable l j -> call_ok (CPut k v) ->
  exists x n w1,
    fst (do_call fuel i (CGet k) [] (world_after fuel l)) = inl (RGet x) /\
    fst (do_call fuel i CVersion [] (world_after fuel l)) = inl (RVersion n) /\
    do_call fuel i (CPut k v) [] (world_after fuel l) = (inl (RPut (fst <$> x) (Nat.max 1 n)), w1) /\
    fst (do_call fuel j CVersion [] w1) = inl (RVersion (S (Nat.max 1 n))) /\
    length (w_core (world_after fuel l)) = n.
Proof. exact put_reports. Qed.
Print Assumptions C04_put_reports.
Example C04_put_reports_case : history 60 2 demo /\ usable demo 0 /\ usable demo 1 /\ call_ok (CPut (kb 8) None) /\
  fst (do_call 60 0 CVersion [] demo_world) = inl (RVersion 32).
Proof. a_case. Qed.

(** ** C05: put_compare_and_swap is faithful.  The callback is an [impl FnOnce] (put.rs:12-16),
    so it cannot be called twice; the reply and the effect depend on it only through its
    value at the entries named here.  *)
Theorem C05_put_cas : forall fuel l i j k k' v f,
  history fuel 2 l -> usable l i -> usable l j -> call_ok (CPut k v) ->
  exists x x' wp w1 r1,
    let w := world_after fuel l in
    let old := (fun y => KV (fst y) k (snd y)) <$> x in
    let q := Nat.max 1 (length (w_core w)) in
    fst (do_call fuel i (CGet k) [] w) = inl (RGet x) /\
    do_call fuel i (CPut k v) [] w = (inl (RPut (fst <$> x) q), wp) /\
    do_call fuel i (CPutCas k v f) [] w = (inl r1, w1) /\
    (f old (KV q k v) = true -> r1 = RPutCas (fst <$> x) (Some q) /\ w_core w1 = w_core wp /\
       fst (do_call fuel j (CGet k) [] w1) = inl (RGet (Some (q, v)))) /\
    (f old (KV q k v) = false -> r1 = RPutCas (fst <$> x) None /\
       fst (do_call fuel j (CGet k') [] w) = inl (RGet x') /\ fst (do_call fuel j (CGet k') [] w1) = inl (RGet x')).
Proof. exact put_cas_faithful. Qed.
Print Assumptions C05_put_cas.
Example C05_put_cas_case : history 60 2 demo /\ usable demo 0 /\ usable demo 1 /\ call_ok (CPut (kb 8) None) /\
  fst (do_call 60 0 (CPutCas (kb 8) None (fun old _ => bool_decide (kv_seq <$> old = Some 9))) [] demo_world)
    = inl (RPutCas (Some 9) (Some 32)) /\
  fst (do_call 60 0 (CPutCas (kb 8) None (fun old _ => bool_decide (kv_seq <$> old = None))) [] demo_world) = inl (RPutCas (Some 9) None).
Proof. a_case. Qed.

(** ** C06: del_compare_and_swap is faithful *)
Theorem C06_del_cas : forall fuel l i j k k' f,
  history fuel 2 l -> usable l i -> usable l j -> call_ok (CDel k) ->
  exists x x' wd w1 r1,
    let w := world_after fuel l in
    fst (do_call fuel i (CGet k) [] w) = inl (RGet x) /\
    do_call fuel i (CDel k) [] w = (inl (RDel (fst <$> x)), wd) /\
    do_call fuel i (CDelCas k f) [] w = (inl r1, w1) /\
    match x with
    | None => r1 = RDelCas None /\ w_core w1 = w_core w
    | Some (s, v) =>
        if f (KV s k v)
        then r1 = RDelCas (Some (true, s)) /\ w_core w1 = w_core wd /\ fst (do_call fuel j (CGet k) [] w1) = inl (RGet None)
        else r1 = RDelCas (Some (false, s)) /\ w_core w1 = w_core w /\
             fst (do_call fuel j (CGet k') [] w) = inl (RGet x') /\ fst (do_call fuel j (CGet k') [] w1) = inl (RGet x')
    end.
Proof. exact del_cas_faithful. Qed.
Print Assumptions C06_del_cas.
Example C06_del_cas_case : history 60 2 demo /\ usable demo 0 /\ usable demo 1 /\ call_ok (CDel (kb 8)) /\
  fst (do_call 60 0 (CDelCas (kb 8) (fun e => (kv_seq e =? 9)%nat)) [] demo_world) = inl (RDelCas (Some (true, 9))) /\
  fst (do_call 60 0 (CDelCas (kb 8) (fun e => (kv_seq e =? 8)%nat)) [] demo_world) = inl (RDelCas (Some (false, 9))).
Proof. a_case. Qed.

(** ** C07, C08: what calls append *)
Theorem C07_C08_appended : forall fuel l i c,
  history fuel 1 l -> usable l i -> call_ok c ->
  let w := world_after fuel l in
  exists r w1, do_call fuel i c [] w = (inl r, w1) /\
    (reads_only c -> w_core w1 = w_core w) /\
    (refused r -> w_core w1 = w_core w \/ (w_core w = [] /\ w_core w1 = [header_block None])) /\
    (stored_one r -> exists raw k v, w_core w1 = headed (w_core w) ++ [raw] /\
      written c = Some (k, v) /\ block_holds (w_core w1) (length (headed (w_core w))) k v).
Proof. exact append_nothing. Qed.
Print Assumptions C07_C08_appended.
Example C07_C08_appended_case : history 60 1 demo /\ usable demo 0 /\ call_ok (CDel (kb 8)) /\ call_ok (CDel (kb 99)) /\
  length (w_core demo_world) = 32 /\
  length (w_core (snd (do_call 60 0 (CDel (kb 8)) [] demo_world))) = 33 /\
  length (w_core (snd (do_call 60 0 (CDel (kb 99)) [] demo_world))) = 32.
Proof. a_case. Qed.

Theorem C08_append_only : forall fuel n l1 l2,
  history fuel n (l1 ++ l2) -> history fuel n l1 ->
  w_core (world_after fuel l1) `prefix_of` w_core (world_after fuel (l1 ++ l2)).
Proof. exact append_only. Qed.
Print Assumptions C08_append_only.
Example C08_append_only_case : history 60 0 (take 20 demo ++ drop 20 demo) /\ history 60 0 (take 20 demo) /\ length (w_core (world_after 60 (take 20 demo))) = 21.
Proof. a_case. Qed.

(** ** C09, C10: B-tree shape and height *)
Theorem C09_C10_btree : forall fuel l v,
  history fuel 0 l -> (1 <= v < length (w_core (world_after fuel l)))%nat ->
  exists h T, read_tree (S h) (w_core (world_after fuel l)) (v, 0) = Some T /\ balanced true h T /\
    StronglySorted key_lt (inorder T) /\ (h = 0 \/ 2 * 5 ^ h <= length (inorder T) + 1)%nat.
Proof. exact btree_shape. Qed.
Print Assumptions C09_C10_btree.
Example C09_C10_btree_case : history 60 0 demo /\ (1 <= 31)%nat /\ (31 < length (w_core demo_world))%nat /\
  (length ∘ inorder) <$> read_tree 2 (w_core demo_world) (31, 0) = Some 21.
Proof. a_case. Qed.

Theorem C09_current_tree : forall fuel l i,
  history fuel 1 l -> usable l i -> (2 <= length (w_core (world_after fuel l)))%nat ->
  let C := w_core (world_after fuel l) in
  exists h T, read_tree (S h) C (length C - 1, 0) = Some T /\
    forall k, k ∈ inorder T <-> exists x, fst (do_call fuel i (CGet k) [] (world_after fuel l)) = inl (RGet (Some x)).
Proof. exact current_tree. Qed.
Print Assumptions C09_current_tree.
Example C09_current_tree_case : history 60 1 demo /\ usable demo 0 /\ (2 <= length (w_core demo_world))%nat.
Proof. a_case. Qed.

(** ** C11: no panic and no hang.  [inr] is a panic or a loop that does not end; [RItems _ true]
    a stream that panics *)
Theorem C11_no_panic : forall fuel l, history fuel 0 l ->
  Forall (fun r => exists x, r = inl x) (fst (play fuel l (new_world []))) /\
  (Forall clean l -> forall its, inl (RItems its true) ∉ fst (play fuel l (new_world []))).
Proof. exact no_panic. Qed.
Print Assumptions C11_no_panic.
Example C11_no_panic_case : history 60 0 demo /\ history 60 0 demo_clean /\ Forall clean demo_clean /\ length (fst (play 60 demo_clean (new_world []))) = 33.
Proof. a_case. Qed.

(** ** C12: forward traversal yields exactly the range *)
Theorem C12_forward : forall fuel l i j conf,
  history fuel 1 l -> usable l i -> usable l j -> bounds_ok conf -> t_rev conf = false ->
  (2 <= length (w_core (world_after fuel l)))%nat ->
  exists es,
    fst (do_call fuel i (CTraverse conf) [] (world_after fuel l)) = inl (RItems (map IOk es) false) /\
    StronglySorted (fun a b => key_lt (kv_key a) (kv_key b)) es /\
    forall k q v, KV q k v ∈ es <->
      fst (do_call fuel j (CGet k) [] (world_after fuel l)) = inl (RGet (Some (q, v))) /\
      above_min conf k = true /\ below_max conf k = true.
Proof. exact forward_traversal. Qed.
Print Assumptions C12_forward.
Example C12_forward_case : let conf := Config (Finite (kb 4)) false (Finite (kb 9)) true false in
  build (Builder (Some (Finite (kb 4))) (Some false) (Some (Finite (kb 9))) None None) = Some conf /\
  history 60 1 demo /\ usable demo 0 /\ usable demo 1 /\ bounds_ok conf /\ t_rev conf = false /\
  (2 <= length (w_core demo_world))%nat /\
  fst (do_call 60 0 (CTraverse conf) [] demo_world) =
    inl (RItems (map IOk [KV 30 (kb 5) (Some (kb 9)); KV 19 (kb 6) (Some (kb 18)); KV 2 (kb 7) (Some (kb 1));
                          KV 9 (kb 8) (Some (kb 8)); KV 16 (kb 9) (Some (kb 15))]) false).
Proof. a_case. Qed.

Theorem C12_builder : forall b conf, build b = Some conf -> bounds_ok conf.
Proof. exact build_bounds_ok. Qed.
Print Assumptions C12_builder.
Example C12_builder_case : build (Builder (Some (Finite (kb 4))) (Some false) None None (Some true)) = Some (Config (Finite (kb 4)) false PosInf true true).
Proof. a_case. Qed.

(** ** C13: reverse traversal is the exact reverse *)
Theorem C13_reverse : forall fuel l i j mn mni mx mxi,
  let fw := Config mn mni mx mxi false in let bw := Config mn mni mx mxi true in
  history fuel 1 l -> usable l i -> usable l j -> bounds_ok fw ->
  (2 <= length (w_core (world_after fuel l)))%nat ->
  exists es,
    fst (do_call fuel i (CTraverse fw) [] (world_after fuel l)) = inl (RItems (map IOk es) false) /\
    fst (do_call fuel j (CTraverse bw) [] (world_after fuel l)) = inl (RItems (map IOk (rev es)) false).
Proof. exact reverse_traversal. Qed.
Print Assumptions C13_reverse.
Example C13_reverse_case : let bw := Config (Finite (kb 4)) false (Finite (kb 7)) true true in
  history 60 1 demo /\ usable demo 0 /\ usable demo 1 /\ bounds_ok (Config (Finite (kb 4)) false (Finite (kb 7)) true false) /\
  (2 <= length (w_core demo_world))%nat /\
  fst (do_call 60 0 (CTraverse bw) [] demo_world) =
    inl (RItems (map IOk [KV 2 (kb 7) (Some (kb 1)); KV 19 (kb 6) (Some (kb 18)); KV 30 (kb 5) (Some (kb 9))]) false).
Proof. a_case. Qed.

(** ** C14: configurations built by hand *)

(** False: with equal bounds, the lower one included and the upper one not, the
    key is reported. *)
Theorem C14_refuted : exists fuel l i conf es,
  history fuel 1 l /\ usable l i /\ t_rev conf = false /\
  fst (do_call fuel i (CTraverse conf) [] (world_after fuel l)) = inl (RItems (map IOk es) false) /\
  exists e, e ∈ es /\ below_max conf (kv_key e) = false.
Proof. exact hand_built_wrong. Qed.
Print Assumptions C14_refuted.

(** What is true: a reverse traversal is right for every configuration, ... *)
Theorem C14_reverse_partial : forall fuel l i conf,
  history fuel 1 l -> usable l i -> t_rev conf = true ->
  (2 <= length (w_core (world_after fuel l)))%nat ->
  exists rs b, play fuel l (new_world []) = (rs, world_after fuel l) /\ explains l empty_store rs b /\
    fst (do_call fuel i (CTraverse conf) [] (world_after fuel l)) = inl (RItems (map IOk (range conf (s_entries b))) false).
Proof. exact reverse_traversal_always. Qed.
Print Assumptions C14_reverse_partial.
Example C14_reverse_partial_case : let conf := Config (Finite (kb 4)) true (Finite (kb 4)) false true in
  history 60 1 demo /\ usable demo 0 /\ t_rev conf = true /\ (2 <= length (w_core demo_world))%nat /\
  fst (do_call 60 0 (CTraverse conf) [] demo_world) = inl (RItems [] false).
Proof. a_case. Qed.

(** ... a forward one for every configuration but those with an included lower bound
    that the upper bound excludes ([C12_forward]), and for these it reports the
    lower bound itself, if it is stored, and nothing else. *)
Theorem C14_forward_partial : forall fuel l i j conf a,
  history fuel 1 l -> usable l i -> usable l j -> (2 <= length (w_core (world_after fuel l)))%nat ->
  t_rev conf = false -> t_min conf = Finite a -> t_min_incl conf = true -> below_max conf a = false ->
  exists x, fst (do_call fuel j (CGet a) [] (world_after fuel l)) = inl (RGet x) /\
    fst (do_call fuel i (CTraverse conf) [] (world_after fuel l)) =
    inl (RItems (match x with Some (q, v) => [IOk (KV q a v)] | None => [] end) false).
Proof. exact crossed_traversal. Qed.
Print Assumptions C14_forward_partial.
Example C14_forward_partial_case : let conf := Config (Finite (kb 9)) true (Finite (kb 4)) true false in
  history 60 1 demo /\ usable demo 0 /\ usable demo 1 /\ (2 <= length (w_core demo_world))%nat /\
  t_rev conf = false /\ t_min conf = Finite (kb 9) /\ t_min_incl conf = true /\ below_max conf (kb 9) = false /\
  fst (do_call 60 0 (CTraverse conf) [] demo_world) = inl (RItems [IOk (KV 16 (kb 9) (Some (kb 15)))] false).
Proof. a_case. Qed.

(** ** C15: what the builder accepts *)

(** False: an infinite bound given explicitly beside another bound is refused, and
    a lower bound of plus infinity alone is accepted. *)
Theorem C15_refuted : exists k conf,
  above_min conf k = true /\ below_max conf k = true /\
  build (Builder (Some (t_min conf)) (Some (t_min_incl conf)) (Some (t_max conf)) (Some (t_max_incl conf)) (Some (t_rev conf))) = None.
Proof. exact builder_rejects. Qed.
Print Assumptions C15_refuted.
Theorem C15_accepts_refuted : exists b conf, build b = Some conf /\ forall k, above_min conf k && below_max conf k = false.
Proof. exact builder_accepts. Qed.
Print Assumptions C15_accepts_refuted.

(** What is true: of two finite bounds, exactly the consistent ones are accepted,
    and those that some key satisfies are consistent. *)
Theorem C15_finite_partial : forall mn mx mni mxi rv,
  let b := Builder (Some (Finite mn)) mni (Some (Finite mx)) mxi rv in
  (consistent_pair mn mx (default true mni) (default true mxi) ->
     build b = Some (Config (Finite mn) (default true mni) (Finite mx) (default true mxi) (default false rv))) /\
  (~ consistent_pair mn mx (default true mni) (default true mxi) -> build b = None) /\
  (forall k, above_min (Config (Finite mn) (default true mni) (Finite mx) (default true mxi) false) k = true ->
             below_max (Config (Finite mn) (default true mni) (Finite mx) (default true mxi) false) k = true ->
             consistent_pair mn mx (default true mni) (default true mxi)).
Proof. exact builder_pair. Qed.
Print Assumptions C15_finite_partial.
Example C15_finite_partial_case :
  build (Builder (Some (Finite (kb 3))) None (Some (Finite (kb 5))) (Some false) None) = Some (Config (Finite (kb 3)) true (Finite (kb 5)) false false) /\
  build (Builder (Some (Finite (kb 5))) None (Some (Finite (kb 3))) None None) = None /\
  build (Builder (Some (Finite (kb 3))) None (Some (Finite (kb 3))) None None) = Some (Config (Finite (kb 3)) true (Finite (kb 3)) true false) /\
  build (Builder (Some (Finite (kb 3))) None (Some (Finite (kb 3))) (Some false) None) = None.
Proof. a_case. Qed.

(** One bound, or none, is always accepted. *)
Theorem C15_single_partial : forall lim incl rv,
  (lim <> PosInf -> build (Builder (Some lim) incl None None rv) = Some (Config lim (default true incl) PosInf true (default false rv))) /\
  (lim <> NegInf -> build (Builder None None (Some lim) incl rv) = Some (Config NegInf true lim (default true incl) (default false rv))) /\
  build (Builder None None None None rv) = Some (Config NegInf true PosInf true (default false rv)).
Proof. exact builder_single. Qed.
Print Assumptions C15_single_partial.
Example C15_single_partial_case : Finite (kb 3) <> PosInf /\
  build (Builder (Some (Finite (kb 3))) (Some false) None None (Some true)) = Some (Config (Finite (kb 3)) false PosInf true true).
Proof. a_case. Qed.

(** Exactly what is accepted, and what it is taken for. *)
Theorem C15_exact_partial : forall b conf, build b = Some conf <->
  conf = Config (default NegInf (bd_min b)) (default true (bd_min_incl b)) (default PosInf (bd_max b)) (default true (bd_max_incl b)) (default false (bd_rev b)) /\
  forall mn mx, bd_min b = Some mn -> bd_max b = Some mx ->
    exists x y, mn = Finite x /\ mx = Finite y /\ consistent_pair x y (default true (bd_min_incl b)) (default true (bd_max_incl b)).
Proof. exact builder_exact. Qed.
Print Assumptions C15_exact_partial.
Example C15_exact_partial_case : build (Builder None (Some false) (Some (Finite (kb 5))) None (Some true)) = Some (Config NegInf false (Finite (kb 5)) true true) /\
  build (Builder (Some NegInf) None (Some (Finite (kb 5))) None None) = None.
Proof. a_case. Qed.

(** Bounds that some key keeps are refused only if an infinite one is given beside another. *)
Theorem C15_refused_partial : forall b k,
  let conf := Config (default NegInf (bd_min b)) (default true (bd_min_incl b)) (default PosInf (bd_max b)) (default true (bd_max_incl b)) (default false (bd_rev b)) in
  above_min conf k = true -> below_max conf k = true ->
  (build b = None <-> exists mn mx, bd_min b = Some mn /\ bd_max b = Some mx /\ (mn = NegInf \/ mx = PosInf)).
Proof. exact builder_refuses. Qed.
Print Assumptions C15_refused_partial.
Example C15_refused_partial_case : let conf := Config (Finite (kb 3)) true PosInf true false in
  above_min conf (kb 4) = true /\ below_max conf (kb 4) = true /\ build (Builder (Some (Finite (kb 3))) None (Some PosInf) None None) = None.
Proof. a_case. Qed.

(** ** C16: operations of a sub *)
Theorem C16_same_as_parent : forall fuel i pre sep c p o w, on_parent pre sep c = Some p ->
  do_sub fuel i pre sep c o w = do_call fuel i p o w.
Proof. exact sub_is_parent. Qed.
Print Assumptions C16_same_as_parent.
Example C16_same_as_parent_case : on_parent (kb 7) [] (SGet []) = Some (CGet (kb 7)) /\
  fst (do_sub 60 0 (kb 7) [] (SGet []) [] demo_world) = inl (RGet (Some (2, Some (kb 1)))).
Proof. a_case. Qed.

Theorem C16_default_separator : forall fuel i pre c p o w, on_parent pre [x00] c = Some p ->
  do_sub fuel i pre DEFAULT_SEP c o w = do_call fuel i p o w.
Proof. exact (fun fuel i pre => sub_is_parent fuel i pre [x00]). Qed.
Print Assumptions C16_default_separator.
Example C16_default_separator_case : on_parent (kb 7) [x00] (SPut (kb 1) None) = Some (CPut (kb 7 ++ x00 :: kb 1) None).
Proof. a_case. Qed.

Theorem C16_others_unchanged : forall fuel l i j pre sep c p k,
  history fuel 2 l -> usable l i -> usable l j ->
  on_parent pre sep c = Some p -> call_ok p -> starts (pre ++ sep) k = false ->
  exists r x w1, do_sub fuel i pre sep c [] (world_after fuel l) = (inl r, w1) /\
    fst (do_call fuel j (CGet k) [] (world_after fuel l)) = inl (RGet x) /\
    fst (do_call fuel j (CGet k) [] w1) = inl (RGet x).
Proof. exact sub_leaves_others. Qed.
Print Assumptions C16_others_unchanged.
Example C16_others_unchanged_case : history 60 2 demo /\ usable demo 0 /\ usable demo 1 /\
  on_parent (kb 7) DEFAULT_SEP (SPut (kb 9) None) = Some (CPut (kb 7 ++ DEFAULT_SEP ++ kb 9) None) /\
  call_ok (CPut (kb 7 ++ DEFAULT_SEP ++ kb 9) None) /\ starts (kb 7 ++ DEFAULT_SEP) (kb 7) = false.
Proof. a_case. Qed.

(** ** C17: different subs do not collide *)
Theorem C17_apart : forall (s : byte) p p' k k', s ∉ p -> s ∉ p' -> p ++ [s] ++ k = p' ++ [s] ++ k' -> p = p' /\ k = k'.
Proof. exact subs_apart. Qed.
Print Assumptions C17_apart.
Example C17_apart_case : x00 ∉ kb 1 /\ x00 ∉ kb 2 /\ kb 1 ++ [x00] ++ kb 0 <> kb 2 ++ [x00] ++ kb 0.
Proof. split_and!; [apply (bool_decide_unpack _); by vm_compute..|discriminate]. Qed.

Theorem C17_independent : forall fuel l i j (s : byte) p p' c q k,
  history fuel 2 l -> usable l i -> usable l j -> s ∉ p -> s ∉ p' -> p <> p' -> on_parent p [s] c = Some q -> call_ok q ->
  exists r x w1, do_sub fuel i p [s] c [] (world_after fuel l) = (inl r, w1) /\
    fst (do_sub fuel j p' [s] (SGet k) [] (world_after fuel l)) = inl (RGet x) /\
    fst (do_sub fuel j p' [s] (SGet k) [] w1) = inl (RGet x).
Proof. exact subs_independent. Qed.
Print Assumptions C17_independent.
Example C17_independent_case : history 60 2 demo /\ usable demo 0 /\ usable demo 1 /\ kb 1 <> kb 2 /\
  on_parent (kb 1) [x00] (SPut (kb 9) None) = Some (CPut (kb 1 ++ [x00] ++ kb 9) None) /\ call_ok (CPut (kb 1 ++ [x00] ++ kb 9) None).
Proof. a_case. Qed.

Theorem C17_can_meet : exists (s : byte) (p p' k k' : bytes), p <> p' /\ p ++ [s] ++ k = p' ++ [s] ++ k'.
Proof. exact subs_meet. Qed.
Print Assumptions C17_can_meet.

(** ** C18: traversal of a sub *)

(** False: a prefix that ends in the byte 255, or is empty, hides the entries of the
    sub; keys of the parent that start with the prefix alone are reported; if
    they are short, the stream panics. *)
Theorem C18_hidden_refuted : forall pre, pre = [xff] \/ pre = [] -> exists fuel l i rs b es,
  history fuel 1 l /\ usable l i /\ play fuel l (new_world []) = (rs, world_after fuel l) /\ explains l empty_store rs b /\
  fst (do_sub fuel i pre DEFAULT_SEP (STraverse default_config) [] (world_after fuel l)) = inl (RItems (map IOk es) false) /\
  exists e, e ∈ range default_config (sub_entries pre DEFAULT_SEP (s_entries b)) /\ ~ e ∈ es.
Proof. exact sub_misses. Qed.
Print Assumptions C18_hidden_refuted.
Theorem C18_leak_refuted : exists fuel l i pre rs b e,
  history fuel 1 l /\ usable l i /\ play fuel l (new_world []) = (rs, world_after fuel l) /\ explains l empty_store rs b /\
  sub_entries pre DEFAULT_SEP (s_entries b) = [] /\
  fst (do_sub fuel i pre DEFAULT_SEP (STraverse default_config) [] (world_after fuel l)) = inl (RItems [IOk e] false).
Proof. exact sub_leaks. Qed.
Print Assumptions C18_leak_refuted.
Theorem C18_panic_refuted : exists fuel l i pre,
  history fuel 1 l /\ usable l i /\
  fst (do_sub fuel i pre DEFAULT_SEP (STraverse default_config) [] (world_after fuel l)) = inl (RItems [] true).
Proof. exact sub_panics. Qed.
Print Assumptions C18_panic_refuted.

(** What is true: without these three ([sub_bounds_ok]) a traversal is right. *)
Theorem C18_partial : forall fuel l i pre sep conf,
  history fuel 1 l -> usable l i ->
  exists rs b, play fuel l (new_world []) = (rs, world_after fuel l) /\ explains l empty_store rs b /\
    (sub_bounds_ok pre sep conf (s_entries b) ->
     fst (do_sub fuel i pre sep (STraverse conf) [] (world_after fuel l)) =
     inl (if (s_blocks b <=? 1)%nat then RErr ENoRoot
          else RItems (map IOk (range conf (sub_entries pre sep (s_entries b)))) false)).
Proof. exact sub_traversal. Qed.
Print Assumptions C18_partial.
Example C18_partial_case : let l := [EvCall 0 (CPut [x01; x00; x05] None) []; EvCall 0 (CPut [x01; x00; x07] None) []; EvCall 0 (CPut [x02; x00] None) []] in
  let m := [KV 1 [x01; x00; x05] None; KV 2 [x01; x00; x07] None; KV 3 [x02; x00] None] in
  history 60 1 l /\ usable l 0 /\ fst (spec_call (CTraverse default_config) (snd (spec_run (calls_of l) empty_store))) = RItems (map IOk m) false /\
  sub_bounds_ok [x01] DEFAULT_SEP default_config m /\
  fst (do_sub 60 0 [x01] DEFAULT_SEP (STraverse default_config) [] (world_after 60 l)) =
    inl (RItems [IOk (KV 1 [x05] None); IOk (KV 2 [x07] None)] false).
Proof.
  cbv zeta. split_and!; [case_hyp..| |case_hyp]. split_and!; try done; [by right|].
  intros _ e. rewrite !elem_of_cons, elem_of_nil. by intros [->|[->|[->|[]]]].
Qed.

(** ** C19: blocks and headers round-trip *)
Theorem C19_block_round_trip : forall nds key value,
  block_ok (Block nds key value) ->
  decode_block (encode_block (map to_level nds) key value) = DOk (Block nds key value).
Proof. exact decode_encode_block. Qed.
Print Assumptions C19_block_round_trip.
Example C19_block_round_trip_case : block_ok (Block [Node [3; 300] [(4, 0); (5, 1); (400, 2)]; Node [] []] (kb 1) (Some [])).
Proof. repeat (split || constructor). Qed.

Theorem C19_header_round_trip : forall h, header_ok h -> dec_header (enc_header h) = Some h.
Proof. exact dec_enc_header. Qed.
Print Assumptions C19_header_round_trip.
Example C19_header_round_trip_case : header_ok (Header hyperbee (Some (Metadata (Some (kb 3)) None))).
Proof. split_and!; by vm_compute. Qed.

(** ** C20: reopening gives the same store *)
Theorem C20_reopened_handle : forall fuel l i j c,
  history fuel 1 l -> usable l i -> call_ok c ->
  exists r w1 w2, do_call fuel i c [] (world_after fuel l) = (inl r, w1) /\
    do_call fuel j c [] (reopen j (world_after fuel l)) = (inl r, w2) /\ w_core w1 = w_core w2.
Proof. exact reopen_same. Qed.
Print Assumptions C20_reopened_handle.
Example C20_reopened_handle_case : history 60 1 demo /\ usable demo 0 /\ call_ok (CPut (kb 8) None) /\
  fst (do_call 60 0 (CPut (kb 8) None) [] demo_world) = inl (RPut (Some 9) 32) /\
  fst (do_call 60 7 (CPut (kb 8) None) [] (reopen 7 demo_world)) = inl (RPut (Some 9) 32).
Proof. a_case. Qed.

Theorem C20_reopened_core : forall fuel l, history fuel 0 l ->
  exists rs b, play fuel l (new_world []) = (rs, world_after fuel l) /\ explains l empty_store rs b /\
    behaves fuel (w_core (world_after fuel l)) b.
Proof. exact reopen_behaves. Qed.
Print Assumptions C20_reopened_core.
Example C20_reopened_core_case : history 60 0 demo.
Proof. a_case. Qed.

(** ** C21: every version stays readable *)
Theorem C21_every_version : forall fuel l n,
  history fuel 0 l -> (n <= length (w_core (world_after fuel l)))%nat ->
  (n = 1 /\ behaves fuel (take n (w_core (world_after fuel l))) (Store 1 [])) \/
  exists l1 l2 rs b, l = l1 ++ l2 /\ play fuel l1 (new_world []) = (rs, world_after fuel l1) /\ explains l1 empty_store rs b /\
    s_blocks b = n /\ behaves fuel (take n (w_core (world_after fuel l))) b.
Proof. exact every_version. Qed.
Print Assumptions C21_every_version.
Example C21_every_version_case : history 60 0 demo /\ (17 <= length (w_core demo_world))%nat /\
  fst (do_call 60 0 (CGet (kb 3)) [] (new_world (take 22 (w_core demo_world)))) = inl (RGet None) /\
  fst (do_call 60 0 (CGet (kb 3)) [] (new_world (take 23 (w_core demo_world)))) = inl (RGet (Some (22, Some (kb 21)))) /\
  fst (do_call 60 0 (CGet (kb 3)) [] demo_world) = inl (RGet None).
Proof. a_case. Qed.

(** ** C22: writes are atomic.  A crash after any number of steps of a call leaves a core that opens as
    the store before the call (perhaps with the header added) or after it; and after any history with
    failures the core opens as a store that explains all the replies *)
Theorem C22_crash : forall fuel l i c o k,
  history fuel 1 l -> usable l i -> call_ok c ->
  let w := world_after fuel l in
  exists rs b b1, play fuel l (new_world []) = (rs, w) /\ explains l empty_store rs b /\
    after_failure c b b1 /\ behaves fuel (core (snd (run_upto k (api fuel c) (view w i o)))) b1.
Proof. exact crash. Qed.
Print Assumptions C22_crash.
Example C22_crash_case : history 60 1 demo /\ usable demo 0 /\ call_ok (CPut (kb 8) None) /\
  length (core (snd (run_upto 20 (api 60 (CPut (kb 8) None)) (view demo_world 0 [])))) = 32 /\
  length (core (snd (run_upto 400 (api 60 (CPut (kb 8) None)) (view demo_world 0 [])))) = 33.
Proof. a_case. Qed.

Theorem C22_failures : forall fuel l, history fuel 0 l ->
  exists rs b, play fuel l (new_world []) = (rs, world_after fuel l) /\ explains l empty_store rs b /\
    behaves fuel (w_core (world_after fuel l)) b.
Proof. exact reopen_behaves. Qed.
Print Assumptions C22_failures.
Example C22_failures_case : history 60 0 demo /\ fst (play 60 demo (new_world [])) !! 24 = Some (inl (RErr EHypercore)) /\
  fst (do_call 60 0 (CGet (kb 50)) [] demo_world) = inl (RGet (Some (25, None))).
Proof. a_case. Qed.

(** ** C23: a handle after a failed write *)

(** False: a put whose append fails leaves its key in the cached leaf; a del that
    cannot read a sibling leaves the key removed from the cached leaf, and the next
    put through the handle removes it for everybody. *)
Theorem C23_put_refuted : exists fuel l i j k v o e e' w1,
  history fuel 2 l /\ usable l i /\ usable l j /\ call_ok (CPut k v) /\
  do_call fuel i (CPut k v) o (world_after fuel l) = (inl (RErr e), w1) /\ w_core w1 = w_core (world_after fuel l) /\
  fst (do_call fuel i (CGet k) [] (world_after fuel l)) = inl (RGet None) /\
  fst (do_call fuel i (CGet k) [] w1) = inl (RErr e') /\
  fst (do_call fuel i (CPut k v) [] w1) = inl (RErr e') /\
  fst (do_call fuel j (CGet k) [] w1) = inl (RGet None).
Proof. exact put_breaks_handle. Qed.
Print Assumptions C23_put_refuted.
Theorem C23_del_refuted : exists fuel l i j k k2 v2 o e x q w1 w2,
  history fuel 3 l /\ usable l i /\ usable l j /\ call_ok (CDel k) /\ call_ok (CPut k2 v2) /\ k2 <> k /\
  do_call fuel i (CDel k) o (world_after fuel l) = (inl (RErr e), w1) /\ w_core w1 = w_core (world_after fuel l) /\
  fst (do_call fuel i (CGet k) [] (world_after fuel l)) = inl (RGet (Some x)) /\
  fst (do_call fuel i (CGet k) [] w1) = inl (RGet None) /\
  fst (do_call fuel j (CGet k) [] w1) = inl (RGet (Some x)) /\
  do_call fuel i (CPut k2 v2) [] w1 = (inl (RPut None q), w2) /\
  fst (do_call fuel j (CGet k) [] w2) = inl (RGet None).
Proof. exact del_breaks_handle. Qed.
Print Assumptions C23_del_refuted.

(** It holds for a put when no append fails, and for any write that stores nothing. *)
Theorem C23_put_partial : forall fuel l i c o k v,
  history fuel 3 l -> usable l i -> call_ok c -> c = CPut k v \/ (exists f, c = CPutCas k v f) -> ~ append_fault o ->
  let w := world_after fuel l in
  exists r0 w0 r w1, do_call fuel i c [] w = (inl r0, w0) /\ do_call fuel i c o w = (inl r, w1) /\
    ((r = r0 /\ w_core w1 = w_core w0) \/
     ((exists e, r = RErr e /\ Exists (reports e) o) /\ w_core w1 = w_core w /\ answers_as fuel i w1 w)).
Proof. exact put_survives. Qed.
Print Assumptions C23_put_partial.
Example C23_put_partial_case : history 60 3 demo /\ usable demo 7 /\ call_ok (CPut (kb 8) None) /\
  fst (do_call 60 7 (CPut (kb 8) None) [FNone; FReadErr] demo_world) = inl (RErr EHypercore) /\
  fst (do_call 60 7 (CPut (kb 8) None) [FNone; FMissing] demo_world) = inl (RErr (ENoBlockAtSeq 10)) /\
  ~ append_fault [FNone; FReadErr].
Proof. a_case. Qed.

Theorem C23_idle_partial : forall fuel l i c o r0,
  history fuel 3 l -> usable l i -> call_ok c -> ~ reads_only c ->
  let w := world_after fuel l in
  (1 <= length (w_core w))%nat -> fst (do_call fuel i c [] w) = inl r0 -> ~ stored_one r0 ->
  exists r w1, do_call fuel i c o w = (inl r, w1) /\ w_core w1 = w_core w /\
    (r = r0 \/ exists e, r = RErr e /\ Exists (reports e) o) /\ answers_as fuel i w1 w.
Proof. exact idle_write_survives. Qed.
Print Assumptions C23_idle_partial.
Example C23_idle_partial_case : history 60 3 demo /\ usable demo 7 /\ call_ok (CDel (kb 99)) /\ ~ reads_only (CDel (kb 99)) /\
  (1 <= length (w_core demo_world))%nat /\
  fst (do_call 60 7 (CDel (kb 99)) [] demo_world) = inl (RDel None) /\ ~ stored_one (RDel None) /\
  fst (do_call 60 7 (CDel (kb 99)) [FNone; FErr] demo_world) = inl (RErr EHypercore).
Proof. a_case. Qed.

(** ** C24: several handles on one core agree (see also C01, where each call may use any handle) *)
Theorem C24_handles_agree : forall fuel l i j c,
  history fuel 1 l -> usable l i -> usable l j -> call_ok c ->
  exists r w1 w2, do_call fuel i c [] (world_after fuel l) = (inl r, w1) /\
    do_call fuel j c [] (world_after fuel l) = (inl r, w2) /\ w_core w1 = w_core w2.
Proof. exact handles_agree. Qed.
Print Assumptions C24_handles_agree.
Example C24_handles_agree_case : history 60 1 demo /\ usable demo 0 /\ usable demo 3 /\ call_ok (CDel (kb 8)) /\
  fst (do_call 60 0 (CDel (kb 8)) [] demo_world) = inl (RDel (Some 9)) /\
  fst (do_call 60 3 (CDel (kb 8)) [] demo_world) = inl (RDel (Some 9)).
Proof. a_case. Qed.

(** ** C25: concurrent readers *)
Theorem C25_concurrent_readers : forall fuel l rds sched,
  history fuel 1 l -> Forall (reading l []) rds ->
  let w := world_after fuel l in
  let y := sys_run fuel sched (Sys idle (map (task fuel) rds) w) in
  w_core (y_world y) = w_core w /\
  forall j i c o, rds !! j = Some (i, c, o) -> stopped_at y j = None /\
    forall r, answer y j = Some r -> inl r = fst (do_call fuel i c [] w) \/ (has_fault o /\ exists b,
      behaves fuel (w_core w) b /\ failed_reply (fun _ _ => True) c o (s_entries b) r).
Proof. exact readers_alone. Qed.
Print Assumptions C25_concurrent_readers.
Example C25_concurrent_readers_case : history 60 1 demo /\ Forall (reading demo []) demo_readers /\
  let y := sys_run 60 demo_turns (Sys idle (map (task 60) demo_readers) demo_world) in
  answer y 0 = Some (RGet (Some (5, Some (kb 4)))) /\ answer y 3 = Some (RGet (Some (2, Some (kb 1)))) /\
  answer y 2 = Some (RErr EHypercore) /\
  match answer y 1 with Some (RItems its false) => length its = 21 | _ => False end.
Proof.
  split; [case_hyp|]. split; [|cbv zeta; split_and!; by vm_compute].
  repeat (apply List.Forall_cons; [split_and!; [case_hyp|constructor|exact I|first [exact I|case_hyp]]|]). constructor.
Qed.

(** Whatever the schedule, a task that keeps being scheduled comes to an end. *)
Theorem C25_C26_tasks_end : forall fuel j p y t (f : nat -> move),
  y_threads y !! j = Some t -> th_prog t = p -> (forall n, exists k, n <= k /\ f k = MThread j)%nat ->
  exists n, ended (sys_run fuel (map f (seq 0 n)) y) j.
Proof. exact finishes. Qed.
Print Assumptions C25_C26_tasks_end.
Example C25_C26_tasks_end_case : let y := Sys idle (map (task 60) demo_readers) demo_world in
  (exists t, y_threads y !! 1 = Some t) /\ (forall n, exists k, n <= k /\ (fun k => MThread (k mod 4)) k = MThread 1)%nat.
Proof.
  cbv zeta. split; [by eexists|]. intros n. exists (1 + n * 4)%nat. split; [lia|]. f_equal. by rewrite Nat.mod_add.
Qed.

(** ** C26: readers on handles of their own see a snapshot *)
Theorem C26_snapshot : forall fuel l1 l2 rds,
  history fuel 1 (l1 ++ l2) -> Forall plain l2 -> Forall (reading l1 l2) rds -> forall sched,
  let y0 := Sys (Actor None l2 []) (map (task fuel) rds) (world_after fuel l1) in
  let y := sys_run fuel sched y0 in
  (forall j i c o, rds !! j = Some (i, c, o) -> stopped_at y j = None /\
     forall r, answer y j = Some r -> exists s1 s2 b, sched = s1 ++ MThread j :: s2 /\ MThread j ∉ s1 /\
       behaves fuel (w_core (y_world (sys_run fuel s1 y0))) b /\
       (r = fst (spec_call c b) \/ (has_fault o /\ failed_reply (fun _ _ => True) c o (s_entries b) r))) /\
  a_done (y_actor y) `prefix_of` fst (play fuel l2 (world_after fuel l1)) /\
  (a_now (y_actor y) = None -> a_todo (y_actor y) = [] ->
     a_done (y_actor y) = fst (play fuel l2 (world_after fuel l1)) /\ w_core (y_world y) = w_core (world_after fuel (l1 ++ l2))).
Proof. exact readers_isolated. Qed.
Print Assumptions C26_snapshot.
Example C26_snapshot_case : history 60 1 (demo ++ demo_writes) /\ Forall plain demo_writes /\ Forall (reading demo demo_writes) demo_snapshots /\
  let y := sys_run 60 (repeat (MThread 0) 2 ++ repeat (MThread 1) 7 ++ repeat MActor 400 ++ repeat (MThread 0) 100 ++ repeat (MThread 1) 300 ++ repeat (MThread 2) 100)
             (Sys (Actor None demo_writes []) (map (task 60) demo_snapshots) demo_world) in
  answer y 0 = Some (RGet (Some (5, Some (kb 4)))) /\ answer y 2 = Some (RGet (Some (32, None))) /\
  match answer y 1 with Some (RItems its false) => length its = 21 | _ => False end /\
  a_done (y_actor y) = [inl (RPut (Some 5) 32); inl (RDel (Some 9)); inl (RErr EHypercore)].
Proof.
  split; [case_hyp|]. split; [by repeat constructor|]. split; [|cbv zeta; split_and!; by vm_compute].
  repeat (apply List.Forall_cons; [split_and!; [case_hyp|repeat constructor; discriminate|exact I|first [exact I|case_hyp]]|]). constructor.
Qed.

(** ** C27: concurrent puts *)

(** False, with an empty store and with any other. *)
Theorem C27_first_refuted : exists fuel l ms k0 k1 v q0 q1,
  let y := lsys_run ms (l_both fuel l (CPut k0 v) (CPut k1 v)) in
  history fuel 2 l /\ usable l 0 /\ k0 <> k1 /\
  l_answer y 0 = Some (RPut None q0) /\ l_answer y 1 = Some (RPut None q1) /\
  forall i, (i < 3)%nat -> fst (do_call fuel i (CGet k1) [] (ls_world y)) = inl (RGet None).
Proof. exact puts_collide_first. Qed.
Print Assumptions C27_first_refuted.
Theorem C27_refuted : exists fuel l ms k0 k1 v q0 q1,
  let y := lsys_run ms (l_both fuel l (CPut k0 v) (CPut k1 v)) in
  history fuel 2 l /\ usable l 0 /\ k0 <> k1 /\ (2 <= length (w_core (world_after fuel l)))%nat /\
  l_answer y 0 = Some (RPut None q0) /\ l_answer y 1 = Some (RPut None q1) /\
  forall i, (i < 3)%nat -> fst (do_call fuel i (CGet k1) [] (ls_world y)) = inl (RGet None).
Proof. exact puts_collide. Qed.
Print Assumptions C27_refuted.

(** ** C28: a get during a put on the same handle *)

(** False: it misses keys that are stored before and after, or fails. *)
Theorem C28_refuted : exists fuel l ms k k0 v q x,
  let y := lsys_run ms (l_both fuel l (CPut k0 v) (CGet k)) in
  history fuel 2 l /\ usable l 0 /\ k0 <> k /\
  fst (do_call fuel 0 (CGet k) [] (world_after fuel l)) = inl (RGet (Some x)) /\
  l_answer y 0 = Some (RPut None q) /\ l_answer y 1 = Some (RGet None) /\
  fst (do_call fuel 0 (CGet k) [] (ls_world y)) = inl (RGet (Some x)).
Proof. exact get_during_put. Qed.
Print Assumptions C28_refuted.
Theorem C28_fails_refuted : exists fuel l ms k v q e,
  let y := lsys_run ms (l_both fuel l (CPut k v) (CGet k)) in
  history fuel 2 l /\ usable l 0 /\
  fst (do_call fuel 0 (CGet k) [] (world_after fuel l)) = inl (RGet None) /\
  l_answer y 0 = Some (RPut None q) /\ l_answer y 1 = Some (RErr e).
Proof. exact get_put_fails. Qed.
Print Assumptions C28_fails_refuted.
(** It even answers with the value of another key, which was there all the time like its own. *)
Theorem C28_other_key_refuted : exists fuel l ms k k1 k0 v q x x1,
  let y := lsys_run ms (l_both fuel l (CGet k) (CPut k0 v)) in
  history fuel 2 l /\ usable l 0 /\ k <> k1 /\ x <> x1 /\
  fst (do_call fuel 0 (CGet k) [] (world_after fuel l)) = inl (RGet (Some x)) /\
  fst (do_call fuel 0 (CGet k1) [] (world_after fuel l)) = inl (RGet (Some x1)) /\
  l_answer y 1 = Some (RPut None q) /\ l_answer y 0 = Some (RGet (Some x1)) /\
  fst (do_call fuel 0 (CGet k) [] (ls_world y)) = inl (RGet (Some x)).
Proof. exact get_other_key. Qed.
Print Assumptions C28_other_key_refuted.

(** ** C29: a stream and a write on the same handle *)

(** False: the stream loses entries, shows new ones, or panics.  ([C26_snapshot]
    is what holds for a write through another handle.) *)
Theorem C29_loses_refuted : exists fuel l ms k v q es,
  let y := lsys_run ms (l_both fuel l (CTraverse default_config) (CPut k v)) in
  history fuel 2 l /\ usable l 0 /\
  fst (do_call fuel 0 (CTraverse default_config) [] (world_after fuel l)) = inl (RItems es false) /\ es <> [] /\
  l_answer y 1 = Some (RPut None q) /\ l_answer y 0 = Some (RItems [] false).
Proof. exact stream_loses. Qed.
Print Assumptions C29_loses_refuted.
Theorem C29_shows_refuted : exists fuel l ms k v q es es',
  let y := lsys_run ms (l_both fuel l (CTraverse default_config) (CPut k v)) in
  history fuel 2 l /\ usable l 0 /\
  fst (do_call fuel 0 (CTraverse default_config) [] (world_after fuel l)) = inl (RItems (map IOk es) false) /\
  l_answer y 1 = Some (RPut None q) /\ l_answer y 0 = Some (RItems (map IOk (es ++ es')) false) /\ es' <> [].
Proof. exact stream_sees. Qed.
Print Assumptions C29_shows_refuted.
Theorem C29_panics_refuted : exists fuel l ms k v q,
  let y := lsys_run ms (l_both fuel l (CTraverse default_config) (CPut k v)) in
  history fuel 2 l /\ usable l 0 /\ l_answer y 1 = Some (RPut None q) /\ l_stopped y 0 = Some SPanic.
Proof. exact stream_panics. Qed.
Print Assumptions C29_panics_refuted.

(** ** C30: read failures never produce wrong answers *)
Theorem C30_read_failures : forall fuel l i c o,
  history fuel 3 l -> usable l i -> reads_only c -> call_ok c ->
  let w := world_after fuel l in
  exists r0 r w1,
    fst (do_call fuel i c [] w) = inl r0 /\
    do_call fuel i c o w = (inl r, w1) /\ w_core w1 = w_core w /\
    (r = r0 \/ has_fault o /\ ((exists e, r = RErr e /\ Exists (reports e) o) \/
       exists es its b, r0 = RItems (map IOk es) false /\ r = RItems its b /\ gappy (fun _ => True) o its es b)) /\
    forall c2, call_ok c2 -> exists r2 w2 w3, do_call fuel i c2 [] w1 = (inl r2, w2) /\
      do_call fuel i c2 [] w = (inl r2, w3) /\ w_core w2 = w_core w3.
Proof. exact read_failures. Qed.
Print Assumptions C30_read_failures.
Example C30_read_failures_case : history 60 3 demo /\ usable demo 7 /\ reads_only (CGet (kb 8)) /\ call_ok (CGet (kb 8)) /\
  fst (do_call 60 7 (CGet (kb 8)) [] demo_world) = inl (RGet (Some (9, Some (kb 8)))) /\
  fst (do_call 60 7 (CGet (kb 8)) [FNone; FErr] demo_world) = inl (RErr EHypercore) /\
  fst (do_call 60 7 (CGet (kb 8)) [] (snd (do_call 60 7 (CGet (kb 8)) [FNone; FErr] demo_world))) = inl (RGet (Some (9, Some (kb 8)))).
Proof. a_case. Qed.

(** A traversal loses no more than what could not be read: one entry for a key, the
    stretch below a child for a node. *)
Theorem C30_traversal : forall fuel l i conf o,
  history fuel 3 l -> usable l i -> bounds_ok conf -> (2 <= length (w_core (world_after fuel l)))%nat ->
  let w := world_after fuel l in
  exists h T es, read_tree (S h) (w_core w) (length (w_core w) - 1, 0) = Some T /\
    fst (do_call fuel i (CTraverse conf) [] w) = inl (RItems (map IOk es) false) /\
    ((exists e, fst (do_call fuel i (CTraverse conf) o w) = inl (RErr e) /\ Exists (reports e) o) \/
     exists its b, fst (do_call fuel i (CTraverse conf) o w) = inl (RItems its b) /\ gappy (child_part T conf) o its es b).
Proof. exact torn_traversal. Qed.
Print Assumptions C30_traversal.
Example C30_traversal_case : let conf := Config NegInf true (Finite (kb 9)) true false in
  history 60 3 demo /\ usable demo 7 /\ bounds_ok conf /\ (2 <= length (w_core demo_world))%nat /\
  fst (do_call 60 7 (CTraverse conf) [FNone; FNone; FNone; FErr] demo_world) =
  inl (RItems [IErr (EGetChildInTraverse EHypercore); IOk (KV 2 (kb 7) (Some (kb 1))); IOk (KV 9 (kb 8) (Some (kb 8))); IOk (KV 16 (kb 9) (Some (kb 15)))] false) /\
  fst (do_call 60 7 (CTraverse conf) [FNone; FNone; FNone; FNone; FNone; FNone; FErr; FNone; FNone; FMissing] demo_world) =
  inl (RItems [IOk (KV 1 (kb 0) (Some (kb 0))); IErr EHypercore; IOk (KV 15 (kb 2) (Some (kb 14))); IOk (KV 5 (kb 4) (Some (kb 4)));
    IOk (KV 30 (kb 5) (Some (kb 9))); IOk (KV 19 (kb 6) (Some (kb 18))); IOk (KV 2 (kb 7) (Some (kb 1))); IErr (EBuildIterator (ENoBlockAtSeq 16))] true).
Proof. a_case. Qed.

(** ** C31: blocks are a function of the calls only *)
Theorem C31_deterministic : forall fuel fuel' l l',
  Forall event_ok l -> Forall event_ok l' -> Forall clean l -> Forall clean l' ->
  (length l < fuel)%nat -> (length l' < fuel')%nat -> (N.of_nat (length l) + 1 < 2 ^ 50)%N -> (N.of_nat (length l') + 1 < 2 ^ 50)%N ->
  calls_of l = calls_of l' -> w_core (world_after fuel l) = w_core (world_after fuel' l').
Proof. exact deterministic_bytes. Qed.
Print Assumptions C31_deterministic.
Example C31_deterministic_case : let l := take 24 demo in let l' := EvReopen 4 :: map (fun c => EvCall 4 c []) (calls_of l) in
  Forall event_ok l /\ Forall event_ok l' /\ Forall clean l /\ Forall clean l' /\
  (length l < 60)%nat /\ (length l' < 60)%nat /\ (N.of_nat (length l) + 1 < 2 ^ 50)%N /\ (N.of_nat (length l') + 1 < 2 ^ 50)%N /\
  calls_of l = calls_of l' /\ l <> l'.
Proof. a_case. Qed.

(** ** C32: block layout *)
Theorem C32_layout : forall fuel l v,
  history fuel 0 l -> (1 <= v < length (w_core (world_after fuel l)))%nat ->
  let C := w_core (world_after fuel l) in
  exists nds key value h T, block_at C v = Some (Block nds key value) /\
    read_tree (S h) C (v, 0) = Some T /\ balanced true h T /\ (length nds <= 2 * h + 3)%nat /\
    preorder (S h) nds v 0 = Some (seq 0 (length nds)) /\
    forall i nd q j, nds !! i = Some nd -> (q, j) ∈ n_children nd ->
      (q = v /\ (i < j < length nds)%nat) \/ ((1 <= q < v)%nat /\ exists b, block_at C q = Some b /\ (j < length (b_nodes b))%nat).
Proof. exact block_layout. Qed.
Print Assumptions C32_layout.
Example C32_layout_case : history 60 0 demo /\ (1 <= 9)%nat /\ (9 < length (w_core demo_world))%nat /\
  (length ∘ b_nodes) <$> block_at (w_core demo_world) 9 = Some 3.
Proof. a_case. Qed.

(** ** C33: seq locates the data *)
Theorem C33_seq_locates : forall fuel l i k q v,
  history fuel 1 l -> usable l i ->
  fst (do_call fuel i (CGet k) [] (world_after fuel l)) = inl (RGet (Some (q, v))) ->
  block_holds (w_core (world_after fuel l)) q k v.
Proof. exact seq_locates. Qed.
Print Assumptions C33_seq_locates.
Example C33_seq_locates_case : history 60 1 demo /\ usable demo 0 /\ fst (do_call 60 0 (CGet (kb 8)) [] demo_world) = inl (RGet (Some (9, Some (kb 8)))).
Proof. a_case. Qed.

(** ** C34: header discipline *)
Theorem C34_header_first : forall fuel w i md, w_core w = [] ->
  exists w1, do_call fuel i (CHeader md) [] w = (inl RDone, w1) /\ w_core w1 = [header_block md].
Proof. exact header_first. Qed.
Print Assumptions C34_header_first.

Theorem C34_header_decodes : forall md, header_ok (Header hyperbee md) -> dec_header (header_block md) = Some (Header hyperbee md).
Proof. exact (fun md => dec_enc_header (Header hyperbee md)). Qed.
Print Assumptions C34_header_decodes.
Example C34_header_decodes_case : w_core (new_world []) = [] /\ header_ok (Header hyperbee (Some (Metadata (Some (kb 3)) None))).
Proof. split_and!; by vm_compute. Qed.

Theorem C34_header_once : forall fuel w i o md, w_core w <> [] ->
  exists w1, do_call fuel i (CHeader md) o w = (inl (RErr EHeaderAlreadyExists), w1) /\ w_core w1 = w_core w.
Proof. exact header_once. Qed.
Print Assumptions C34_header_once.
Example C34_header_once_case : w_core demo_world <> [].
Proof. a_case. Qed.

Theorem C34_first_put : forall fuel i k v, (2 <= fuel)%nat -> call_ok (CPut k v) ->
  exists w raw, do_call fuel i (CPut k v) [] (new_world []) = (inl (RPut None 1), w) /\ w_core w = [header_block None; raw] /\
    block_holds (w_core w) 1 k v.
Proof. exact first_put. Qed.
Print Assumptions C34_first_put.
Example C34_first_put_case : (2 <= 60)%nat /\ call_ok (CPut (kb 3) (Some [])).
Proof. a_case. Qed.

Theorem C34_rootless : forall fuel w i o, (length (w_core w) <= 1)%nat ->
  (forall k, exists w1, do_call fuel i (CGet k) o w = (inl (RGet None), w1) /\ w_core w1 = w_core w) /\
  (forall k, exists w1, do_call fuel i (CDel k) o w = (inl (RDel None), w1) /\ w_core w1 = w_core w) /\
  (forall k f, exists w1, do_call fuel i (CDelCas k f) o w = (inl (RDelCas None), w1) /\ w_core w1 = w_core w) /\
  (forall conf, exists w1, do_call fuel i (CTraverse conf) o w = (inl (RErr ENoRoot), w1) /\ w_core w1 = w_core w).
Proof. exact rootless. Qed.
Print Assumptions C34_rootless.
Example C34_rootless_case : (length (w_core (new_world [kb 77])) <= 1)%nat.
Proof. a_case. Qed.

(** ** C35: reads of malformed cores

    Refuted: the code trusts the blocks. *)
Theorem C35_panic_refuted : exists C k, fst (do_call 60 0 (CGet k) [] (new_world C)) = inr SPanic.
Proof. exact malformed_panic. Qed.
Print Assumptions C35_panic_refuted.

Theorem C35_hang_refuted : exists C k, forall fuel, fst (do_call fuel 0 (CGet k) [] (new_world C)) = inr SDiverge.
Proof. exact malformed_loops. Qed.
Print Assumptions C35_hang_refuted.

Theorem C35_stream_refuted : exists C its, sane C /\
  fst (do_call 60 0 (CTraverse default_config) [] (new_world C)) = inl (RItems its true).
Proof. exact malformed_stream. Qed.
Print Assumptions C35_stream_refuted.

(** Missing: cores that are not [sane]; and a stream that could not read the keys of
    a node may panic after it has reported that error. *)
Theorem C35_sane_cores_partial : forall fuel C l, sane C -> (node_count C < fuel)%nat -> Forall only_reads l ->
  Forall answered (fst (play fuel l (new_world C))).
Proof. exact raw_reads. Qed.
Print Assumptions C35_sane_cores_partial.
Example C35_sane_cores_partial_case : let C := [header_block None; kb 77; encode_block [Level [9; 2; 1]%N []] (kb 5) None;
      encode_block [Level [3]%N [2; 0; 3; 1]%N; Level []%N [1; 4]%N] (kb 1) None] in
  let l := [EvCall 0 (CGet (kb 0)) []; EvCall 0 (CGet (kb 1)) []; EvCall 0 (CGet (kb 7)) []; EvCall 1 CVersion [];
            EvCall 1 (CTraverse default_config) []] in
  sane C /\ (node_count C < 60)%nat /\ Forall only_reads l /\
  fst (play 60 l (new_world C)) = [inl (RErr (ENoBlockAtSeq 9)); inl (RGet (Some (3, None))); inl (RErr EDecode);
    inl (RVersion 4); inl (RItems [IErr (EBuildIterator (ENoBlockAtSeq 9))] true)].
Proof. cbv zeta. split_and!; [by apply saneb_ok; vm_compute|case_hyp|by repeat constructor|case_hyp]. Qed.

(** The cores that the library writes are such cores. *)
Theorem C35_own_cores : forall fuel l, history fuel 0 l -> sane (w_core (world_after fuel l)).
Proof. exact own_sane. Qed.
Print Assumptions C35_own_cores.
Example C35_own_cores_case : history 60 0 demo /\ length (w_core demo_world) = 32 /\ node_count (w_core demo_world) = 58.
Proof. a_case. Qed.

(** ** C36: hb_get calls its callback once

    Refuted: it is not called for an absent key, for a key without value, or when the
    read fails. *)
Theorem C36_absent_refuted : exists l i k, history 60 1 l /\ usable l i /\
  fst (do_call 60 i (CGet k) [] (world_after 60 l)) = inl (RGet None) /\ snd (fst (hb_get 60 i k [] (world_after 60 l))) = [].
Proof. exact callback_absent. Qed.
Print Assumptions C36_absent_refuted.

Theorem C36_no_value_refuted : exists l i k q, history 60 1 l /\ usable l i /\
  fst (do_call 60 i (CGet k) [] (world_after 60 l)) = inl (RGet (Some (q, None))) /\ snd (fst (hb_get 60 i k [] (world_after 60 l))) = [].
Proof. exact callback_no_value. Qed.
Print Assumptions C36_no_value_refuted.

Theorem C36_error_refuted : exists l i k o e, history 60 1 l /\ usable l i /\
  fst (do_call 60 i (CGet k) o (world_after 60 l)) = inl (RErr e) /\ snd (fst (hb_get 60 i k o (world_after 60 l))) = [].
Proof. exact callback_error. Qed.
Print Assumptions C36_error_refuted.

(** Missing: every other result of [get]. *)
Theorem C36_found_partial : forall fuel i k o w q v w1,
  do_call fuel i (CGet k) o w = (inl (RGet (Some (q, Some v))), w1) -> hb_get fuel i k o w = (0, [Callback 0 q v], w1).
Proof. exact hb_get_found. Qed.
Print Assumptions C36_found_partial.
Example C36_found_partial_case : exists w1, do_call 60 0 (CGet (kb 8)) [] demo_world = (inl (RGet (Some (9, Some (kb 8)))), w1).
Proof. apply some_after. by vm_compute. Qed.

(** ** C37: the foreign interface tells what the Rust methods tell *)
Theorem C37_calls : forall fuel i c o w, same_answer (fst (do_call fuel i (rust_call c) o w)) (fst (do_ffi fuel i c o w)) /\
  snd (do_call fuel i (rust_call c) o w) = snd (do_ffi fuel i c o w).
Proof. exact ffi_same. Qed.
Print Assumptions C37_calls.
Example C37_calls_case : fst (do_ffi 60 0 (FGet (kb 8)) [] demo_world) = inl (FGotten (Some (Gotten 9 (Some (kb 8))))) /\
  fst (do_ffi 60 0 (FPut (kb 8) None) [] demo_world) = inl (FPutten (Putten (Some 9) (length (w_core demo_world)))).
Proof. split; by vm_compute. Qed.

Theorem C37_subs : forall fuel i pre sep c o w,
  same_answer (fst (do_sub fuel i pre sep (rust_sub_call c) o w)) (fst (do_ffi_sub fuel i (ffi_make_sub pre sep) c o w)) /\
  snd (do_sub fuel i pre sep (rust_sub_call c) o w) = snd (do_ffi_sub fuel i (ffi_make_sub pre sep) c o w).
Proof. exact ffi_sub_same. Qed.
Print Assumptions C37_subs.
Example C37_subs_case : fst (do_ffi_sub 60 0 (ffi_make_sub (kb 8) ffi_default_config) (PGet (kb 1)) [] demo_world) = inl (FGotten None).
Proof. by vm_compute. Qed.

(** Different answers look different, errors included. *)
Theorem C37_nothing_lost : forall r r' f, foreign r = Some f -> foreign r' = Some f -> r = r'.
Proof. exact foreign_inj. Qed.
Print Assumptions C37_nothing_lost.
Example C37_nothing_lost_case : foreign (RGet (Some (0, None))) = Some (FGotten (Some (Gotten 0 None))) /\
  exists f, foreign (RErr (ENoBlockAtSeq 12)) = Some f.
Proof. split; [done|by eexists]. Qed.

(** Errors cross the border as the name of their variant and the message of error.rs. *)
Theorem C37_messages :
  let shown e (name text : String.string) := foreign (RErr e) = Some (FError (name, text)) in
  shown EHypercore "HypercoreError" "There was an error in the underlying Hypercore" /\
  shown EDecode "DecodeError" "There was an error decoding Hypercore data" /\
  (forall q, shown (ENoBlockAtSeq q) "NoBlockAtSeqError" ("No block at seq  `" +:+ pretty.pretty q +:+ "`")%string) /\
  shown ENoRoot "NoRootError" "The tree has no root so this operation failed" /\
  shown EHeaderAlreadyExists "HeaderAlreadyExists" "The tree already has a header" /\
  shown EKeyFromUtf8 "KeyFromUtf8Error" "There was an error decoding a key" /\
  forall e name text, shown e name text ->
    shown (EGetChildInTraverse e) "GetChildInTraverseError" ("Could not traverse child node. Got error: " +:+ text) /\
    shown (EBuildIterator e) "BuildIteratorInTraverseError" ("There was an error building the iterator to traverse a node. Got error: " +:+ text).
Proof. exact messages. Qed.
Print Assumptions C37_messages.
Example C37_messages_case : fst (do_ffi 60 7 (FGet (kb 8)) [FMissing] demo_world) = inl (FError ("NoBlockAtSeqError", "No block at seq  `31`"%string)).
Proof. by vm_compute. Qed.

(** ** C38: polling the stream

    [sched j] is what the j-th poll lets the inner future do: 0 leaves it pending.  The
    items, the end and the state are those of the drained stream of the other
    theorems ([RItems]), and every Pending has arranged a wake-up. *)
Theorem C38_polling : forall fuel i conf o w its b w1 sched,
  do_call fuel i (CTraverse conf) o w = (inl (RItems its b), w1) -> fair sched ->
  exists t s m os s', run open_stream (view w i o) = (inl t, s) /\
    poll_all conf (map sched (seq 0 m)) t s = (os, s') /\
    commit_view w i s' = w1 /\ items_of os = its /\
    fst <$> last os = Some (if b then OPanic else OEnd) /\ Forall woken os.
Proof. exact polling. Qed.
Print Assumptions C38_polling.
Example C38_polling_case : let conf := Config (Finite (kb 3)) true (Finite (kb 9)) false true in
  (exists its w1, do_call 60 7 (CTraverse conf) [] demo_world = (inl (RItems its false), w1) /\ length its = 5) /\
  fair (fun j => (j mod 3))%nat.
Proof.
  split.
  - assert (exists its, fst (do_call 60 7 (CTraverse (Config (Finite (kb 3)) true (Finite (kb 9)) false true)) [] demo_world) = inl (RItems its false) /\ length its = 5) as (its & H1 & H2) by (eexists; split; vm_compute; reflexivity).
    destruct (some_after _ _ H1) as [w1 H3]. exists its, w1. split; [exact H3|exact H2].
  - intros j. exists (3 * j + 1)%nat. split; [lia|].
    replace (3 * j + 1)%nat with (1 + j * 3)%nat by lia. rewrite Nat.mod_add by lia. simpl; lia.
Qed.

Theorem C38_wakes : forall conf n t s o w t' s', poll_next conf n t s = (o, w, t', s') -> o = OPending -> w = true.
Proof. exact polling_wakes. Qed.
Print Assumptions C38_wakes.
Example C38_wakes_case : fst (fst (fst (poll_next default_config 0 (new_traverse 0) (St [] ∅ [] [])))) = OPending.
Proof. by vm_compute. Qed.

(** ** C39: deleting everything leaves a usable empty store *)
Theorem C39_emptied : forall fuel l i l2,
  history fuel (length l2) l -> Forall event_ok l2 -> Forall clean l2 -> trusted (bad_end l nobody) l2 ->
  usable l i -> (0 < length l2)%nat ->
  (forall k, fst (do_call fuel i (CGet k) [] (world_after fuel l)) = inl (RGet None)) ->
  let w := world_after fuel l in
  fst (play fuel l2 w) = map inl (fst (spec_run (calls_of l2) (Store (length (w_core w)) []))).
Proof. exact emptied. Qed.
Print Assumptions C39_emptied.
Example C39_emptied_case : let l := [EvCall 0 (CPut (kb 1) None) []; EvCall 0 (CDel (kb 1)) []] in
  let l2 := [EvCall 0 (CTraverse (Config NegInf true PosInf true false)) []; EvCall 0 (CPut (kb 2) None) []] in
  history 60 (length l2) l /\ Forall event_ok l2 /\ Forall clean l2 /\ trusted (bad_end l nobody) l2 /\
  usable l 0 /\ (0 < length l2)%nat /\
  (forall k, fst (do_call 60 0 (CGet k) [] (world_after 60 l)) = inl (RGet None)) /\
  fst (play 60 l2 (world_after 60 l)) = [inl (RItems [] false); inl (RPut None 3)].
Proof. cbn zeta. split_and!; [case_hyp..| |case_hyp]. intros k. vm_compute. reflexivity. Qed.

(** ** C40: keys are ordered bytewise *)
Theorem C40_key_order : (forall a b, (limit_cmp (Finite a) b = Lt <-> key_lt a b) /\ (limit_cmp (Finite a) b = Eq <-> a = b) /\
               (limit_cmp (Finite a) b = Gt <-> key_lt b a)) /\
  (forall a, ~ key_lt a a) /\
  (forall a b c, key_lt a b -> key_lt b c -> key_lt a c) /\
  (forall a b, key_lt a b \/ a = b \/ key_lt b a) /\
  (forall a, a <> [] -> key_lt [] a) /\
  (forall k, limit_cmp NegInf k = Lt /\ limit_cmp PosInf k = Gt) /\
  (forall l k, limit_eq l k = true <-> limit_cmp l k = Eq) /\
  (forall l k, limit_lt l k = true <-> limit_cmp l k = Lt).
Proof. exact key_order. Qed.
Print Assumptions C40_key_order.
Example C40_key_order_case : limit_cmp (Finite (kb 1 ++ kb 200)) (kb 2) = Lt /\ limit_cmp (Finite (kb 1 ++ kb 2)) (kb 1) = Gt.
Proof. a_case. Qed.

(** ** C41: height and print *)
Theorem C41_height : forall fuel l i, history fuel 1 l -> usable l i ->
  let w := world_after fuel l in
  (length (w_core w) <= 1)%nat /\ fst (do_prog (tree_height fuel) i [] w) = inl 0 \/
  exists h T, read_tree (S h) (w_core w) (length (w_core w) - 1, 0) = Some T /\
    fst (do_prog (tree_height fuel) i [] w) = inl (S h) /\ path_lengths T <> [] /\ Forall (fun n => n = S h) (path_lengths T).
Proof. exact height_paths. Qed.
Print Assumptions C41_height.
Example C41_height_case : history 60 1 demo /\ usable demo 0 /\ fst (do_prog (tree_height 60) 0 [] demo_world) = inl 2.
Proof. a_case. Qed.

Theorem C41_print : forall fuel l i, history fuel 1 l -> usable l i ->
  let w := world_after fuel l in
  (length (w_core w) <= 1)%nat /\ fst (do_prog (tree_print fuel) i [] w) = inr (SErr ENoRoot) \/
  exists h T, read_tree (S h) (w_core w) (length (w_core w) - 1, 0) = Some T /\ map snd (listing 0 T) = inorder T /\
    StronglySorted key_lt (inorder T) /\
    (forall k, k ∈ inorder T <-> exists x, fst (do_call fuel i (CGet k) [] w) = inl (RGet (Some x))) /\
    (Forall is_utf8 (inorder T) -> fst (do_prog (tree_print fuel) i [] w) = inl (printout (listing 0 T))) /\
    (~ Forall is_utf8 (inorder T) -> fst (do_prog (tree_print fuel) i [] w) = inr (SErr EKeyFromUtf8)).
Proof. exact printed. Qed.
Print Assumptions C41_print.
Example C41_print_case : history 60 1 demo /\ usable demo 0 /\
  exists out, fst (do_prog (tree_print 60) 0 [] demo_world) = inl out /\ take 9 out = [x09; x00; x0a; x09; x01; x0a; x09; x02; x0a].
Proof. split_and!; [case_hyp..|]. eexists. split; by vm_compute. Qed.

(** The height is logarithmic in the number of entries that a stream shows, from both sides. *)
Theorem C41_logarithmic : forall fuel l i j, history fuel 1 l -> usable l i -> usable l j ->
  let w := world_after fuel l in (2 <= length (w_core w))%nat ->
  exists h es, fst (do_prog (tree_height fuel) i [] w) = inl (S h) /\
    fst (do_call fuel j (CTraverse default_config) [] w) = inl (RItems (map IOk es) false) /\
    (h = 0 \/ 2 * 5 ^ h <= S (length es))%nat /\ (S (length es) <= 9 ^ S h)%nat.
Proof. exact height_entries. Qed.
Print Assumptions C41_logarithmic.
Example C41_logarithmic_case : history 60 1 demo /\ usable demo 0 /\ usable demo 1 /\ (2 <= length (w_core demo_world))%nat /\
  fst (do_prog (tree_height 60) 0 [] demo_world) = inl 2 /\
  match fst (do_call 60 1 (CTraverse default_config) [] demo_world) with inl (RItems its false) => length its = 21 | _ => False end.
Proof. split_and!; [case_hyp|case_hyp|case_hyp|by apply Nat.leb_le; vm_compute|by vm_compute|by vm_compute]. Qed.

(** When reads fail, both give the answer they give otherwise, or an error; they never panic. *)
Theorem C41_faults : forall fuel l i o, history fuel 1 l -> usable l i ->
  let w := world_after fuel l in
  match fst (do_prog (tree_height fuel) i o w) with
  | inl h => fst (do_prog (tree_height fuel) i [] w) = inl h
  | inr x => exists e, x = SErr e
  end /\
  match fst (do_prog (tree_print fuel) i o w) with
  | inl out => fst (do_prog (tree_print fuel) i [] w) = inl out
  | inr x => exists e, x = SErr e
  end.
Proof. exact debug_faults. Qed.
Print Assumptions C41_faults.
Example C41_faults_case : history 60 1 demo /\ usable demo 7 /\
  fst (do_prog (tree_print 60) 7 [FNone; FNone; FNone; FErr] demo_world) = inr (SErr (EBuildIterator EHypercore)).
Proof. a_case. Qed.

(** A consumer that runs between the items, as [print] does, sees the items of the stream. *)
Theorem C41_consumer : forall fuel conf n s,
  run (each (fun x l => Ret (l ++ [x])) fuel conf n []) s = run (trav fuel conf n) s.
Proof. exact each_is_trav. Qed.
Print Assumptions C41_consumer.
Example C41_consumer_case : exists s root, run (get_root false) (view demo_world 7 []) = (inl (Some root), s) /\
  exists its s', run (trav 60 default_config root) s = (inl (its, false), s') /\ length its = 21.
Proof. do 2 eexists. split; [by vm_compute|]. do 2 eexists. split; by vm_compute. Qed.

(** ** C42: a call on one key reads few blocks *)
Theorem C42_few_reads : forall fuel l i c o k, history fuel 1 l -> usable l i -> exists rs b L,
  play fuel l (new_world []) = (rs, world_after fuel l) /\ explains l empty_store rs b /\ level_bound L (length (s_entries b)) /\
  (read_bound c L = Some k -> call_reads fuel i c o (world_after fuel l) <= k)%nat.
Proof. exact few_reads. Qed.
Print Assumptions C42_few_reads.
Example C42_few_reads_case : history 60 1 demo /\ usable demo 7 /\ level_bound 2 21 /\ read_bound (CDel (kb 8)) 2 = Some 40 /\
  call_reads 60 7 (CDel (kb 8)) [] demo_world = 6.
Proof. split_and!; [case_hyp..|right; vm_compute; lia|case_hyp|case_hyp]. Qed.

(** ** C43: a handle fetches each block once *)
Theorem C43_fetched_once : forall fuel l i C rs w, Forall (fun e => uses e i -> single e) l ->
  play fuel l (new_world C) = (rs, w) -> answers_all i l rs ->
  (fetches fuel i l (new_world C) <= length (w_core w) + complaints i l rs + abandoned fuel i l (new_world C))%nat.
Proof. exact fetched_once. Qed.
Print Assumptions C43_fetched_once.
Example C43_fetched_once_case : let l := demo_calls ++
    [EvDrop 0 (CPut (kb 3) None) [FErr] 9; EvDrop 1 (CPut (kb 3) None) [] 9; EvReads [(1, CGet (kb 4), []); (2, CGet (kb 5), [])] [0; 1; 0; 1]; EvCall 0 (CGet (kb 3)) []] in
  exists rs w, Forall (fun e => uses e 0 -> single e) l /\ play 60 l (new_world []) = (rs, w) /\
  answers_all 0 l rs /\ length (w_core w) = 31 /\ complaints 0 l rs = 1 /\ abandoned 60 0 l (new_world []) = 2 /\ fetches 60 0 l (new_world []) = 25.
Proof.
  intros l. exists (fst (play 60 l (new_world []))), (snd (play 60 l (new_world []))). subst l.
  split.
  { vm_compute. repeat (apply Forall_cons; split; [try (intros _; exact I); try discriminate|]); [|apply Forall_nil; exact I].
    intros H. apply elem_of_cons in H as [|H]; [done|]. by apply elem_of_list_singleton in H. }
  split; [apply surjective_pairing|]. split_and!; [vm_compute; naive_solver|by vm_compute..].
Qed.

(** Calls that overlap are left out because three gets at once may read the same block three times. *)
Example C43_overlapping : let w := world_after 60 [EvCall 0 (CPut (kb 3) None) []] in
  let ts := map (task 60) (replicate 3 (1, CGet (kb 3), [])) in let sched := flat_map (fun _ => [0; 1; 2]) (seq 0 40) in
  length (w_core w) = 2 /\ tasks_reads sched ts w = 3 /\
  map (fun t => match th_prog t with Ret r => Some r | _ => None end) (fst (tasks_run sched ts w)) = replicate 3 (Some (RGet (Some (1, None)))).
Proof. by vm_compute. Qed.

(** ** C44: calls that are given up

    The histories of all the theorems contain calls that are given up
    ([EvDrop], [EvReads]); here is what one of them does. *)
Theorem C44_given_up : forall fuel l i c o k,
  history fuel 2 l -> usable l i -> call_ok c ->
  let w1 := world_after fuel (l ++ [EvDrop i c o k]) in
  exists rs b b1, play fuel l (new_world []) = (rs, world_after fuel l) /\ explains l empty_store rs b /\
    after_failure c b b1 /\ (reads_only c -> b1 = b /\ w_core w1 = w_core (world_after fuel l)) /\ behaves fuel (w_core w1) b1 /\
    (forall j c2, usable l j -> j <> i \/ reads_only c -> call_ok c2 -> fst (do_call fuel j c2 [] w1) = inl (fst (spec_call c2 b1))) /\
    forall j c2, usable l j \/ j = i -> call_ok c2 -> fst (do_call fuel j c2 [] (reopen i w1)) = inl (fst (spec_call c2 b1)).
Proof. exact given_up. Qed.
Print Assumptions C44_given_up.
Example C44_given_up_case : history 60 2 demo /\ usable demo 0 /\ call_ok (CDel (kb 8)) /\
  let w k := world_after 60 (demo ++ [EvDrop 0 (CDel (kb 8)) [] k]) in
  fst (do_call 60 1 (CGet (kb 8)) [] (w 40)) = inl (RGet (Some (9, Some (kb 8)))) /\
  fst (do_call 60 1 (CGet (kb 8)) [] (w 400)) = inl (RGet None).
Proof. a_case. Qed.

Theorem C44_reads : forall fuel l xs sched,
  history fuel 2 l -> Forall (fun x => usable l (fst (fst x)) /\ reads_only (snd (fst x)) /\ call_ok (snd (fst x))) xs ->
  let w1 := world_after fuel (l ++ [EvReads xs sched]) in
  w_core w1 = w_core (world_after fuel l) /\ forall j, usable l j -> answers_as fuel j w1 (world_after fuel l).
Proof. exact reads_given_up. Qed.
Print Assumptions C44_reads.
Example C44_reads_case : history 60 2 demo /\
  Forall (fun x => usable demo (fst (fst x)) /\ reads_only (snd (fst x)) /\ call_ok (snd (fst x))) ((7, CTraverse default_config, []) :: demo_readers) /\
  w_handles (world_after 60 (demo ++ [EvReads ((7, CTraverse default_config, []) :: demo_readers) (concat (repeat [0; 1; 2; 3] 9))])) 7 <> w_handles demo_world 7.
Proof.
  split; [case_hyp|]. split; [|].
  - repeat (apply List.Forall_cons; [split_and!; [case_hyp|exact I|first [exact I|case_hyp]]|]). constructor.
  - intros H. apply (f_equal (fun h => length (h_heap h))) in H. vm_compute in H. discriminate.
Qed.

(** ** C45: a handle after a write that was given up *)

(** False; but the handle need only be opened again (C44). *)
Theorem C45_put_refuted : exists fuel l i j k v n e,
  let w1 := world_after fuel (l ++ [EvDrop i (CPut k v) [] n]) in
  history fuel 2 l /\ usable l i /\ usable l j /\ call_ok (CPut k v) /\ w_core w1 = w_core (world_after fuel l) /\
  fst (do_call fuel i (CGet k) [] w1) = inl (RErr e) /\
  fst (do_call fuel i (CPut k v) [] w1) = inl (RErr e) /\
  fst (do_call fuel j (CGet k) [] w1) = inl (RGet None).
Proof. exact dropped_put_breaks_handle. Qed.
Print Assumptions C45_put_refuted.
Theorem C45_del_refuted : exists fuel l i j k k2 v2 n x q w2,
  let w1 := world_after fuel (l ++ [EvDrop i (CDel k) [] n]) in
  history fuel 3 l /\ usable l i /\ usable l j /\ call_ok (CDel k) /\ call_ok (CPut k2 v2) /\ k2 <> k /\
  w_core w1 = w_core (world_after fuel l) /\
  fst (do_call fuel i (CGet k) [] w1) = inl (RGet None) /\
  fst (do_call fuel j (CGet k) [] w1) = inl (RGet (Some x)) /\
  do_call fuel i (CPut k2 v2) [] w1 = (inl (RPut None q), w2) /\
  fst (do_call fuel j (CGet k) [] w2) = inl (RGet None).
Proof. exact dropped_del_breaks_handle. Qed.
Print Assumptions C45_del_refuted.

(** ** C46: a write while the same handle is read *)

(** False for deletion: a get makes it undo itself, or leave a key in the store twice. *)
Theorem C46_undone_refuted : exists fuel l ms k0 k x0 x,
  let y := lsys_run ms (l_both fuel l (CGet k0) (CDel k)) in
  history fuel 2 l /\ usable l 0 /\ k0 <> k /\
  fst (do_call fuel 0 (CGet k0) [] (world_after fuel l)) = inl (RGet (Some x0)) /\
  fst (do_call fuel 0 (CGet k) [] (world_after fuel l)) = inl (RGet (Some x)) /\
  l_answer y 0 = Some (RGet (Some x0)) /\ l_answer y 1 = Some (RDel (Some (fst x))) /\
  forall i, (i < 3)%nat -> fst (do_call fuel i (CGet k) [] (ls_world y)) = inl (RGet (Some x)).
Proof. exact get_undoes_del. Qed.
Print Assumptions C46_undone_refuted.
Theorem C46_doubled_refuted : exists fuel l ms k0 k x0 q e es1 es2,
  let y := lsys_run ms (l_both fuel l (CGet k0) (CDel k)) in
  history fuel 2 l /\ usable l 0 /\ k0 <> k /\
  fst (do_call fuel 0 (CGet k0) [] (world_after fuel l)) = inl (RGet (Some x0)) /\
  l_answer y 0 = Some (RGet (Some x0)) /\ l_answer y 1 = Some (RDel (Some q)) /\
  forall i, (i < 3)%nat -> fst (do_call fuel i (CTraverse default_config) [] (ls_world y)) = inl (RItems (map IOk (es1 ++ [e; e] ++ es2)) false).
Proof. exact get_doubles_key. Qed.
Print Assumptions C46_doubled_refuted.

(** For a put it holds, whatever the reads do: the reply, the bytes appended and all
    later answers are those of the put alone.  (With failures of the storage: the events
    [EvBusy] in the histories of all the theorems.) *)
Theorem C46_put_partial : forall fuel l i c xs sched,
  history fuel 2 l -> usable l i -> puts c -> call_ok c ->
  Forall (fun x => usable l (fst (fst x)) /\ reads_only (snd (fst x))) xs ->
  exists r w1 w2, do_busy fuel i c [] xs sched (world_after fuel l) = (inl r, w1) /\
    do_call fuel i c [] (world_after fuel l) = (inl r, w2) /\ w_core w1 = w_core w2 /\
    forall j, usable l j -> answers_as fuel j w1 w2.
Proof. exact busy_put. Qed.
Print Assumptions C46_put_partial.
Example C46_put_partial_case : let xs := [(7, CGet (kb 8), []); (7, CTraverse default_config, []); (0, CGet (kb 60), [FReadErr])] in
  let sched := concat (repeat [1; 0; 2; 0; 3] 12) in let c := CPut (kb 3) (Some (kb 1)) in
  history 60 2 demo /\ usable demo 7 /\ puts c /\ call_ok c /\ Forall (fun x => usable demo (fst (fst x)) /\ reads_only (snd (fst x))) xs /\
  fst (do_busy 60 7 c [] xs sched demo_world) = inl (RPut None 32) /\
  h_heap (w_handles (snd (do_busy 60 7 c [] xs sched demo_world)) 7) <> h_heap (w_handles (snd (do_call 60 7 c [] demo_world)) 7).
Proof.
  cbv zeta. split; [case_hyp|]. split; [case_hyp|]. split; [exact I|]. split; [case_hyp|]. split; [|split; [by vm_compute|]].
  - repeat (apply List.Forall_cons; [split; [case_hyp|exact I]|]). constructor.
  - intros H. apply (f_equal length) in H. vm_compute in H. discriminate.
Qed.

(** And it holds for every call that by itself would read no block, as a deletion does
    whose handle has read all it needs before: what is in the cache is not replaced. *)
Theorem C46_cached_partial : forall fuel l i c xs sched,
  history fuel 2 l -> usable l i -> puts c \/ call_reads fuel i c [] (world_after fuel l) = 0 -> call_ok c ->
  Forall (fun x => usable l (fst (fst x)) /\ reads_only (snd (fst x))) xs ->
  exists r w1 w2, do_busy fuel i c [] xs sched (world_after fuel l) = (inl r, w1) /\
    do_call fuel i c [] (world_after fuel l) = (inl r, w2) /\ w_core w1 = w_core w2 /\
    forall j, usable l j -> answers_as fuel j w1 w2.
Proof. exact busy_dry. Qed.
Print Assumptions C46_cached_partial.
(** The deletion of [C42_few_reads_case], which reads six blocks, after a stream of all entries. *)
Example C46_cached_partial_case : let l := demo ++ [EvCall 7 (CTraverse default_config) []] in let w := world_after 60 l in
  let xs := [(7, CGet (kb 8), []); (7, CTraverse default_config, []); (0, CGet (kb 60), [FReadErr])] in
  let sched := concat (repeat [1; 0; 2; 0; 3] 12) in let c := CDel (kb 8) in
  history 60 2 l /\ usable l 7 /\ call_reads 60 7 c [] w = 0 /\ call_ok c /\ Forall (fun x => usable l (fst (fst x)) /\ reads_only (snd (fst x))) xs /\
  fst (do_busy 60 7 c [] xs sched w) = inl (RDel (Some 9)).
Proof.
  cbv zeta. split; [case_hyp|]. split; [case_hyp|]. split; [by vm_compute|]. split; [case_hyp|]. split; [|by vm_compute].
  repeat (apply List.Forall_cons; [split; [case_hyp|exact I]|]). constructor.
Qed.

(** ** C47: the format of the blocks *)

(** A block is understood if, and only if, it is a message Node of schema.proto, in
    whatever form the wire format allows, and then for what it says. *)
Theorem C47_reads : forall raw nds key value, decode_block raw = DOk (Block nds key value) <-> block_message nds key value raw.
Proof. exact decode_exactly. Qed.
Print Assumptions C47_reads.
(** The key first, two unknown fields, an index that is overruled, and in the other one
    keys one by one and in a row, a number longer than needed and an unknown group. *)
Example C47_reads_case : let raw := map byte_of [18; 1; 120; 72; 133; 1; 10; 1; 255; 77; 1; 2; 3; 4;
    10; 20; 10; 18; 8; 3; 10; 3; 4; 133; 0; 75; 8; 9; 76; 16; 2; 18; 1; 0; 8; 6]%N in
  decode_block raw = DOk (Block [Node [3; 4; 5; 6] [(2, 0)]] (kb 120) None) /\
  encode_block (map to_level [Node [3; 4; 5; 6] [(2, 0)]]) (kb 120) None <> raw.
Proof. cbv zeta. split; [by vm_compute|]. intros H. apply (f_equal length) in H. vm_compute in H. discriminate. Qed.

(** Every block that is written is one, in one form only: encoding its content again
    gives the same bytes. *)
Theorem C47_blocks : forall fuel l v raw,
  history fuel 0 l -> w_core (world_after fuel l) !! v = Some raw -> (1 <= v)%nat ->
  exists nds key value, block_message nds key value raw /\ encode_block (map to_level nds) key value = raw.
Proof. exact own_block. Qed.
Print Assumptions C47_blocks.
Example C47_blocks_case : history 60 0 demo /\ (1 <= 31)%nat /\ length <$> w_core demo_world !! 31 = Some 30.
Proof. a_case. Qed.

(** Block 0 is a message Header. *)
Theorem C47_header : forall fuel l raw, history fuel 0 l -> w_core (world_after fuel l) !! 0 = Some raw ->
  exists md, header_message hyperbee md raw.
Proof. exact own_header. Qed.
Print Assumptions C47_header.
Example C47_header_case : history 60 0 demo /\ length <$> w_core demo_world !! 0 = Some 10.
Proof. a_case. Qed.
Theorem C47_header_metadata : forall feed user, metadata_ok (Some (Metadata feed user)) ->
  header_message hyperbee (Some (feed, user)) (header_block (Some (Metadata feed user))).
Proof. exact metadata_written. Qed.
Print Assumptions C47_header_metadata.
Example C47_header_metadata_case : metadata_ok (Some (Metadata (Some (kb 3)) None)) /\
  length (header_block (Some (Metadata (Some (kb 3)) None))) = 15.
Proof. split; by vm_compute. Qed.

(** ** C48: writers on different handles at the same time *)

(** False: a put that has been answered is lost, and so is an entry that was there
    before; two first puts that are given up leave a core nobody can use.  (One write
    after the other, through any handles and beside any reads: C24_handles_agree, C26_snapshot.) *)
Theorem C48_lost_refuted : exists fuel l ms k0 k1 v q0 q1,
  let y := lsys_run ms (l_apart fuel l (CPut k0 v) (CPut k1 v)) in
  history fuel 2 l /\ usable l 0 /\ usable l 1 /\ k0 <> k1 /\ (2 <= length (w_core (world_after fuel l)))%nat /\
  l_answer y 0 = Some (RPut None q0) /\ l_answer y 1 = Some (RPut None q1) /\ q0 <> q1 /\
  forall i, (i < 3)%nat -> fst (do_call fuel i (CGet k1) [] (ls_world y)) = inl (RGet None).
Proof. exact writers_collide. Qed.
Print Assumptions C48_lost_refuted.
Theorem C48_old_lost_refuted : exists fuel l ms k0 k1 v q q' x,
  let y := lsys_run ms (l_apart fuel l (CPut k0 v) (CPut k1 v)) in
  history fuel 2 l /\ usable l 0 /\ usable l 1 /\ k0 <> k1 /\
  fst (do_call fuel 0 (CGet k0) [] (world_after fuel l)) = inl (RGet (Some x)) /\
  l_answer y 0 = Some (RPut (Some q') q) /\ l_answer y 1 = Some (RPut None q) /\
  fst (do_call fuel 2 (CGet k0) [] (ls_world y)) = inl (RGet None).
Proof. exact writers_lose_old. Qed.
Print Assumptions C48_old_lost_refuted.
Theorem C48_headers_refuted : exists fuel ms k0 k1 v,
  let y := lsys_run ms (l_apart fuel [] (CPut k0 v) (CPut k1 v)) in
  history fuel 2 [] /\ k0 <> k1 /\ w_core (ls_world y) = [header_block None; header_block None] /\
  fst (do_call fuel 2 (CGet k0) [] (ls_world y)) = inl (RErr EDecode) /\
  fst (do_call fuel 2 (CPut k0 v) [] (ls_world y)) = inl (RErr EDecode).
Proof. exact two_headers. Qed.
Print Assumptions C48_headers_refuted.

(** ** C49: a write stores few bytes *)
Theorem C49_small_blocks : forall fuel l v raw,
  history fuel 0 l -> w_core (world_after fuel l) !! v = Some raw -> (1 <= v)%nat ->
  let C := w_core (world_after fuel l) in
  exists nds key value h T, block_at C v = Some (Block nds key value) /\ read_tree (S h) C (v, 0) = Some T /\
    (h = 0 \/ 2 * 5 ^ h <= length (inorder T) + 1)%nat /\
    (length raw <= 320 * (2 * h + 3) + 60 + length key + length (default [] value))%nat.
Proof. exact block_size. Qed.
Print Assumptions C49_small_blocks.
Example C49_small_blocks_case : history 60 0 demo /\ (1 <= 31)%nat /\ length <$> w_core demo_world !! 31 = Some 30.
Proof. a_case. Qed.

(** ** C50: only what the blocks say matters *)

(** Any core at all, a hostile one included, and any events. *)
Theorem C50_same_messages : forall fuel l C C', Forall2 says_same C C' ->
  exists rs D w w', play fuel l (new_world C) = (rs, w) /\ play fuel l (new_world C') = (rs, w') /\ w_core w = C ++ D /\ w_core w' = C' ++ D.
Proof. exact only_messages. Qed.
Print Assumptions C50_same_messages.
(** An unknown field has been added to every block but the first. *)
Example C50_same_messages_case :
  let C := w_core (world_after 60 [EvCall 0 (CPut (kb 1) (Some (kb 2))) []; EvCall 0 (CPut (kb 3) None) []]) in
  let C' := take 1 C ++ map (fun raw => kb 72 ++ kb 5 ++ raw) (drop 1 C) in
  Forall2 says_same C C' /\ C <> C' /\
  fst (play 60 [EvCall 0 (CGet (kb 1)) []; EvCall 1 (CPut (kb 4) None) []] (new_world C')) = [inl (RGet (Some (1, Some (kb 2)))); inl (RPut None 3)].
Proof.
  cbv zeta. split; [|split; [vm_compute; discriminate|by vm_compute]].
  match goal with |- Forall2 _ ?C ?C' => let c := eval vm_compute in C in let c' := eval vm_compute in C' in
    replace C' with c' by by vm_compute; replace C with c by by vm_compute end.
  constructor; [by left|]. do 2 (constructor; [eapply reads_same; by vm_compute|]). done.
Qed.

(** ** C51: memory handed to C programs *)

(** A C program that uses what it has opened and not closed, closes a Hyperbee when no
    get on it is under way and frees what it has been given once never makes the library
    do anything undefined. *)
Theorem C51_safe : forall fuel base l tr st k,
  creach fuel (cstart fuel base l) tr st -> keeps_rules empty_book tr -> allowed (book_of tr) k ->
  exists o st', cstep fuel k st = Some (o, st').
Proof. exact rules_safe. Qed.
Print Assumptions C51_safe.
Example C51_safe_case : exists tr st, creach 60 (cstart 60 20 demo) tr st /\ keeps_rules empty_book tr /\
  existsb got_b tr && (length (gets_of tr) =? 2)%nat && (length tr =? 248)%nat && allowed_b (book_of tr) (KInit true) = true.
Proof. apply (a_run 60 (cstart 60 20 demo) demo_c). by vm_compute. Qed.

(** What is allocated is what it has not given back; if that is nothing, nothing is left. *)
Theorem C51_no_leak : forall fuel base l tr st a,
  creach fuel (cstart fuel base l) tr st -> keeps_rules empty_book tr ->
  is_Some (alive (cs_mem st) a) <->
  a ∈ b_runtimes (book_of tr) \/ a ∈ b_bees (book_of tr) \/ a ∈ b_strings (book_of tr) \/ exists n, (a, n) ∈ b_buffers (book_of tr).
Proof. exact rules_owned. Qed.
Print Assumptions C51_no_leak.
Example C51_no_leak_case : exists tr st, creach 60 (cstart 60 20 demo) tr st /\ keeps_rules empty_book tr /\
  nothing_left st && (length (cs_mem st) =? 4)%nat = true.
Proof. apply (a_run 60 (cstart 60 20 demo) demo_c (fun tr st => nothing_left st && (length (cs_mem st) =? 4)%nat)). by vm_compute. Qed.

(** Every call of a callback answers its get with what is stored, in memory that is
    there and as long as it says; rules or no rules, and whatever else is under way. *)
Theorem C51_answers : forall fuel base l tr st k j code msg seq val len st',
  history fuel 1 l -> (forall i, (base <= i)%nat -> Forall (fun e => ~ uses e i) l) ->
  creach fuel (cstart fuel base l) tr st -> cstep fuel k st = Some (OCallback j code msg seq val len, st') ->
  exists bee key o v, gets_of tr !! j = Some (bee, key, o) /\ code = 0%Z /\ at_ptr (cs_mem st') msg = Some OString /\
    (at_ptr (cs_mem st') val = Some (OBuffer v) \/ (val = PEmpty /\ v = [])) /\ length v = len /\
    forall i, usable l i -> fst (do_call fuel i (CGet key) [] (world_after fuel l)) = inl (RGet (Some (seq, Some v))).
Proof. exact callbacks_right. Qed.
Print Assumptions C51_answers.
Example C51_answers_case : history 60 1 demo /\ (forall i, (20 <= i)%nat -> Forall (fun e => ~ uses e i) demo) /\
  exists tr st, creach 60 (cstart 60 20 demo) tr st /\ keeps_rules empty_book tr /\ existsb got_b tr = true.
Proof. split; [a_case|]. split; [apply not_used; by vm_compute|]. apply (a_run 60 (cstart 60 20 demo) demo_c (fun tr _ => existsb got_b tr)). by vm_compute. Qed.

(** No get is answered twice. *)
Theorem C51_once : forall fuel st0 tr st, creach fuel st0 tr st -> forall j n n' x x', tr !! n = Some x -> tr !! n' = Some x' ->
  answers_get j x -> answers_get j x' -> n = n'.
Proof. exact answered_once. Qed.
Print Assumptions C51_once.
Example C51_once_case : exists tr st, creach 60 (cstart 60 20 demo) tr st /\ keeps_rules empty_book tr /\ existsb got_b tr = true.
Proof. apply (a_run 60 (cstart 60 20 demo) demo_c (fun tr _ => existsb got_b tr)). by vm_compute. Qed.

(** ** C52: close_hyperbee while a get is under way *)

(** False: the task goes on with memory that has been freed. *)
Theorem C52_close_refuted : exists fuel base l tr st hb,
  history fuel 1 l /\ creach fuel (cstart fuel base l) (tr ++ [(KCloseBee hb, ONothing)]) st /\ keeps_rules empty_book tr /\
  (exists a, hb = PAt a /\ a ∈ b_bees (book_of tr)) /\ cstep fuel (KStep 0) st = None.
Proof. exact close_under_get. Qed.
Print Assumptions C52_close_refuted.

(** ** C53: a del that overlaps a put on the same handle *)

(** False: it answers with its own key's entry and removes that of another key, for good. *)
Theorem C53_refuted : exists fuel l ms k k1 k0 v q x x1,
  let y := lsys_run ms (l_both fuel l (CDel k) (CPut k0 v)) in
  history fuel 2 l /\ usable l 0 /\ k <> k1 /\
  fst (do_call fuel 0 (CGet k) [] (world_after fuel l)) = inl (RGet (Some x)) /\
  fst (do_call fuel 0 (CGet k1) [] (world_after fuel l)) = inl (RGet (Some x1)) /\
  l_answer y 1 = Some (RPut None q) /\ l_answer y 0 = Some (RDel (Some (fst x))) /\
  forall i, (i < 3)%nat -> fst (do_call fuel i (CGet k) [] (ls_world y)) = inl (RGet (Some x)) /\
    fst (do_call fuel i (CGet k1) [] (ls_world y)) = inl (RGet None).
Proof. exact del_other_key. Qed.
Print Assumptions C53_refuted.

(** ** C54: answers are borne out by blocks *)

(** Any core, whoever wrote it; any calls before, failed, given up or at the same time;
    any calls at the same time on any handles, writes or not, with any failures of the
    core.  An answer that names a block is about what that block holds, for the key of
    the call; only a get needs that no write on its handle is among them for the key to
    be its own. *)
Theorem C54_concurrent : forall fuel C l xs sched ts w quiet,
  Forall (fun x => quiet (fst (fst x)) = true -> reads_only (snd (fst x))) xs ->
  tasks_run sched (map (task fuel) xs) (snd (play fuel l (new_world C))) = (ts, w) ->
  forall j i c o i' o' r, xs !! j = Some (i, c, o) -> ts !! j = Some (Thread i' (Ret r) o') -> borne_out (w_core w) (quiet i) c r.
Proof. exact tasks_borne_out. Qed.
Print Assumptions C54_concurrent.
(** The get answers with the value of another key, the del of a stored key has been
    overtaken, and the put is not yet done. *)
Example C54_concurrent_case :
  let xs := [(0, CGet (kb 4), []); (0, CPut (kb 1) None, []); (1, CDel (kb 6), []); (2, CPut (kb 6) None, [])] in
  let x := tasks_run (repeat 0 12 ++ repeat 1 300 ++ repeat 0 300 ++ repeat 3 30 ++ repeat 2 300) (map (task 60) xs) (snd (play 60 three_keys (new_world []))) in
  fst x !! 0 = Some (Thread 0 (Ret (RGet (Some (1, Some (kb 2))))) []) /\ fst x !! 2 = Some (Thread 1 (Ret (RDel (Some 3))) []) /\
  Forall (fun x : nat * call * list fault => bool_decide (fst (fst x) = 7) = true -> reads_only (snd (fst x))) xs.
Proof. cbv zeta. split; [by vm_compute|]. split; [by vm_compute|]. by repeat constructor. Qed.

(** A call on its own. *)
Theorem C54_alone : forall fuel C l i c o r w,
  do_call fuel i c o (snd (play fuel l (new_world C))) = (inl r, w) -> borne_out (w_core w) true c r.
Proof. exact alone_borne_out. Qed.
Print Assumptions C54_alone.
Example C54_alone_case : fst (do_call 60 0 (CGet (kb 4)) [] (snd (play 60 three_keys (new_world [])))) = inl (RGet (Some (2, Some (kb 4)))).
Proof. by vm_compute. Qed.

(** No block says anything that was not there before or in a call. *)
Theorem C54_nothing_invented : forall fuel C l xs sched ts w,
  tasks_run sched (map (task fuel) xs) (snd (play fuel l (new_world C))) = (ts, w) ->
  Forall (fun raw => u64 (blen raw)) (w_core w) -> forall q k v, block_holds (w_core w) q k v ->
  block_holds C q k v \/ exists c, c ∈ concat (map all_calls l) ++ map (fun x => snd (fst x)) xs /\ brings c k v.
Proof. exact nothing_invented. Qed.
Print Assumptions C54_nothing_invented.
Example C54_nothing_invented_case :
  let xs := [(0, CPut (kb 1) (Some (kb 9)), []); (1, CDel (kb 6), [])] in
  let x := tasks_run (repeat 0 12 ++ repeat 1 300 ++ repeat 0 300) (map (task 60) xs) (snd (play 60 three_keys (new_world []))) in
  Forall (fun raw => u64 (blen raw)) (w_core (snd x)) /\ length (w_core (snd x)) = 6 /\
  match decode_block <$> w_core (snd x) !! 5 with Some (DOk b) => b_key b = kb 1 /\ b_value b = Some (kb 9) | _ => False end.
Proof. cbv zeta. split; [apply short_check; by vm_compute|]. by vm_compute. Qed.

(** ** C55: beside or after a write that is not complete, reads show current entries *)

(** The reads run beside the write, which may fail or never come to its end; each of
    them shows entries of the store before it, or the one it puts. *)
Theorem C55_beside_a_write : forall fuel l, history fuel 1 l -> (1 <= length (w_core (world_after fuel l)))%nat -> (N.of_nat fuel < 2 ^ 50)%N ->
  forall i c o xs sched ts w, usable l i -> Forall (fun x => usable l (fst (fst x)) /\ reads_only (snd (fst x))) xs ->
  tasks_run sched (map (task fuel) ((i, c, o) :: xs)) (world_after fuel l) = (ts, w) -> Forall (fun raw => u64 (blen raw)) (w_core w) ->
  forall j i0 h r o', usable l i0 -> (j < length xs)%nat -> ts !! S j = Some (Thread h (Ret r) o') -> old_or_put fuel (world_after fuel l) i0 c r.
Proof. exact beside_a_write. Qed.
Print Assumptions C55_beside_a_write.
(** The get answers with the value of another key, the stream shows the new entry before it is stored. *)
Example C55_beside_a_write_case :
  let xs := [(0, CGet (kb 4), []); (0, CTraverse default_config, [])] in
  let x := tasks_run (repeat 1 12 ++ repeat 0 20 ++ repeat 2 300 ++ repeat 0 300 ++ repeat 1 300) (map (task 60) ((0, CPut (kb 1) None, []) :: xs)) (world_after 60 three_keys) in
  history 60 1 three_keys /\ usable three_keys 0 /\ (1 <= length (w_core (world_after 60 three_keys)))%nat /\ 
  Forall (fun x : nat * call * list fault => usable three_keys (fst (fst x)) /\ reads_only (snd (fst x))) xs /\
  Forall (fun raw => u64 (blen raw)) (w_core (snd x)) /\
  fst x !! 1 = Some (Thread 0 (Ret (RGet (Some (1, Some (kb 2))))) []) /\
  fst x !! 2 = Some (Thread 0 (Ret (RItems (map IOk [KV 4 (kb 1) None; KV 1 (kb 2) (Some (kb 2)); KV 2 (kb 4) (Some (kb 4)); KV 3 (kb 6) (Some (kb 6))]) false)) []).
Proof.
  cbv zeta. split_and!; try case_hyp; [|apply short_check; by vm_compute]. repeat (apply List.Forall_cons; [split; case_hyp|]). constructor.
Qed.

(** The write was given up, wherever it was. *)
Theorem C55_given_up : forall fuel l, history fuel 1 l -> (1 <= length (w_core (world_after fuel l)))%nat -> (N.of_nat fuel < 2 ^ 50)%N ->
  forall i c o k xs sched ts w, usable l i -> Forall (fun x => usable l (fst (fst x)) /\ reads_only (snd (fst x))) xs ->
  tasks_run sched (map (task fuel) xs) (world_after fuel (l ++ [EvDrop i c o k])) = (ts, w) -> Forall (fun raw => u64 (blen raw)) (w_core w) ->
  forall j i0 h r o', usable l i0 -> ts !! j = Some (Thread h (Ret r) o') -> old_or_put fuel (world_after fuel l) i0 c r.
Proof. exact after_giving_up. Qed.
Print Assumptions C55_given_up.
(** A del given up before its block is appended; through its handle the entry is gone. *)
Example C55_given_up_case :
  let xs := [(5, CGet (kb 8), []); (5, CTraverse default_config, [])] in
  let x := tasks_run (repeat 0 300 ++ repeat 1 600) (map (task 60) xs) (world_after 60 (two_blocks ++ [EvDrop 5 (CDel (kb 8)) [] 43])) in
  history 60 1 two_blocks /\ usable two_blocks 5 /\ (1 <= length (w_core (world_after 60 two_blocks)))%nat /\
  Forall (fun x : nat * call * list fault => usable two_blocks (fst (fst x)) /\ reads_only (snd (fst x))) xs /\
  Forall (fun raw => u64 (blen raw)) (w_core (snd x)) /\ length (w_core (snd x)) = length (w_core (world_after 60 two_blocks)) /\
  fst (do_call 60 1 (CGet (kb 8)) [] (world_after 60 two_blocks)) = inl (RGet (Some (10, Some (kb 8)))) /\
  fst x !! 0 = Some (Thread 5 (Ret (RGet None)) []) /\
  match fst x !! 1 with Some (Thread _ (Ret (RItems its _)) _) => length its = 8 | _ => False end.
Proof.
  cbv zeta. split_and!; try case_hyp; [|apply short_check; by vm_compute|by vm_compute]. repeat (apply List.Forall_cons; [split; case_hyp|]). constructor.
Qed.

(** ** C56: a stream reads blocks in proportion to what it shows *)
Theorem C56_scan_reads : forall fuel l i conf its b, history fuel 1 l -> usable l i ->
  fst (do_call fuel i (CTraverse conf) [] (world_after fuel l)) = inl (RItems its b) -> exists rs s L,
  play fuel l (new_world []) = (rs, world_after fuel l) /\ explains l empty_store rs s /\ level_bound L (length (s_entries s)) /\
  (call_reads fuel i (CTraverse conf) [] (world_after fuel l) <= 4 * length its + 12 * L + 6)%nat.
Proof. exact scan_reads. Qed.
Print Assumptions C56_scan_reads.
Example C56_scan_reads_case : let conf := Config (Finite (kb 5)) true (Finite (kb 8)) false true in
  history 60 1 demo /\ usable demo 7 /\ level_bound 2 21 /\
  match fst (do_call 60 7 (CTraverse conf) [] demo_world) with inl (RItems its _) => length its = 3 | _ => False end /\
  call_reads 60 7 (CTraverse conf) [] demo_world = 9 /\ call_reads 60 7 (CTraverse default_config) [] demo_world = 21.
Proof. cbv zeta. split_and!; [case_hyp..|right; vm_compute; lia|by vm_compute|case_hyp|case_hyp]. Qed.

(** ** C57: the rules for C programs ask for no more than safety needs *)

(** What they forbid is undefined behaviour, at once or, for closing a Hyperbee under a
    get, once that get goes on. *)
Theorem C57_rules_needed : forall fuel base l tr st k,
  creach fuel (cstart fuel base l) tr st -> keeps_rules empty_book tr -> ~ allowed (book_of tr) k ->
  cstep fuel k st = None \/ exists a j rt, k = KCloseBee (PAt a) /\ (j, rt, a) ∈ b_gets (book_of tr).
Proof. exact rules_needed. Qed.
Print Assumptions C57_rules_needed.
(** A buffer is freed with another length; a Hyperbee is closed twice. *)
Example C57_rules_needed_case :
  exists tr st tr' st', creach 60 (cstart 60 20 demo) tr st /\ keeps_rules empty_book tr /\ ~ allowed (book_of tr) (KFreeBuffer (PAt 2) 3) /\
    is_Some (cstep 60 (KFreeBuffer (PAt 2) 1) st) /\
    creach 60 (cstart 60 20 demo) tr' st' /\ keeps_rules empty_book tr' /\ ~ allowed (book_of tr') (KCloseBee (PAt 1)).
Proof.
  destruct (a_run 60 (cstart 60 20 demo) (firstn 244 demo_c) (fun tr st =>
    negb (existsb (fun x => (fst x =? 2)%nat && (snd x =? 3)%nat) (b_buffers (book_of tr))) &&
    match cstep 60 (KFreeBuffer (PAt 2) 1) st with Some _ => true | None => false end)) as (tr & st & H1 & H2 & H3); [by vm_compute|].
  destruct (a_run 60 (cstart 60 20 demo) demo_c (fun tr st => negb (in_b 1 (b_bees (book_of tr))))) as (tr' & st' & H1' & H2' & H3'); [by vm_compute|].
  apply andb_true_iff in H3 as [H3 H4]. exists tr, st, tr', st'. split_and!; try done.
  - intros [[? _]|(a & [= <-] & Ha)]; [done|]. apply negb_true_iff in H3. apply not_true_iff_false in H3. apply H3. apply existsb_exists.
    exists (2, 3). split; [by apply elem_of_list_In|done].
  - destruct (cstep 60 _ st); [by eexists|done].
  - intros (a & [= <-] & Ha & _). apply negb_true_iff in H3'. apply not_true_iff_false in H3'. apply H3'. apply existsb_exists.
    exists 1. split; [by apply elem_of_list_In|done].
Qed.

(** A Hyperbee is closed while a get on it reads: neither can the get go on nor can the
    runtime be closed. *)
Theorem C57_close_needed : forall fuel base l tr st a j t o st',
  creach fuel (cstart fuel base l) tr st -> keeps_rules empty_book tr ->
  cs_tasks st !! j = Some t -> gt_run t = true -> gt_bee t = a -> ~ over (gt_prog t) -> cstep fuel (KCloseBee (PAt a)) st = Some (o, st') ->
  (j, gt_rt t, a) ∈ b_gets (book_of tr) /\ cstep fuel (KStep j) st' = None /\ cstep fuel (KCloseRuntime (PAt (gt_rt t))) st' = None.
Proof. exact close_needed. Qed.
Print Assumptions C57_close_needed.
Example C57_close_needed_case :
  exists tr st t o st', creach 60 (cstart 60 20 demo) tr st /\ keeps_rules empty_book tr /\ cs_tasks st !! 0 = Some t /\ gt_run t = true /\
    gt_bee t = 1 /\ ~ over (gt_prog t) /\ cstep 60 (KCloseBee (PAt 1)) st = Some (o, st').
Proof.
  destruct (a_run 60 (cstart 60 20 demo) [KInit true; KOpen (PAt 0) true true; KGet (PAt 0) (PAt 1) (Some (kb 8)) []; KStep 0; KStep 0] (fun tr st =>
    match cs_tasks st !! 0 with Some t => gt_run t && (gt_bee t =? 1)%nat && match gt_prog t with Ret _ | Stop _ => false | _ => true end | None => false end &&
    match cstep 60 (KCloseBee (PAt 1)) st with Some _ => true | None => false end)) as (tr & st & H1 & H2 & H3); [by vm_compute|].
  apply andb_true_iff in H3 as [H3 H4]. destruct (cs_tasks st !! 0) as [t|] eqn:Et; [|done].
  apply andb_true_iff in H3 as [[H3 H5%Nat.eqb_eq]%andb_true_iff H6]. destruct (cstep 60 _ st) as [[o st']|] eqn:Ec; [|done].
  exists tr, st, t, o, st'. split_and!; try done. intros Ho. by destruct (gt_prog t).
Qed.

(** ** C58: cores that others wrote *)

(** On any core that holds a B-tree, however it is laid out, histories, faults included,
    are answered as by a store with its entries, and what they leave holds the entries
    of that store again. *)
Theorem C58_any_core : forall fuel C m l, found C m -> trusted nobody l -> Forall event_ok l ->
  (Nat.max 1 (length C) + length l <= fuel)%nat -> (N.of_nat (Nat.max 1 (length C) + length l) < 2 ^ 50)%N ->
  exists rs w b, play fuel l (new_world C) = (rs, w) /\ explains l (Store (length C) m) rs b /\
    length (w_core w) = s_blocks b /\ C `prefix_of` w_core w /\ found (w_core w) (s_entries b).
Proof. exact foreign_core. Qed.
Print Assumptions C58_any_core.
(** Nine keys in a core the library would not write; a del that merges all nodes, among others. *)
Example C58_any_core_case :
  let l := [EvCall 0 (CDel (kb 5)) []; EvCall 1 (CPut (kb 50) None) [FNone; FErr]; EvReopen 1; EvCall 0 (CDel (kb 1)) []; EvCall 1 (CGet (kb 2)) []] in
  found strange strange_entries /\ trusted nobody l /\ Forall event_ok l /\ (Nat.max 1 (length strange) + length l <= 60)%nat /\
  (N.of_nat (Nat.max 1 (length strange) + length l) < 2 ^ 50)%N /\
  fst (play 60 l (new_world strange)) = map Datatypes.inl [RDel (Some 5); RErr EHypercore; RDel (Some 1); RGet (Some (2, Some (kb 2)))].
Proof.
  cbv zeta. split; [exact strange_found|]. match goal with |- trusted _ ?l /\ _ => assert (history 60 0 l) as (H1 & H2 & _) by case_hyp end. split_and!; [done|done|by apply Nat.leb_le|by vm_compute|by vm_compute].
Qed.

(** Without faults the answers are those of [spec_call]. *)
Theorem C58_behaves : forall fuel C m, found C m -> behaves fuel C (Store (length C) m).
Proof. exact foreign_behaves. Qed.
Print Assumptions C58_behaves.
Example C58_behaves_case : found strange strange_entries /\ length strange = 10 /\ length strange_entries = 9.
Proof. split; [exact strange_found|]. a_case. Qed.

(** ** C59: the bound on loops *)

(** On any core, well formed or not: a call that ends within some number of rounds of its loops
    ends in the same way however many more it may take. *)
Theorem C59_bound : forall fuel fuel' i c o w, (fuel <= fuel')%nat ->
  fst (do_call fuel i c o w) <> inr SDiverge -> do_call fuel' i c o w = do_call fuel i c o w.
Proof. exact call_mono. Qed.
Print Assumptions C59_bound.
(** Two rounds are needed: the key is one level below the root. *)
Example C59_bound_case : (2 <= 60)%nat /\ fst (do_call 2 0 (CGet (kb 8)) [] demo_world) = inl (RGet (Some (9, Some (kb 8)))) /\
  fst (do_call 1 0 (CGet (kb 8)) [] demo_world) = inr SDiverge.
Proof. a_case. Qed.

Theorem C59_sub_bound : forall fuel fuel' i pre sep c o w, (fuel <= fuel')%nat ->
  fst (do_sub fuel i pre sep c o w) <> inr SDiverge -> do_sub fuel' i pre sep c o w = do_sub fuel i pre sep c o w.
Proof. exact sub_mono. Qed.
Print Assumptions C59_sub_bound.
Example C59_sub_bound_case : (2 <= 60)%nat /\ fst (do_sub 2 0 [] [] (SGet (kb 8)) [] demo_world) = inl (RGet (Some (9, Some (kb 8)))).
Proof. a_case. Qed.

Theorem C59_print_bound : forall fuel fuel' i o w, (fuel <= fuel')%nat ->
  fst (do_prog (tree_print fuel) i o w) <> inr SDiverge -> do_prog (tree_print fuel') i o w = do_prog (tree_print fuel) i o w.
Proof. exact print_mono. Qed.
Print Assumptions C59_print_bound.
Example C59_print_bound_case : (3 <= 60)%nat /\ fst (do_prog (tree_print 3) 0 [] demo_world) <> inr SDiverge.
Proof. a_case. Qed.

(** The binary search within a node ends, whatever the node and the blocks hold. *)
Theorem C59_search_ends : forall n key i o w, fst (do_prog (get_index_of_key n key) i o w) <> inr SDiverge.
Proof. exact search_ends. Qed.
Print Assumptions C59_search_ends.
(** A node whose keys are not in order. *)
Example C59_search_ends_case : let w := World (w_core demo_world) (fun _ => Handle ∅ [Node [9; 3; 20; 2; 7] []]) in
  fst (do_prog (get_index_of_key 0 (Finite (kb 9))) 0 [] w) = inl (None, 1).
Proof. a_case. Qed.

(** ** C60: calls on one handle do not wait for each other for ever *)

(** False.  A stream asks for the number of children of a node while it holds the node for
    the number of keys; when a put asks for the node in between, each of the two waits for the
    other, however often they are polled. *)
Theorem C60_stream_put_refuted : exists fuel l ms k v,
  let y := lsys_run ms (lsys_start fuel [(0, CTraverse default_config, []); (0, CPut k v, [])] (world_after fuel l)) in
  history fuel 2 l /\ usable l 0 /\ call_ok (CPut k v) /\ stuck y /\ waits_for_itself y 0 /\ forall js, lsys_run (map LPoll js) y = y.
Proof. exact stream_and_put. Qed.
Print Assumptions C60_stream_put_refuted.

(** A stream that is not polled while the storage reads a block for it keeps the lock of
    its node: a put waits as long. *)
Theorem C60_paused_stream_refuted : exists fuel l ms k v,
  let y := lsys_run ms (lsys_start fuel [(1, CTraverse default_config, []); (1, CPut k v, [])] (world_after fuel l)) in
  history fuel 2 l /\ usable l 1 /\ call_ok (CPut k v) /\ blocked y 1 /\ ~ blocked y 0 /\ forall n, lsys_run (repeat (LPoll 1) n) y = y.
Proof. exact stream_and_put_paused. Qed.
Print Assumptions C60_paused_stream_refuted.

(** A del alone, on a core whose root has one node as two children, waits for itself. *)
Theorem C60_del_refuted : exists fuel C ms k,
  let y := lsys_run ms (lsys_start fuel [(0, CDel k, [])] (new_world C)) in
  stuck y /\ waits_for_itself y 0 /\ forall js, lsys_run (map LPoll js) y = y.
Proof. exact del_alone. Qed.
Print Assumptions C60_del_refuted.

(** There is no other way, as long as there is at most one del at a time on a handle: whatever
    the core holds, whichever calls run and are given up, in any order, if all that are left
    wait then one of them, a stream or a del, waits for a lock it holds itself. *)
Theorem C60_causes_partial : forall fuel xs w ms,
  (forall a b i c c' o o', xs !! a = Some (i, c, o) -> xs !! b = Some (i, c', o') -> deletes c -> deletes c' -> a = b) ->
  let y := lsys_run ms (lsys_start fuel xs w) in stuck y ->
  exists j i c o, xs !! j = Some (i, c, o) /\ (streams c \/ deletes c) /\ waits_for_itself y j.
Proof. exact stuck_causes. Qed.
Print Assumptions C60_causes_partial.
Example C60_causes_partial_case :
  let xs := [(0, CTraverse default_config, []); (0, CPut (kb 2) None, []); (0, CDel (kb 1), [])] in
  let w := world_after 60 [EvCall 0 (CPut (kb 1) None) []] in
  (forall a b i c c' o o', xs !! a = Some (i, c, o) -> xs !! b = Some (i, c', o') -> deletes c -> deletes c' -> a = b) /\
  stuck (lsys_run (repeat (LPoll 0) 12 ++ repeat (LPoll 1) 100 ++ repeat (LPoll 2) 100 ++ repeat (LPoll 0) 3) (lsys_start 60 xs w)).
Proof.
  split; [|apply stuck_b_spec; by vm_compute].
  intros [|[|[|a]]] [|[|[|b]]] i c c' o o' Ha Hb Hc Hc'; try done; cbn in *; simplify_eq; done.
Qed.

(** Calls of which those on one handle are gets and puts only (and versions and headers), or
    reads only (streams, too), come to an end from wherever they got to, when they are polled
    as long as it takes; also when some were given up. *)
Theorem C60_ends_partial : forall fuel xs w ms,
  (forall i, (forall c o, In (i, c, o) xs -> ~ streams c /\ ~ deletes c) \/ (forall c o, In (i, c, o) xs -> reads_only c)) ->
  exists js, Forall (fun t => l_over t = true) (ls_tasks (lsys_run (ms ++ map LPoll js) (lsys_start fuel xs w))).
Proof. exact calm_ends. Qed.
Print Assumptions C60_ends_partial.
(** Two puts and a get on one handle, two streams and a get on another; when each has been polled 49 times, two of them wait. *)
Example C60_ends_partial_case :
  let xs := [(0, CPut (kb 3) None, []); (0, CPut (kb 8) None, []); (0, CGet (kb 5), []);
             (1, CTraverse default_config, []); (1, CTraverse default_config, []); (1, CGet (kb 60), [])] in
  let y := lsys_run (concat (repeat (map LPoll [0; 1; 2; 3; 4; 5]) 49)) (lsys_start 60 xs demo_world) in
  (forall i, (forall c o, In (i, c, o) xs -> ~ streams c /\ ~ deletes c) \/ (forall c o, In (i, c, o) xs -> reads_only c)) /\
  map (blocked_b y) [0; 1; 2; 3; 4; 5] = [false; false; false; true; false; true].
Proof.
  split; [|by vm_compute].
  intros [|i]; [left|right]; intros c o H; cbn in H; naive_solver.
Qed.

(** ** C61: the locks only forbid interleavings *)

(** The programs with locks are those of the model; whatever calls with locks do, being polled
    and given up in any order, they also do without, in some order: the same core, caches,
    nodes and answers.  (So the theorems about all interleavings cover those the locks allow.) *)
Theorem C61_locks_restrict : forall fuel xs w ms, let y := lsys_run ms (lsys_start fuel xs w) in
  exists sched, ls_world y = snd (tasks_run sched (map (task fuel) xs) w) /\
    forall j r, l_answer y j = Some r -> th_prog <$> fst (tasks_run sched (map (task fuel) xs) w) !! j = Some (Ret r).
Proof. exact locks_restrict. Qed.
Print Assumptions C61_locks_restrict.
(** A put and a get on one handle, by turns; both answer. *)
Example C61_locks_restrict_case : let xs := [(0, CPut (kb 3) None, []); (0, CGet (kb 5), [])] in
  let y := lsys_run (concat (repeat (map LPoll [0; 1]) 300)) (lsys_start 60 xs demo_world) in
  l_answer y 0 = Some (RPut None 32) /\ l_answer y 1 = Some (RGet (Some (30, Some (kb 9)))).
Proof. by vm_compute. Qed.

(** ** C62: calls on handles of their own wait for nothing *)

(** In the lock model a call that runs alone, after any history, on any usable handle and
    under any storage faults, comes to an end; it answers and leaves what the call answers and
    leaves in the model without locks, and gives all locks back.  At no moment does it wait for
    a lock that it cannot get. *)
Theorem C62_alone : forall fuel l i c o, history fuel 1 l -> usable l i -> call_ok c ->
  let y n := lsys_run (repeat (LPoll 0) n) (lsys_start fuel [(i, c, o)] (world_after fuel l)) in
  (forall n, ~ blocked (y n) 0) /\
  exists r w' n, do_call fuel i c o (world_after fuel l) = (Datatypes.inl r, w') /\
    l_answer (y n) 0 = Some r /\ ls_reqs (y n) = [] /\
    w_core (ls_world (y n)) = w_core w' /\ forall j, w_handles (ls_world (y n)) j = w_handles w' j.
Proof. exact call_alone. Qed.
Print Assumptions C62_alone.
(** A del after 59 puts; polled 248 times it holds the four locks of a merge of two nodes. *)
Example C62_alone_case :
  let l := map (fun i => EvCall 0 (CPut (kb i) None) []) (seq 0 59) in
  let y n := lsys_run (repeat (LPoll 0) n) (lsys_start 100 [(0, CDel (kb 7), [])] (world_after 100 l)) in
  history 100 1 l /\ usable l 0 /\ call_ok (CDel (kb 7)) /\
  l_answer (y 248) 0 = None /\ length (ls_reqs (y 248)) = 4 /\ l_answer (y 4000) 0 = Some (RDel (Some 8)).
Proof. a_case. Qed.

(** On cores that others wrote, too, if they hold a B-tree. *)
Theorem C62_any_core : forall fuel C m l i c o, found C m -> trusted nobody l -> Forall event_ok l ->
  (Nat.max 1 (length C) + length l < fuel)%nat -> (N.of_nat (Nat.max 1 (length C) + length l) + 1 < 2 ^ 50)%N -> usable l i -> call_ok c ->
  let w := snd (play fuel l (new_world C)) in
  let y n := lsys_run (repeat (LPoll 0) n) (lsys_start fuel [(i, c, o)] w) in
  (forall n, ~ blocked (y n) 0) /\
  exists r w' n, do_call fuel i c o w = (Datatypes.inl r, w') /\
    l_answer (y n) 0 = Some r /\ ls_reqs (y n) = [] /\
    w_core (ls_world (y n)) = w_core w' /\ forall j, w_handles (ls_world (y n)) j = w_handles w' j.
Proof. exact call_alone_any. Qed.
Print Assumptions C62_any_core.
(** A del that merges all nodes of a core the library would not write. *)
Example C62_any_core_case :
  let y n := lsys_run (repeat (LPoll 0) n) (lsys_start 60 [(0, CDel (kb 5), [])] (snd (play 60 [EvCall 0 (CGet (kb 1)) []] (new_world strange)))) in
  found strange strange_entries /\ (Nat.max 1 (length strange) + 1 < 60)%nat /\ usable [EvCall 0 (CGet (kb 1)) []] 0 /\
  l_answer (y 1000) 0 = Some (RDel (Some 5)).
Proof. split; [exact strange_found|]. a_case; try by apply Nat.ltb_lt. Qed.

(** Calls on handles of their own do not hold each other up, in whatever order they are polled
    and whichever are given up: nobody ever waits, and all come to an end.  Nothing is asked of
    the store unless one of them is a del; beside a del the others only read. *)
Theorem C62_apart : forall fuel w xs ms,
  (forall a b i c c' o o', xs !! a = Some (i, c, o) -> xs !! b = Some (i, c', o') -> a = b) ->
  (forall j i c o, xs !! j = Some (i, c, o) -> deletes c -> call_ok c /\ (exists l, history fuel 1 l /\ usable l i /\ w = world_after fuel l) /\
    forall j' i' c' o', xs !! j' = Some (i', c', o') -> j' <> j -> reads_only c') ->
  (forall j, ~ blocked (lsys_run ms (lsys_start fuel xs w)) j) /\
  exists js, Forall (fun t => l_over t = true) (ls_tasks (lsys_run (ms ++ map LPoll js) (lsys_start fuel xs w))).
Proof. exact calls_apart. Qed.
Print Assumptions C62_apart.
(** A del, a stream and a get, by turns; after 22 turns all three hold locks. *)
Example C62_apart_case :
  let l := map (fun i => EvCall 0 (CPut (kb i) None) []) (seq 0 59) in
  let xs := [(0, CDel (kb 7), []); (1, CTraverse default_config, []); (2, CGet (kb 30), [])] in
  let y n := lsys_run (concat (repeat (map LPoll [0; 1; 2]) n)) (lsys_start 100 xs (world_after 100 l)) in
  (forall a b i c c' o o', xs !! a = Some (i, c, o) -> xs !! b = Some (i, c', o') -> a = b) /\
  (forall j i c o, xs !! j = Some (i, c, o) -> deletes c -> call_ok c /\ (exists l', history 100 1 l' /\ usable l' i /\ world_after 100 l = world_after 100 l') /\
    forall j' i' c' o', xs !! j' = Some (i', c', o') -> j' <> j -> reads_only c') /\
  map rq_task (ls_reqs (y 22)) = [2; 0; 1; 2; 0; 1; 1] /\ l_answer (y 1000) 0 = Some (RDel (Some 8)).
Proof.
  cbv zeta. split_and!; [| |by vm_compute|by vm_compute].
  - intros [|[|[|a]]] [|[|[|b]]] i c c' o o' Ha Hb; try done; cbn in *; simplify_eq; done.
  - intros [|[|[|j]]] i c o Hj Hdel; cbn in Hj; simplify_eq; try done. split_and!; [case_hyp| |].
    + eexists. split_and!; [| |reflexivity]; case_hyp.
    + intros [|[|[|j']]] i' c' o' Hj' Hne; cbn in Hj'; simplify_eq; done.
Qed.

(** On any core that holds a B-tree, too. *)
Theorem C62_apart_any : forall fuel C m l xs ms, found C m -> trusted nobody l -> Forall event_ok l ->
  (Nat.max 1 (length C) + length l < fuel)%nat -> (N.of_nat (Nat.max 1 (length C) + length l) + 1 < 2 ^ 50)%N ->
  (forall a b i c c' o o', xs !! a = Some (i, c, o) -> xs !! b = Some (i, c', o') -> a = b) ->
  (forall j i c o, xs !! j = Some (i, c, o) -> deletes c -> call_ok c /\ usable l i /\
    forall j' i' c' o', xs !! j' = Some (i', c', o') -> j' <> j -> reads_only c') ->
  let y ms := lsys_run ms (lsys_start fuel xs (snd (play fuel l (new_world C)))) in
  (forall j, ~ blocked (y ms) j) /\ exists js, Forall (fun t => l_over t = true) (ls_tasks (y (ms ++ map LPoll js))).
Proof. exact calls_apart_any. Qed.
Print Assumptions C62_apart_any.
Example C62_apart_any_case :
  let l := [EvCall 0 (CGet (kb 1)) []] in
  let xs := [(0, CDel (kb 5), []); (1, CTraverse default_config, []); (2, CGet (kb 4), [])] in
  let y ms := lsys_run ms (lsys_start 60 xs (snd (play 60 l (new_world strange)))) in
  found strange strange_entries /\ trusted nobody l /\ (Nat.max 1 (length strange) + length l < 60)%nat /\
  (forall a b i c c' o o', xs !! a = Some (i, c, o) -> xs !! b = Some (i, c', o') -> a = b) /\
  (forall j i c o, xs !! j = Some (i, c, o) -> deletes c -> call_ok c /\ usable l i /\
    forall j' i' c' o', xs !! j' = Some (i', c', o') -> j' <> j -> reads_only c') /\
  map (l_answer (y (concat (repeat (map LPoll [0; 1; 2]) 1000)))) [0; 2] = [Some (RDel (Some 5)); Some (RGet (Some (4, Some (kb 4))))].
Proof.
  cbv zeta. split; [exact strange_found|]. split; [split; [intros ? _ []|done]|]. split; [by apply Nat.ltb_lt|]. split_and!; [| |by vm_compute].
  - intros [|[|[|a]]] [|[|[|b]]] i c c' o o' Ha Hb; try done; cbn in *; simplify_eq; done.
  - intros [|[|[|j]]] i c o Hj Hdel; cbn in Hj; simplify_eq; try done. split_and!; [case_hyp|case_hyp|].
    intros [|[|[|j']]] i' c' o' Hj' Hne; cbn in Hj'; simplify_eq; done.
Qed.

(** ** C63: readers of a replica *)
Theorem C63_answers : forall fuel l rds, history fuel 0 l -> Forall (fun x => reads_only (snd x) /\ call_ok (snd x)) rds ->
  let C := w_core (world_after fuel l) in
  let y0 := rstart fuel rds in
  forall sched j i c, syncs C rp_new sched -> rds !! j = Some (i, c) ->
  let y := rrun C sched y0 in
  r_stopped y j = None /\
  forall r, r_answer y j = Some r -> exists s1 s2 b, sched = s1 ++ RPoll j :: s2 /\ RPoll j ∉ s1 /\
    version_is fuel l (rp_len (v_rep (rrun C s1 y0))) b /\
    (r = fst (spec_call c b) \/
     (exists sa sb q, sched = sa ++ RPoll j :: sb /\ r_asks (rrun C sa y0) j q /\ r_lacks (rrun C sa y0) q) /\
     exists o, Forall (fun f => f = FNone \/ f = FMissing) o /\ failed_reply (fun _ _ => True) c o (s_entries b) r).
Proof. exact replica_answers. Qed.
Print Assumptions C63_answers.
Example C63_answers_case : history 60 0 demo /\ Forall (fun x => reads_only (snd x) /\ call_ok (snd x)) demo_remote /\
  syncs (w_core demo_world) rp_new demo_sync /\
  let y := rrun (w_core demo_world) demo_sync (rstart 60 demo_remote) in
  r_answer y 0 = Some (RErr (ENoBlockAtSeq 9)) /\ r_answer y 1 = Some (RGet (Some (6, Some (kb 5)))) /\
  match r_answer y 2 with Some (RItems its false) => length its = 4 | _ => False end /\
  r_answer y 3 = Some (RGet None) /\ r_answer y 4 = Some (RVersion 32).
Proof.
  split; [case_hyp|]. split; [|split; [apply demo_syncs; by vm_compute|cbv zeta; split_and!; by vm_compute]].
  repeat (apply List.Forall_cons; [split; [exact I|first [exact I|case_hyp]]|]). constructor.
Qed.

Theorem C63_caught_up : forall fuel l rds, history fuel 0 l -> Forall (fun x => reads_only (snd x) /\ call_ok (snd x)) rds ->
  let C := w_core (world_after fuel l) in
  let y0 := rstart fuel rds in
  forall sched j i c, syncs C rp_new sched -> rds !! j = Some (i, c) ->
  (forall sa sb, sched = sa ++ RPoll j :: sb -> forall q, ~ r_lacks (rrun C sa y0) q) ->
  forall r, r_answer (rrun C sched y0) j = Some r -> exists s1 s2 b, sched = s1 ++ RPoll j :: s2 /\ RPoll j ∉ s1 /\
    version_is fuel l (rp_len (v_rep (rrun C s1 y0))) b /\ r = fst (spec_call c b).
Proof. exact replica_caught_up. Qed.
Print Assumptions C63_caught_up.
(** The fourth call of the case, polled when all 32 blocks have arrived. *)
Example C63_caught_up_case : history 60 0 demo /\ demo_remote !! 3 = Some (0, CGet (kb 11)) /\
  let y0 := rstart 60 demo_remote in
  let alone := [RSync (Replica 32 (fun q => (q <? 32)%nat))] ++ repeat (RPoll 3) 60 in
  syncs (w_core demo_world) rp_new alone /\
  (forall sa sb, alone = sa ++ RPoll 3 :: sb -> forall q, ~ r_lacks (rrun (w_core demo_world) sa y0) q) /\
  r_answer (rrun (w_core demo_world) alone y0) 3 = Some (RGet None).
Proof.
  split; [case_hyp|]. split; [done|]. cbv zeta.
  assert (length (w_core demo_world) = 32) as E by (by vm_compute). split_and!; [exact (proj1 (demo_alone _ E))|exact (demo_alone_has _ E)|by vm_compute].
Qed.

Theorem C63_complete : forall fuel l rds sched j i c, history fuel 1 l -> Forall (fun x => reads_only (snd x) /\ call_ok (snd x)) rds ->
  let C := w_core (world_after fuel l) in
  let y0 := rstart fuel rds in
  syncs C rp_new sched -> rds !! j = Some (i, c) ->
  (forall sa sb, sched = sa ++ RPoll j :: sb -> let r := v_rep (rrun C sa y0) in rp_len r = length C /\ forall q, (q < length C)%nat -> rp_have r q = true) ->
  forall r, r_answer (rrun C sched y0) j = Some r -> forall k, usable l k -> fst (do_call fuel k c [] (world_after fuel l)) = inl r.
Proof. exact replica_complete. Qed.
Print Assumptions C63_complete.
(** The fourth call of the case: it is polled only when all has arrived. *)
Example C63_complete_case : history 60 1 demo /\ demo_remote !! 3 = Some (0, CGet (kb 11)) /\ usable demo 1 /\
  let y0 := rstart 60 demo_remote in
  let alone := [RSync (Replica 32 (fun q => (q <? 32)%nat))] ++ repeat (RPoll 3) 60 in
  syncs (w_core demo_world) rp_new alone /\
  (forall sa sb, alone = sa ++ RPoll 3 :: sb -> let r := v_rep (rrun (w_core demo_world) sa y0) in
     rp_len r = length (w_core demo_world) /\ forall q, (q < length (w_core demo_world))%nat -> rp_have r q = true) /\
  r_answer (rrun (w_core demo_world) alone y0) 3 = Some (RGet None).
Proof.
  split; [case_hyp|]. split; [done|]. split; [case_hyp|]. cbv zeta.
  assert (length (w_core demo_world) = 32) as E by (by vm_compute). split_and!; [exact (proj1 (demo_alone _ E))|exact (proj2 (demo_alone _ E))|by vm_compute].
Qed.

Theorem C63_ends : forall fuel l rds j i c (f : nat -> rmove), history fuel 0 l -> Forall (fun x => reads_only (snd x) /\ call_ok (snd x)) rds ->
  let C := w_core (world_after fuel l) in
  (forall n, syncs C rp_new (map f (seq 0 n))) -> rds !! j = Some (i, c) -> (forall n, exists k, n <= k /\ f k = RPoll j)%nat ->
  exists n r, r_answer (rrun C (map f (seq 0 n)) (rstart fuel rds)) j = Some r.
Proof. exact replica_ends. Qed.
Print Assumptions C63_ends.
Example C63_ends_case : history 60 0 demo /\ demo_remote !! 3 = Some (0, CGet (kb 11)) /\
  let f n := match n with 0 => RSync (Replica 32 (fun q => (q <? 32)%nat)) | S _ => RPoll 3 end in
  (forall n, syncs (w_core demo_world) rp_new (map f (seq 0 n))) /\ forall n, exists k, (n <= k)%nat /\ f k = RPoll 3.
Proof.
  split; [case_hyp|]. split; [done|]. assert (length (w_core demo_world) = 32) as E by (by vm_compute). split; [exact (demo_polls _ E)|]. intros n. exists (S n). split; [lia|done].
Qed.
