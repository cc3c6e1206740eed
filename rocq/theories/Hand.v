(** Traversals with hand-built configurations, and what the builder accepts. *)
From Coq.Strings Require Import Byte.
From Coq Require Import Lia.
From stdpp Require Import prelude gmap.
From Verif Require Import Bytes Codec Model CodecProofs Order Wp Store Tree Iter Read Zip Pure Seq Mut MutDel MutTop Commit Spec OrderProofs Client Abs Api Call Det Hist Main.

(** A traversal depends on the configuration only through this. *)
Definition alike (a b : config) : Prop :=
  t_rev a = t_rev b /\ (if t_rev a then t_max a else t_min a) = (if t_rev b then t_max b else t_min b) /\
  (if t_rev a then t_max_incl a else t_min_incl a) = (if t_rev b then t_max_incl b else t_min_incl b) /\
  forall k, in_bounds a k = in_bounds b k.

Lemma alike_loop a b rec rec' n idxs : alike a b -> (forall c s, run (rec c) s = run (rec' c) s) ->
  forall s, run (trav_loop rec a n idxs) s = run (trav_loop rec' b n idxs) s.
Proof.
  intros (_ & _ & _ & Hb) Hr. induction idxs as [|i idxs IH]; intros s; [done|]. cbn [trav_loop].
  destruct (Nat.even i); rewrite !run_bind; destruct (run (catch _) s) as [[[x|e]|e] s1]; try done.
  - rewrite !run_bind, Hr. destruct (run (rec' x) s1) as [[[its1 [|]]|e] s2]; try done. rewrite !run_bind, IH. done.
  - rewrite !run_bind, IH. done.
  - rewrite Hb. destruct (in_bounds b _); [|done]. rewrite !run_bind, IH. done.
  - rewrite !run_bind, IH. done.
Qed.

Lemma alike_iter a b n nk nc : alike a b -> make_iter a n nk nc = make_iter b n nk nc.
Proof.
  intros (H1 & H2 & H3 & _). unfold make_iter, iter_indices. rewrite H2, H3, H1. done.
Qed.

Lemma alike_trav a b fuel : alike a b -> forall n s, run (trav fuel a n) s = run (trav fuel b n) s.
Proof.
  intros H. induction fuel as [|fuel IH]; intros n s; [done|]. cbn [trav].
  rewrite !run_bind. destruct (run (num_keys n) s) as [[nk|] s1]; [|done].
  rewrite !run_bind. destruct (run (num_children n) s1) as [[nc|] s2]; [|done].
  rewrite !run_bind, (alike_iter a b) by done. destruct (run (catch _) s2) as [[[idxs|e]|e] s3]; [|done|done].
  by apply alike_loop.
Qed.

Lemma alike_traverse a b fuel i o w : alike a b -> do_call fuel i (CTraverse a) o w = do_call fuel i (CTraverse b) o w.
Proof.
  intros H. unfold do_call, api. cbn [call_prog]. unfold tree_traverse. rewrite !run_bind, !run_catch, !run_bind.
  destruct (run (get_root false) _) as [[[root|]|e] s1]; [|done|done]. rewrite !run_bind, (alike_trav a b) by done. done.
Qed.

(** Forward, with a lower bound that is included but not below the upper one: as if
    both bounds were the lower one. *)
Lemma crossed_alike conf a : t_rev conf = false -> t_min conf = Finite a -> t_min_incl conf = true -> below_max conf a = false ->
  alike conf (Config (Finite a) true (Finite a) true false).
Proof.
  destruct conf as [mn mni mx mxi rv]. cbn. intros -> -> -> Hx. split_and!; [done..|]. intros k. unfold in_bounds. cbn.
  destruct (bytes_cmp a k) eqn:E; [done| |done].
  unfold below_max in Hx. cbn in Hx. destruct mx as [b| |]; cbn; [|done|done].
  apply orb_false_iff in Hx as [Hx _]. change (blt a k) in E.
  assert (blt b k) as ->; [|done].
  destruct (blt_total a b) as [H|[<-|H]]; [apply lexb_blt in H; congruence|done|by eapply blt_trans].
Qed.

Lemma range_one (a : bytes) m : range (Config (Finite a) true (Finite a) true false) m = List.filter (fun e => bool_decide (kv_key e = a)) m.
Proof.
  unfold range, in_order, within, above_min, below_max. cbn. apply List.filter_ext. intros e.
  generalize (kv_key e). intros k.
  destruct (blt_total a k) as [H|[->|H]].
  - rewrite (lexb_false k a) by (by left). apply lexb_blt in H as E. rewrite E. cbn.
    rewrite !bool_decide_eq_false_2; [done| |]; intros ->; by apply blt_irrefl in H.
  - rewrite !bool_decide_eq_true_2 by done. by rewrite !orb_true_r.
  - rewrite (lexb_false a k) by (by left). cbn.
    rewrite !bool_decide_eq_false_2; [done| |]; intros ->; by apply blt_irrefl in H.
Qed.

Lemma crossed_traversal fuel l i j conf a : history fuel 1 l -> usable l i -> usable l j ->
  (2 <= length (w_core (world_after fuel l)))%nat ->
  t_rev conf = false -> t_min conf = Finite a -> t_min_incl conf = true -> below_max conf a = false ->
  exists x, fst (do_call fuel j (CGet a) [] (world_after fuel l)) = inl (RGet x) /\
    fst (do_call fuel i (CTraverse conf) [] (world_after fuel l)) =
    inl (RItems (match x with Some (q, v) => [IOk (KV q a v)] | None => [] end) false).
Proof.
  intros H Hi Hj H2 C1 C2 C3 C4. rewrite (alike_traverse _ _ _ _ _ _ (crossed_alike _ _ C1 C2 C3 C4)). reach H.
  destruct (call_clean _ _ _ _ _ _ j (CGet a) HI Hj Hfit I) as (w1 & D1 & _ & _).
  destruct (call_clean _ _ _ _ _ _ i (CTraverse (Config (Finite a) true (Finite a) true false)) HI Hi Hfit) as (w2 & D2 & _ & _).
  { right. cbn. intros _. unfold below_max. cbn. rewrite bool_decide_eq_true_2 by done. apply orb_true_r. }
  pose proof (rep_sorted _ _ _ (wi_rep _ _ _ _ HI)) as Hs.
  eexists. rewrite D1, D2. split; [reflexivity|]. cbn [spec_call s_blocks s_entries fst].
  destruct (Nat.leb_spec (length (w_core (world_after fuel l))) 1); [lia|]. cbn [fst]. rewrite range_one.
  clear - Hs. do 2 f_equal. unfold lookup_key. induction Hs as [|e m Hs IH Hf]; [done|]. cbn [List.filter List.find].
  destruct (bool_decide (kv_key e = a)) eqn:E; [|apply IH].
  apply bool_decide_eq_true in E. subst a. cbn.
  assert (List.filter (fun x => bool_decide (kv_key x = kv_key e)) m = []) as ->.
  { clear - Hf. induction Hf as [|x m Hx Hf IH]; [done|]. cbn. rewrite bool_decide_eq_false_2; [done|].
    intros Ex. rewrite Ex in Hx. by apply blt_irrefl in Hx. }
  by destruct e.
Qed.

(** ** C15 *)
Lemma builder_pair mn mx mni mxi rv :
  let b := Builder (Some (Finite mn)) mni (Some (Finite mx)) mxi rv in
  (consistent_pair mn mx (default true mni) (default true mxi) ->
     build b = Some (Config (Finite mn) (default true mni) (Finite mx) (default true mxi) (default false rv))) /\
  (~ consistent_pair mn mx (default true mni) (default true mxi) -> build b = None) /\
  (forall k, above_min (Config (Finite mn) (default true mni) (Finite mx) (default true mxi) false) k = true ->
             below_max (Config (Finite mn) (default true mni) (Finite mx) (default true mxi) false) k = true ->
             consistent_pair mn mx (default true mni) (default true mxi)).
Proof.
  cbn zeta. unfold build, validate, consistent_pair. cbn. rewrite key_lt_blt. split_and!.
  - intros [H|(-> & H1 & H2)].
    + assert (bytes_ltb mx mn = false) as ->.
      { unfold bytes_ltb. destruct (bytes_cmp mx mn) eqn:E; [done| |done]. change (blt mx mn) in E. exfalso. eapply blt_irrefl, blt_trans; [exact H|exact E]. }
      assert (bytes_eqb mn mx = false) as ->; [|done].
      unfold bytes_eqb. by rewrite H.
    + assert (bytes_ltb mx mx = false) as ->.
      { unfold bytes_ltb. by rewrite (proj2 (bytes_cmp_eq mx mx) eq_refl). }
      destruct (bytes_eqb mx mx); [|done]. by destruct mni as [[|]|], mxi as [[|]|].
  - intros Hn. destruct (bytes_ltb mx mn) eqn:E1; [done|]. destruct (blt_total mn mx) as [H|[->|H]].
    + exfalso. apply Hn. by left.
    + assert (bytes_eqb mx mx = true) as ->.
      { unfold bytes_eqb. by rewrite (proj2 (bytes_cmp_eq mx mx) eq_refl). }
      destruct mni as [[|]|], mxi as [[|]|]; try done; exfalso; apply Hn; by right.
    + unfold bytes_ltb in E1. by rewrite H in E1.
  - intros k. unfold above_min, below_max. cbn. rewrite !orb_true_iff, !andb_true_iff, !lexb_blt, !bool_decide_eq_true.
    rewrite key_lt_blt. intros [H1|[H1 E1]] [H2|[H2 E2]]; subst; [left; by eapply blt_trans|by left|by left|by right].
Qed.

Lemma builder_single lim incl rv :
  (lim <> PosInf -> build (Builder (Some lim) incl None None rv) = Some (Config lim (default true incl) PosInf true (default false rv))) /\
  (lim <> NegInf -> build (Builder None None (Some lim) incl rv) = Some (Config NegInf true lim (default true incl) (default false rv))) /\
  build (Builder None None None None rv) = Some (Config NegInf true PosInf true (default false rv)).
Proof. split_and!; intros; done. Qed.

(** All that is accepted, and what that is taken for. *)
Definition filled (b : builder) : config :=
  Config (default NegInf (bd_min b)) (default true (bd_min_incl b)) (default PosInf (bd_max b)) (default true (bd_max_incl b)) (default false (bd_rev b)).
Lemma builder_exact b conf : build b = Some conf <->
  conf = Config (default NegInf (bd_min b)) (default true (bd_min_incl b)) (default PosInf (bd_max b)) (default true (bd_max_incl b)) (default false (bd_rev b)) /\
  forall mn mx, bd_min b = Some mn -> bd_max b = Some mx ->
    exists x y, mn = Finite x /\ mx = Finite y /\ consistent_pair x y (default true (bd_min_incl b)) (default true (bd_max_incl b)).
Proof.
  destruct b as [mn mni mx mxi rv]. cbn [bd_min bd_min_incl bd_max bd_max_incl bd_rev]. split.
  - intros H. split; [unfold build in H; destruct (validate _) in H; [by injection H as <-|done]|].
    intros a c -> ->. destruct a as [x| |], c as [y| |]; try done. exists x, y. split_and!; [done|done|].
    destruct (builder_pair x y mni mxi rv) as (_ & H2 & _).
    destruct (blt_total x y) as [Hlt|[->|Hlt]].
    + left. by apply key_lt_blt.
    + destruct (default true mni) eqn:E1, (default true mxi) eqn:E2; try (by right); exfalso; rewrite H2 in H; try done;
        (intros [Hk|(_ & ? & ?)]; [apply key_lt_blt in Hk; by apply blt_irrefl in Hk|done]).
    + exfalso. rewrite H2 in H; [done|]. intros [Hk|(-> & _)]; [apply key_lt_blt in Hk; eapply blt_irrefl, blt_trans; [exact Hk|exact Hlt]|by apply blt_irrefl in Hlt].
  - intros [-> H]. destruct mn as [a|], mx as [c|]; try done. destruct (H a c eq_refl eq_refl) as (x & y & -> & -> & Hc).
    by apply builder_pair.
Qed.
(** Bounds that some key keeps are refused only if one of them is given as infinite beside the other. *)
Lemma builder_refuses b k : above_min (filled b) k = true -> below_max (filled b) k = true ->
  (build b = None <-> exists mn mx, bd_min b = Some mn /\ bd_max b = Some mx /\ (mn = NegInf \/ mx = PosInf)).
Proof.
  intros H1 H2. split.
  - intros Hb. destruct b as [[mn|] mni [mx|] mxi rv]; try done. cbn. exists mn, mx. split_and!; [done|done|].
    destruct mn as [x| |], mx as [y| |]; try (by left); try (by right); try done. exfalso.
    destruct (builder_pair x y mni mxi rv) as (P1 & _ & P3). specialize (P3 k H1 H2). apply P1 in P3. congruence.
  - intros (mn & mx & E1 & E2 & H). destruct (build b) as [conf|] eqn:E; [|done]. apply builder_exact in E as [_ E].
    destruct (E mn mx E1 E2) as (x & y & -> & -> & _). by destruct H.
Qed.
