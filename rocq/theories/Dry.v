(** Calls that do not ask the core for blocks, next to readers. *)
From Coq.Strings Require Import Byte.
From Coq Require Import Lia Sorting.Sorted.
From stdpp Require Import prelude gmap.
From Verif Require Import Bytes Codec Model CodecProofs Order Wp Store Tree Mut MutDel MutTop Commit Spec OrderProofs Client Count Abs Api Call Det Reader Hist Busy Play Main.

Local Arguments decode_block : simpl never.
Local Arguments api : simpl never.

(** [p] makes nodes and puts entries into the cache only after it has asked the core for a block;
    it asks when it has not found an entry in the cache. *)
Definition asks {A} (p : prog A) : Prop := match p with CoreGet _ _ => True | _ => False end.
Fixpoint lean {A} (p : prog A) : Prop :=
  match p with
  | Ret _ | Stop _ | CoreGet _ _ => True
  | CoreLen k => forall n, lean (k n)
  | CoreAppend b k => forall r, lean (k r)
  | CacheGet q k => asks (k None) /\ forall e, lean (k (Some e))
  | CachePut _ _ _ | NodeNew _ _ => False
  | NodeGet n k => forall nd, lean (k nd)
  | NodeUpd n f k => forall nd, lean (k nd)
  end.
Lemma lean_bind {A B} (p : prog A) (f : A -> prog B) : lean p -> (forall a, lean (f a)) -> lean (pbind p f).
Proof.
  intros Hp Hf. induction p as [a|x|k IH|q k IH|b k IH|q k IH|q e k IH|nd k IH|n k IH|n g k IH]; simpl in *; auto.
  destruct Hp as [H1 H2]. split; [by destruct (k None)|auto].
Qed.
Lemma lean_catch {A} (p : prog A) : lean p -> lean (catch p).
Proof.
  intros Hp. induction p as [a|x|k IH|q k IH|b k IH|q k IH|q e k IH|nd k IH|n k IH|n g k IH]; simpl in *; auto.
  - by destruct x.
  - destruct Hp as [H1 H2]. split; [by destruct (k None)|auto].
Qed.
Lemma lean_unwrap {A} (o : option A) : lean (unwrap o).
Proof. by destruct o. Qed.
Lemma lean_node_mod {B} n (f : node -> option (B * node)) : lean (node_mod n f).
Proof. unfold node_mod. simpl. intros nd. by destruct (f nd) as [[]|]. Qed.
Lemma lean_blocks_get q : lean (blocks_get q).
Proof. unfold blocks_get. cbn. by split. Qed.
Lemma lean_append b : lean (blocks_append b).
Proof. unfold blocks_append. cbn. by intros []. Qed.
Ltac lean_step := lazymatch goal with
  | |- lean (pbind _ _) => apply lean_bind; [|intros ?]
  | |- lean (catch _) => apply lean_catch
  | |- lean (Ret _) => exact I
  | |- lean (Stop _) => exact I
  | |- lean (throw _) => exact I
  | |- lean panic => exact I
  | |- lean (node_get _) => intros ?; exact I
  | |- lean core_len => intros ?; exact I
  | |- lean version => intros ?; exact I
  | |- lean (unwrap _) => apply lean_unwrap
  | |- lean (node_mod _ _) => apply lean_node_mod
  | |- lean (blocks_get _) => apply lean_blocks_get
  | |- lean (blocks_append _) => apply lean_append
  | |- lean (match ?x with _ => _ end) => destruct x
  | |- lean (get_tree_node _ _) => apply lean_unwrap
  | |- lean (num_keys _) => unfold num_keys
  | |- lean (num_children _) => unfold num_children
  | |- lean (is_leaf _) => unfold is_leaf
  | |- lean (get_key_value _ _) => unfold get_key_value
  | |- lean (get_child _ _) => unfold get_child
  | |- lean (take_children_with_seq _ _) => unfold take_children_with_seq
  | |- lean (set_child _ _ _) => apply lean_node_mod
  end.
Lemma lean_search n key fuel : forall low high, lean (search_loop fuel n key low high).
Proof. induction fuel as [|fuel IH]; intros low high; cbn [search_loop]; [done|]. cbv zeta. repeat first [apply IH | lean_step]. Qed.
Lemma lean_index n key : lean (get_index_of_key n key).
Proof. unfold get_index_of_key. repeat first [apply lean_search | lean_step]. Qed.
Lemma lean_nearest key fuel : forall n acc, lean (nearest_loop fuel n key acc).
Proof. induction fuel as [|fuel IH]; intros n acc; cbn [nearest_loop]; [done|]. cbv zeta. repeat first [apply IH | apply lean_index | lean_step]. Qed.
Lemma lean_root : lean (get_root false).
Proof. unfold get_root. apply lean_bind; [intros ?; exact I|intros v]. rewrite andb_false_r. repeat lean_step. Qed.
Lemma lean_trav_loop (rec : nid -> prog stream_result) conf n idxs : (forall c, lean (rec c)) -> lean (trav_loop rec conf n idxs).
Proof. intros Hr. induction idxs as [|i idxs IH]; cbn [trav_loop]; [done|]. repeat first [apply IH | apply Hr | lean_step]. Qed.
Lemma lean_trav conf fuel : forall n, lean (trav fuel conf n).
Proof.
  induction fuel as [|fuel IH]; intros n; cbn [trav]; [done|]. unfold make_iter.
  repeat first [apply lean_trav_loop, IH | apply lean_index | lean_step].
Qed.
Lemma lean_reorder seq nodes fuel : forall stack out, lean (reorder_loop fuel seq nodes stack out).
Proof. induction fuel as [|fuel IH]; intros [|[n ci] stack] out; cbn [reorder_loop]; try done. repeat first [apply IH | lean_step]. Qed.
Lemma lean_levels ns : lean (read_levels ns).
Proof. induction ns; cbn [read_levels]; [done|]. repeat first [assumption | lean_step]. Qed.
Lemma lean_add_changes ch : lean (add_changes ch).
Proof. unfold add_changes, reorder_nodes. repeat first [apply lean_reorder | apply lean_levels | lean_step]. Qed.
Lemma lean_propagate p : forall ch child, lean (propagate ch p child).
Proof. induction p as [|[n i] p IH]; intros ch child; cbn [propagate]; [done|]. repeat first [apply IH | lean_step | progress cbn [add_node]]. Qed.
Lemma lean_replace fuel p n ki : lean (replace_removed fuel p n ki).
Proof. unfold replace_removed, nearest_node. repeat first [apply lean_nearest | lean_step]. Qed.
Lemma lean_donor_index sd f di : lean (get_donor_index sd f di).
Proof. destruct sd; cbn [get_donor_index]; repeat lean_step. Qed.
Lemma lean_donor_key sd d : lean (get_donor_key sd d).
Proof. destruct sd; cbn [get_donor_key]; repeat lean_step. Qed.
Lemma lean_donor_child sd d : lean (get_donor_child sd d).
Proof. unfold get_donor_child. repeat lean_step. Qed.
Lemma lean_insert sd dc key child : lean (insert_donations sd dc key child).
Proof. destruct sd; cbn [insert_donations]; repeat lean_step. Qed.
Lemma lean_rotate sd f di dc dx d ch : lean (rotate sd f di dc dx d ch).
Proof.
  unfold rotate, swap_donor_key. repeat first [apply lean_donor_key | apply lean_donor_child | apply lean_insert | lean_step | progress cbn [add_node]].
Qed.
Lemma lean_maybe_rotate sd f di dc order ch : lean (maybe_rotate sd f di dc order ch).
Proof. unfold maybe_rotate, can_rotate. repeat first [apply lean_donor_index | apply lean_rotate | lean_step]. Qed.
Lemma lean_maybe_merge sd f di dc ch : lean (maybe_merge sd f di dc ch).
Proof. unfold maybe_merge. repeat first [apply lean_donor_index | lean_step | progress cbn [add_node]]. Qed.
Lemma lean_repair_one f di dc order ch : lean (repair_one f di dc order ch).
Proof. unfold repair_one. repeat first [apply lean_maybe_rotate | apply lean_maybe_merge | lean_step]. Qed.
Lemma lean_repair_loop order p : forall f di dc ch, lean (repair_loop p f di dc order ch).
Proof.
  induction p as [|[n i] p IH]; intros f di dc ch; cbn [repair_loop]; repeat first [apply IH | apply lean_repair_one | lean_step | progress cbn [add_node]].
Qed.
Lemma lean_repair p order ch : lean (repair p order ch).
Proof. destruct p as [|[f di] p]; cbn [repair]; repeat first [apply lean_repair_loop | lean_step]. Qed.
Lemma lean_del_cas fuel key cas : lean (tree_del_cas fuel key cas).
Proof.
  unfold tree_del_cas, nearest_node. cbv zeta.
  repeat first [apply lean_root | apply lean_nearest | apply lean_replace | apply lean_repair | apply lean_propagate | apply lean_add_changes | lean_step | progress cbn [add_node]].
Qed.
Lemma lean_call fuel c : put_args c = None -> lean (api fuel c).
Proof.
  intros Hc. unfold api. apply lean_bind; [apply lean_catch|intros []; exact I]. destruct c; try done; cbn [call_prog].
  - unfold tree_get, nearest_node. repeat first [apply lean_root | apply lean_nearest | lean_step].
  - unfold tree_del. repeat first [apply lean_del_cas | lean_step].
  - repeat first [apply lean_del_cas | lean_step].
  - unfold create_header. repeat lean_step.
  - unfold tree_traverse. repeat first [apply lean_root | apply lean_trav | lean_step].
Qed.

Lemma asks_reads {A} (p : prog A) s : asks p -> reads p s <> 0.
Proof. destruct p; try done. intros _. cbn. by destruct (exec_get _ _). Qed.
Lemma dry_reads {A} ca (p : prog A) : lean p -> forall s, cache s = ca -> reads p s = 0 -> dry ca p s.
Proof.
  induction p as [a|x|k IH|q k IH|b k IH|q k IH|q e k IH|nd k IH|n k IH|n g k IH]; intros Hl s Hc Hr; cbn [reads dry lean] in *; auto; try done.
  - by destruct (exec_get q s).
  - assert (cache (snd (exec_append b s)) = cache s) as Ec. { unfold exec_append. by destruct (oracle s) as [|[] o]. }
    destruct (exec_append b s) as [r s'] eqn:E. cbn in *. apply IH; [done|by rewrite Ec|done].
  - destruct Hl as [Ha Hl]. rewrite Hc in Hr. destruct (ca !! q) as [e|]; [by apply IH|]. by eapply asks_reads.
  - destruct (heap s !! n); [by apply IH|done].
  - destruct (heap s !! n) as [nd|]; [|done]. destruct (g nd); [by apply IH|done].
Qed.

Lemma busy_dry fuel l i c xs sched : history fuel 2 l -> usable l i -> puts c \/ call_reads fuel i c [] (world_after fuel l) = 0 -> call_ok c ->
  Forall (fun x => usable l (fst (fst x)) /\ reads_only (snd (fst x))) xs ->
  exists r w1 w2, do_busy fuel i c [] xs sched (world_after fuel l) = (inl r, w1) /\
    do_call fuel i c [] (world_after fuel l) = (inl r, w2) /\ w_core w1 = w_core w2 /\
    forall j, usable l j -> answers_as fuel j w1 w2.
Proof.
  intros H Hi Hp Hc Hxs.
  assert (is_Some (put_args c) \/ dry (h_cache (w_handles (world_after fuel l) i)) (api fuel c) (view (world_after fuel l) i [])) as Hd.
  { destruct (put_args c) as [x|] eqn:Ea; [by left|right]. apply dry_reads; [by apply lean_call|done|]. destruct Hp as [Hp|Hp]; [by destruct c|done]. }
  clear Hp. reach H. destruct Hfit as [Hf1 Hf2].
  destruct (do_busy_spec _ _ _ _ fuel i c [] xs sched HI Hi) as (r & w1 & D1 & Hout);
    [unfold chain_small; unfold with_header in *; lia|unfold with_header in *; lia|done|done| |].
  { eapply Forall_impl; [exact Hxs|]. intros x [? ?]. done. }
  destruct Hout as [[Hr (t1 & F1 & HI1 & L1)]|[Hx _]]; [|by apply no_fault in Hx].
  destruct (call_clean _ _ _ _ fuel 1 i c HI Hi) as (w2 & D2 & (t2 & F2 & HI2 & L2) & Hfit2); [split; lia|done|].
  exists r, w1, w2. split; [done|]. split; [by rewrite D2, Hr|].
  destruct (effect_det _ _ _ _ _ _ _ _ (wi_rep _ _ _ _ HI) F1 F2) as [E ->]. split; [done|]. intros j Hj c2 Hc2.
  destruct (call_clean _ _ _ _ fuel 0 j c2 HI2 Hj) as (w4 & D4 & (t4 & F4 & _) & _); [done|done|].
  destruct (call_clean _ _ _ _ fuel 0 j c2 HI1 Hj) as (w3 & D3 & (t3 & F3 & _) & _); [unfold fits; by rewrite E|done|].
  rewrite E in D3, F3. eexists _, w3, w4. split_and!; [exact D3|exact D4|].
  by destruct (effect_det _ _ _ _ _ _ _ _ (wi_rep _ _ _ _ HI2) F3 F4) as [-> _].
Qed.
