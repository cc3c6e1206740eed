From Coq.Strings Require Import Byte.
From Coq Require Import Lia.
From stdpp Require Import prelude gmap.
From Verif Require Import Bytes Codec Model Order Wp Store Tree Iter Read Zip Pure Seq Mut MutDel MutTop Commit Spec Client Abs Api Hist Main Count.

Local Arguments blocks_get : simpl never.
Local Arguments decode_block : simpl never.

Lemma reads_bind {A B} (p : prog A) (f : A -> prog B) s :
  reads (pbind p f) s = (reads p s + match run p s with (Datatypes.inl a, s') => reads (f a) s' | _ => 0 end)%nat.
Proof.
  revert s. induction p as [a|x|k IH|q k IH|b k IH|q k IH|q e k IH|nd k IH|n k IH|n g k IH]; intros s; simpl; try done.
  - destruct (exec_get q s). by rewrite IH.
  - destruct (exec_append b s). by rewrite IH.
  - destruct (heap s !! n); [by rewrite IH|done].
  - destruct (heap s !! n) as [nd|]; [|done]. destruct (g nd); [by rewrite IH|done].
Qed.
Lemma reads_catch {A} (p : prog A) s : reads (catch p) s = reads p s.
Proof.
  revert s. induction p as [a|x|k IH|q k IH|b k IH|q k IH|q e k IH|nd k IH|n k IH|n g k IH]; intros s; simpl; try done.
  - by destruct x.
  - destruct (exec_get q s). by rewrite IH.
  - destruct (exec_append b s). by rewrite IH.
  - destruct (heap s !! n); [by rewrite IH|done].
  - destruct (heap s !! n) as [nd|]; [|done]. destruct (g nd); [by rewrite IH|done].
Qed.

(** [cost p n]: at most [n] reads, whatever the state. *)
Definition cost {A} (p : prog A) (n : nat) : Prop := forall s, (reads p s <= n)%nat.
Lemma cost_bind {A B} (p : prog A) (f : A -> prog B) a b n : cost p a -> (forall x, cost (f x) b) -> (a + b <= n)%nat -> cost (pbind p f) n.
Proof.
  intros Hp Hf Hn s. rewrite reads_bind. specialize (Hp s). destruct (run p s) as [[x|x] s']; [specialize (Hf x s')|]; lia.
Qed.
Lemma cost_ret {A} (a : A) n : cost (Ret a) n.
Proof. intros s. simpl. lia. Qed.
Lemma cost_stop {A} x n : cost (@Stop A x) n.
Proof. intros s. simpl. lia. Qed.
Lemma cost_mono {A} (p : prog A) a b : cost p a -> (a <= b)%nat -> cost p b.
Proof. intros H ? s. specialize (H s). lia. Qed.
Lemma cost_node_mod {B} n (f : node -> option (B * node)) : cost (node_mod n f) 0.
Proof.
  intros s. unfold node_mod. simpl. destruct (heap s !! n) as [nd|]; [|done]. simpl. destruct (f nd) as [[b nd']|] eqn:E; simpl; done.
Qed.

Lemma cost_node_get n : cost (node_get n) 0.
Proof. intros s. unfold node_get. simpl. by destruct (heap s !! n). Qed.
Lemma cost_node_new nd : cost (node_new nd) 0.
Proof. intros s. simpl. lia. Qed.
Lemma cost_core_len : cost core_len 0.
Proof. intros s. simpl. lia. Qed.
Lemma cost_unwrap {A} (o : option A) : cost (unwrap o) 0.
Proof. destruct o; intros s; simpl; lia. Qed.
Lemma cost_num_keys n : cost (num_keys n) 0.
Proof. unfold num_keys. eapply (cost_bind _ _ 0 0); [apply cost_node_get|intros x; apply cost_ret|done]. Qed.
Lemma cost_num_children n : cost (num_children n) 0.
Proof. unfold num_children. eapply (cost_bind _ _ 0 0); [apply cost_node_get|intros x; apply cost_ret|done]. Qed.
Lemma cost_is_leaf n : cost (is_leaf n) 0.
Proof. unfold is_leaf. eapply (cost_bind _ _ 0 0); [apply cost_num_children|intros x; apply cost_ret|done]. Qed.
Lemma cost_alloc_all nds : cost (alloc_all nds) 0.
Proof.
  induction nds as [|nd nds IH]; [apply cost_ret|]. cbn [alloc_all].
  eapply (cost_bind _ _ 0 0); [apply cost_node_new|intros x|done]. eapply (cost_bind _ _ 0 0); [done|intros y; apply cost_ret|done].
Qed.
Lemma cost_append b : cost (blocks_append b) 0.
Proof. intros s. unfold blocks_append. simpl. destruct (exec_append b s) as [ok s']. by destruct ok. Qed.
Lemma cost_blocks_get q : cost (blocks_get q) 1.
Proof.
  intros s. unfold blocks_get. simpl. destruct (cache s !! q) as [e|]; [simpl; lia|]. simpl.
  destruct (exec_get q s) as [r s']. destruct r as [|[raw|]]; [simpl; lia| |simpl; lia].
  destruct (decode_block raw) as [| |b]; [simpl; lia|simpl; lia|].
  apply le_n_S. rewrite reads_bind. pose proof (cost_alloc_all (b_nodes b) s'). destruct (run (alloc_all (b_nodes b)) s') as [[ns|x] s2]; simpl; lia.
Qed.

(** What a successful lookup leaves behind. *)
Lemma run_alloc_all nds : forall s, exists ns h, run (alloc_all nds) s = (Datatypes.inl ns, set_heap s (heap s ++ h)).
Proof.
  induction nds as [|nd nds IH]; intros s; [exists [], []; rewrite app_nil_r; by destruct s|].
  cbn [alloc_all]. rewrite run_bind. simpl. rewrite run_bind.
  destruct (IH (set_heap s (heap s ++ [nd]))) as (ns & h & ->). simpl. eexists _, ([nd] ++ h). f_equal.
  unfold set_heap. simpl. by rewrite <-app_assoc.
Qed.
Definition kept (s s' : st) : Prop :=
  (forall n nd, heap s !! n = Some nd -> heap s' !! n = Some nd) /\ (forall q e, cache s !! q = Some e -> cache s' !! q = Some e).
Lemma kept_refl s : kept s s.
Proof. done. Qed.
Lemma kept_trans s1 s2 s3 : kept s1 s2 -> kept s2 s3 -> kept s1 s3.
Proof. intros [] []. split; eauto. Qed.
Lemma run_blocks_get q s e s' : run (blocks_get q) s = (Datatypes.inl e, s') -> cache s' !! q = Some e /\ kept s s'.
Proof.
  unfold blocks_get. simpl. destruct (cache s !! q) as [e0|] eqn:Ec; simpl.
  { intros [= <- <-]. done. }
  pose proof (exec_get_state q s) as Hg. destruct (exec_get q s) as [r s1]. simpl in Hg. subst s1. destruct r as [|[raw|]]; try done.
  destruct (decode_block raw) as [| |b]; try done. rewrite run_bind.
  match goal with |- context [run (alloc_all ?l) ?s] => destruct (run_alloc_all l s) as (ns & h & ->) end.
  simpl. intros [= <- <-]. simpl. rewrite lookup_insert. split; [done|]. split.
  - intros n nd Hn. simpl. by apply lookup_app_l_Some.
  - intros q' e' Hq'. simpl. rewrite lookup_insert_ne; [done|]. congruence.
Qed.
Lemma reads_blocks_get q s e : cache s !! q = Some e -> reads (blocks_get q) s = 0 /\ run (blocks_get q) s = (Datatypes.inl e, s).
Proof. intros H. unfold blocks_get. simpl. by rewrite H. Qed.

Lemma reads_get_key_value n i : cost (get_key_value n i) 1.
Proof.
  unfold get_key_value. eapply (cost_bind _ _ 0 1); [apply cost_node_get|intros nd|done].
  eapply (cost_bind _ _ 0 1); [apply cost_unwrap|intros q|done]. intros s. rewrite reads_bind. pose proof (cost_blocks_get q s).
  destruct (run (blocks_get q) s) as [[e|x] s'] eqn:E; [|lia]. apply run_blocks_get in E as [E _].
  rewrite reads_bind. destruct (reads_blocks_get _ _ _ E) as [-> ->]. rewrite !Nat.add_0_r. done.
Qed.
Lemma run_node_get n s : run (node_get n) s = match heap s !! n with Some nd => (Datatypes.inl nd, s) | None => (Datatypes.inr SPanic, s) end.
Proof. unfold node_get. simpl. by destruct (heap s !! n). Qed.
Lemma run_unwrap {A} (o : option A) s : run (unwrap o) s = match o with Some a => (Datatypes.inl a, s) | None => (Datatypes.inr SPanic, s) end.
Proof. by destruct o. Qed.
Lemma run_get_key_value n i s kv s' : run (get_key_value n i) s = (Datatypes.inl kv, s') -> kept s s' /\ reads (get_key_value n i) s' = 0.
Proof.
  unfold get_key_value. rewrite run_bind, run_node_get. destruct (heap s !! n) as [nd|] eqn:En; [|done].
  rewrite run_bind, run_unwrap. destruct (n_keys nd !! i) as [q|] eqn:Ei; [|done]. rewrite run_bind.
  destruct (run (blocks_get q) s) as [[e|x] s1] eqn:E; [|done]. apply run_blocks_get in E as [E1 Hk].
  rewrite run_bind. destruct (reads_blocks_get _ _ _ E1) as [_ ->]. intros [= <- <-].
  split; [done|]. rewrite reads_bind, run_node_get, (proj1 Hk _ _ En). rewrite reads_bind, run_unwrap, Ei.
  pose proof (cost_node_get n s1). pose proof (cost_unwrap (Some q) s1).
  rewrite reads_bind. destruct (reads_blocks_get _ _ _ E1) as [-> ->].
  rewrite reads_bind. destruct (reads_blocks_get _ _ _ E1) as [-> ->]. cbn [reads]. lia.
Qed.
Lemma cost_get_child n i : cost (get_child n i) 1.
Proof.
  unfold get_child. eapply (cost_bind _ _ 0 1); [apply cost_node_get|intros nd|done].
  eapply (cost_bind _ _ 0 1); [apply cost_unwrap|intros q|done]. eapply (cost_bind _ _ 1 0); [apply cost_blocks_get|intros e|done].
  apply cost_unwrap.
Qed.

Lemma cost_search_loop n key fuel : forall k low high, (S high - low < 2 ^ k)%nat -> cost (search_loop fuel n key low high) k.
Proof.
  induction fuel as [|fuel IH]; intros k low high Hk; [apply cost_stop|]. cbn [search_loop].
  destruct (Nat.leb_spec low high) as [Hle|]; [|apply cost_ret].
  destruct k as [|k]; [simpl in Hk; lia|].
  set (mid := (low + Nat.div2 (high - low))%nat).
  pose proof (Nat.div2_odd (high - low)) as Ho. destruct (Nat.odd (high - low)); simpl in Ho; rewrite Nat.pow_succ_r' in Hk.
  all: eapply (cost_bind _ _ 1 k); [apply reads_get_key_value|intros kv|done].
  all: destruct (limit_eq key (kv_key kv)); [apply cost_ret|]; destruct (limit_lt key (kv_key kv)).
  all: try (destruct (Nat.eqb_spec mid 0); [apply cost_ret|]).
  all: apply IH; unfold mid; lia.
Qed.
Lemma run_search_loop n key fuel : forall low high s q i s',
  run (search_loop fuel n key low high) s = (Datatypes.inl (Some q, i), s') -> reads (get_key_value n i) s' = 0.
Proof.
  induction fuel as [|fuel IH]; intros low high s q i s'; [done|]. cbn [search_loop]. destruct (low <=? high)%nat; [|done].
  rewrite run_bind. destruct (run (get_key_value n _) s) as [[kv|x] s1] eqn:E; [|done].
  destruct (limit_eq key (kv_key kv)).
  { simpl. intros [= <- <- <-]. eapply run_get_key_value. exact E. }
  destruct (limit_lt key (kv_key kv)); [|apply IH]. destruct (_ =? 0)%nat; [done|apply IH].
Qed.
Lemma run_index n key s q i s' : run (get_index_of_key n key) s = (Datatypes.inl (Some q, i), s') -> reads (get_key_value n i) s' = 0.
Proof.
  unfold get_index_of_key. rewrite run_bind. destruct (run (num_keys n) s) as [[nk|x] s1]; [|done].
  destruct (nk =? 0)%nat; [done|]. apply run_search_loop.
Qed.
Lemma run_nearest key fuel : forall n acc s q p s', run (nearest_loop fuel n key acc) s = (Datatypes.inl (Some q, p), s') ->
  exists m i p', p = (m, i) :: p' /\ reads (get_key_value m i) s' = 0.
Proof.
  induction fuel as [|fuel IH]; intros n acc s q p s'; [done|]. cbn [nearest_loop]. rewrite run_bind.
  destruct (run (get_index_of_key n key) s) as [[[[q'|] i]|x] s1] eqn:E; [| |done].
  - simpl. intros [= <- <- <-]. eexists _, _, _. split; [done|]. by eapply run_index.
  - rewrite run_bind. destruct (run (is_leaf n) s1) as [[b|x] s2]; [|done]. destruct b; [done|].
    rewrite run_bind. destruct (run (get_child n i) s2) as [[c|x] s3]; [|done]. apply IH.
Qed.
Lemma reads_index n key s nd : heap s !! n = Some nd -> (length (n_keys nd) <= 8)%nat -> (reads (get_index_of_key n key) s <= 4)%nat.
Proof.
  intros Hn Hl. unfold get_index_of_key. rewrite reads_bind. pose proof (cost_num_keys n s).
  unfold num_keys at 2. rewrite run_bind, run_node_get, Hn. cbn [run].
  destruct (length (n_keys nd) =? 0)%nat; [cbn [reads]; lia|].
  pose proof (cost_search_loop n key (S (length (n_keys nd))) 4 0 (length (n_keys nd) - 1) ltac:(simpl; lia) s). lia.
Qed.

(** ** Descending *)
Lemma swp_index D n nd key (Q : option nat * nat -> st -> Prop) (E : stop -> st -> Prop) s :
  hwf s -> heap s !! n = Some nd -> Forall (kok D s) (n_keys nd) -> ksorted D (n_keys nd) ->
  (forall m i s', sext s s' -> hwf s' -> idx_ok D key (n_keys nd) m i -> Q (m, i) s') -> sEok E s ->
  swp (get_index_of_key n key) Q E s.
Proof.
  apply (wp_get_index_of_key eq (fun _ _ => True) sext hwf loc);
    eauto using eq_sext, sext_refl, sext_trans, sext_hwf, sext_heap, sext_blk, sx_oracle, sext_hnode', sext_loc.
  intros. by eapply blocks_get_seq.
Qed.
Lemma swp_child D n u i c (Q : nid -> st -> Prop) (E : stop -> st -> Prop) s :
  hwf s -> heap s !! n = Some (node_of u) -> tkids u !! i = Some c -> ready D s c ->
  (forall cn s', sext s s' -> hwf s' -> heap s' !! cn = Some (node_of c) -> loc s' (tref c) cn -> Q cn s') ->
  sEok E s -> swp (get_child n i) Q E s.
Proof.
  apply (wp_get_child_tree eq (fun _ _ => True) sext hwf loc);
    eauto using eq_sext, sext_refl, sext_trans, sext_hwf, sext_heap, sext_blk, sx_oracle, sext_hnode', sext_loc.
  - intros. by eapply blocks_get_seq.
  - by intros ? [? _].
Qed.
Lemma run_is_leaf n s nd : heap s !! n = Some nd -> run (is_leaf n) s = (Datatypes.inl (length (n_children nd) =? 0)%nat, s).
Proof. intros H. unfold is_leaf, num_children. rewrite !run_bind, run_node_get, H. done. Qed.

Lemma sready_mono D s s' t : sext s s' -> hwf s -> ready D s t -> ready D s' t.
Proof.
  apply (ready_mono sext hwf); eauto using sext_blk, sext_hnode'.
Qed.

Lemma shape_8 h t : shape h t -> (length (tkeys t) <= 8)%nat.
Proof. destruct h, t; simpl; [by intros [_ ?]|by intros (_ & ? & _)]. Qed.
Lemma swp_run {A} (p : prog A) (Q : A -> st -> Prop) s a s' : swp p Q (fun _ _ => True) s -> run p s = (Datatypes.inl a, s') -> Q a s'.
Proof. intros H%rwp_run E. by rewrite E in H. Qed.

Lemma reads_nearest D key fuel : forall t h n acc s,
  hwf s -> ready D s t -> shape h t -> ksorted D (flat t) -> heap s !! n = Some (node_of t) ->
  (reads (nearest_loop fuel n key acc) s <= 5 * h + 4)%nat.
Proof.
  induction fuel as [|fuel IH]; intros t h n acc s Hw Hr Hs Hso Hn; [simpl; lia|]. cbn [nearest_loop]. rewrite reads_bind.
  pose proof (reads_index n key s _ Hn (shape_8 _ _ Hs)) as H4.
  destruct (run (get_index_of_key n key) s) as [[[m i]|x] s1] eqn:E; [|lia].
  assert (sext s s1 /\ hwf s1 /\ idx_ok D key (tkeys t) m i) as (Hx1 & Hw1 & Hi).
  { apply (swp_run _ (fun r s' => sext s s' /\ hwf s' /\ idx_ok D key (tkeys t) (fst r) (snd r)) _ _ _) in E; [exact E|].
    apply (swp_index D n (node_of t)); [done|done|apply (Hr t (subs_self t))| |by eauto|done].
    eapply ksorted_sublist; [by eapply tkeys_sublist|done]. }
  destruct m as [q|]; [cbn [reads]; lia|].
  pose proof (sext_heap _ _ _ _ Hx1 Hn) as Hn1.
  rewrite reads_bind. rewrite (run_is_leaf _ _ _ Hn1). pose proof (cost_is_leaf n s1).
  cbn [node_of n_children]. rewrite map_length.
  destruct (Nat.eqb_spec (length (tkids t)) 0) as [Hz|Hnz]; [cbn [reads]; lia|].
  destruct h as [|h]; [apply shape_leaf in Hs; by rewrite Hs in Hnz|].
  destruct Hi as (Hi & _ & _).
  destruct (lookup_lt_is_Some_2 (tkids t) i) as [c Hc].
  { rewrite (shape_kids_length _ _ Hs). lia. }
  assert (c ∈ tkids t) as Hcin by (by eapply elem_of_list_lookup_2).
  rewrite reads_bind. pose proof (cost_get_child n i s1).
  destruct (run (get_child n i) s1) as [[cn|x] s2] eqn:E2; [|lia].
  assert (ready D s1 c) as Hrc by (eapply ready_kid; [done|by eapply sready_mono]).
  assert (sext s1 s2 /\ hwf s2 /\ heap s2 !! cn = Some (node_of c)) as (Hx2 & Hw2 & Hcn).
  { apply (swp_run _ (fun r s' => sext s1 s' /\ hwf s' /\ heap s' !! r = Some (node_of c)) _ _ _) in E2; [exact E2|].
    apply (swp_child D n t i c); [done|done|done|done|by eauto|done]. }
  assert (reads (nearest_loop fuel cn key ((n, i) :: acc)) s2 <= 5 * h + 4)%nat as Hrec.
  { apply (IH c); [done|by eapply sready_mono|by eapply shape_kids| |done].
    eapply ksorted_sublist; [by eapply kid_sublist|done]. }
  lia.
Qed.

(** ** Whole operations *)
Lemma cost_catch {A} (p : prog A) n : cost p n -> cost (catch p) n.
Proof. intros H s. rewrite reads_catch. apply H. Qed.

Ltac free_step := first
  [ apply cost_ret | apply cost_stop | apply cost_node_get | apply cost_node_new | apply cost_core_len | apply cost_unwrap | apply cost_num_keys
  | apply cost_num_children | apply cost_is_leaf | apply cost_alloc_all | apply cost_append | apply cost_node_mod | apply cost_catch
  | eapply (cost_bind _ _ 0 0); [|intros ?|done] | case_match | assumption | progress cbn beta zeta iota ].
Ltac free := repeat free_step.

Lemma cost_create_header md : cost (create_header md) 0.
Proof. unfold create_header. free. Qed.
Lemma cost_get_root b : cost (get_root b) 1.
Proof.
  unfold get_root, version. eapply (cost_bind _ _ 0 1); [apply cost_core_len|intros v|done].
  destruct (v <=? 1)%nat.
  - apply (cost_mono _ 0); [|lia]. unfold ensure_header. pose proof (cost_create_header None). free.
  - eapply (cost_bind _ _ 1 0); [apply cost_blocks_get|intros e|done]. unfold get_tree_node. free.
Qed.
Lemma reads_get_root b s : (length (core s) <= 1)%nat -> reads (get_root b) s = 0 /\ forall n s', run (get_root b) s = (Datatypes.inl (Some n), s') -> False.
Proof.
  intros Hl. unfold get_root, version. rewrite reads_bind. cbn [run core_len reads]. destruct (Nat.leb_spec (length (core s)) 1); [|lia].
  assert (forall p : prog bool, cost p 0 -> forall s, reads (p ;; Ret (@None nid)) s = 0 /\ forall n s', run (p ;; Ret (@None nid)) s = (Datatypes.inl (Some n), s') -> False) as Hp.
  { intros p Hp s0. split; [pose proof (cost_bind p (fun _ => Ret (@None nid)) 0 0 0 Hp (fun _ => cost_ret _ _) (le_n _) s0); lia|].
    intros n s'. rewrite run_bind. by destruct (run p s0) as [[] ?]. }
  rewrite run_bind. cbn [run core_len]. destruct (Nat.leb_spec (length (core s)) 1); [|lia].
  destruct ((length (core s) =? 0)%nat && b).
  - apply Hp. unfold ensure_header. pose proof (cost_create_header None). free.
  - done.
Qed.

Lemma cost_propagate p : forall ch r, cost (propagate ch p r) 0.
Proof. induction p as [|[n i] p IH]; intros ch r; cbn [propagate]; [free|]. free. apply IH. Qed.
Lemma cost_put_loop m p : forall k cs ch, cost (put_loop m k cs p ch) 0.
Proof.
  induction p as [|[n i] p IH]; intros k cs ch; cbn [put_loop]; [free|]. pose proof cost_propagate. free; try done. 
Qed.
Lemma cost_read_levels ns : cost (read_levels ns) 0.
Proof. induction ns as [|n ns IH]; cbn [read_levels]; free. Qed.
Lemma cost_reorder_loop q nodes fuel : forall stack out, cost (reorder_loop fuel q nodes stack out) 0.
Proof.
  induction fuel as [|fuel IH]; intros [|[n ci] stack] out; cbn [reorder_loop]; free. unfold take_children_with_seq. free. apply IH.
Qed.
Lemma cost_add_changes ch : cost (add_changes ch) 0.
Proof.
  unfold add_changes, reorder_nodes, take_children_with_seq. pose proof cost_read_levels. pose proof cost_reorder_loop. free; done.
Qed.

Ltac free2 := repeat first [apply cost_add_changes | apply cost_put_loop | apply cost_propagate | free_step].

Definition levels (t : option tree) (L : nat) : Prop := match t with Some T => exists h, L = S h /\ shape h T | None => L = 0 end.

Lemma swp_root ens s m t (Q : option nid -> st -> Prop) : rep (core s) m t -> okh s t ->
  (forall T n s', t = Some T -> sext s s' -> heap s' !! n = Some (node_of T) -> loc s' (tref T) n -> Q (Some n) s') ->
  (forall s', t = None -> Q None s') ->
  swp (get_root ens) Q (fun _ _ => True) s.
Proof.
  intros Hr Hok HQ1 HQ0. destruct ens.
  - eapply swp_root_true; [exact Hr|exact Hok|by eauto|by eauto|done].
  - eapply swp_get_root; [exact Hr|exact Hok|by eauto|by eauto|done].
Qed.

(** Finding the node, as in get, put and del. *)
Lemma reads_find {B} ens fuel key (g : option nid -> prog B) (k : option nat -> path -> prog B) s m t L N :
  rep (core s) m t -> okh s t -> levels t L -> cost (g None) 0 ->
  (forall root s', sext s s' -> reads (g (Some root)) s' = reads ('(matched, p) <- nearest_node fuel root (Finite key) ;; k matched p) s') ->
  (forall T h mt p tp s', t = Some T -> L = S h -> sext s s' -> hwf s' -> desc (kd (core s)) (Finite key) T mt tp -> spath_ok s' p tp ->
     (forall q, mt = Some q -> exists n i p', p = (n, i) :: p' /\ reads (get_key_value n i) s' = 0) -> (reads (k mt p) s' <= N)%nat) ->
  (length (core s) <= fuel)%nat ->
  (reads (r <- get_root ens ;; g r) s <= 5 * L + (match t with Some _ => N | None => 0 end))%nat.
Proof.
  intros Hr Hok HL H0 Hg Hk Hf. rewrite reads_bind.
  destruct t as [T|].
  - destruct HL as (h & -> & Hsh). pose proof (cost_get_root ens s) as H1.
    destruct (run (get_root ens) s) as [[r|x] s1] eqn:E; [|lia].
    assert (exists n, r = Some n /\ sext s s1 /\ heap s1 !! n = Some (node_of T) /\ loc s1 (tref T) n) as (n & -> & Hx1 & Hn & Hl).
    { apply (swp_run _ (fun r s1 => exists n, r = Some n /\ sext s s1 /\ heap s1 !! n = Some (node_of T) /\ loc s1 (tref T) n) _ _ _) in E; [done|].
      eapply swp_root; [exact Hr|exact Hok|by intros T' n s' [= <-]; eauto|done]. }
    pose proof Hr as (Hl2 & h' & HW & Hm).
    pose proof (okh_sext _ _ _ _ Hr Hx1 Hok) as Hok1. pose proof (rep_sext _ _ _ _ Hx1 Hr) as Hr1.
    pose proof (okh_ready _ _ _ Hr1 Hok1) as Hrd1. rewrite (sx_core _ _ Hx1) in Hrd1.
    pose proof (wft_height _ _ _ _ HW) as Hhv. pose proof (wf_shape _ _ _ _ HW) as Hsh'. pose proof (wf_sort _ _ _ _ HW) as Hso.
    rewrite (Hg n s1 Hx1), reads_bind. unfold nearest_node.
    assert (reads (nearest_loop fuel n (Finite key) []) s1 <= 5 * h + 4)%nat as H2.
    { eapply reads_nearest; [apply Hok1|exact Hrd1|done|done|done]. }
    destruct (run (nearest_loop fuel n (Finite key) []) s1) as [[[mt p]|x] s2] eqn:E2; [|lia].
    assert (exists tp, sext s1 s2 /\ hwf s2 /\ desc (kd (core s)) (Finite key) T mt tp /\ spath_ok s2 p tp) as (tp & Hx2 & Hw2 & Hd & Hp).
    { pose proof E2 as E3.
      apply (swp_run _ (fun r s2 => exists tp, sext s1 s2 /\ hwf s2 /\ desc (kd (core s)) (Finite key) T (fst r) tp /\ spath_ok s2 (snd r) tp) _ _ _) in E3; [done|].
      eapply (swp_nearest_node (kd (core s))); [apply Hok1|exact Hrd1|apply Hsh'|done|lia|exact Hn|exact Hl| |done].
      intros m' p' tp s' ? ? ? ?. by exists tp. }
    enough (reads (k mt p) s2 <= N)%nat by lia.
    eapply (Hk T h mt p tp); [done|done|by eapply sext_trans|done|done|done|].
    intros q ->. by eapply run_nearest.
  - unfold levels in HL. subst L. destruct Hr as [Hl ->]. destruct (reads_get_root ens s Hl) as [-> Hno].
    destruct (run (get_root ens) s) as [[[n|]|x] s1] eqn:E; [by destruct (Hno n s1)| |lia]. pose proof (H0 s1). lia.
Qed.

Lemma reads_tree_get fuel key s m t L : rep (core s) m t -> okh s t -> levels t L -> (length (core s) <= fuel)%nat ->
  (reads (tree_get fuel key) s <= 5 * L)%nat.
Proof.
  intros Hr Hok HL Hf. unfold tree_get.
  etrans; [eapply (reads_find false fuel key _ (fun matched p => match matched with None => Ret None
    | Some _ => '(n, i) <- unwrap (head p) ;; kv <- get_key_value n i ;; Ret (Some (kv_seq kv, kv_value kv)) end) s m t L 0); try done|destruct t; lia].
  - apply cost_ret.
  - intros T h mt p tp s' _ _ _ _ _ _ Hm. destruct mt as [q|]; [|done]. destruct (Hm q eq_refl) as (n & i & p' & -> & H0).
    cbn [head unwrap pbind]. rewrite reads_bind, H0. by destruct (run (get_key_value n i) s') as [[] ?].
Qed.

Lemma reads_tree_put_cas fuel key value cas s m t L : rep (core s) m t -> okh s t -> levels t L -> (length (core s) <= fuel)%nat ->
  (reads (tree_put_cas fuel key value cas) s <= 5 * L)%nat.
Proof.
  intros Hr Hok HL Hf. unfold tree_put_cas. pose proof cost_add_changes as Ha. pose proof cost_put_loop as Hp.
  etrans; [eapply (reads_find true fuel key _ (fun matched p =>
      old <- (match matched with
              | Some _ => '(n, i) <- unwrap (head p) ;; kv <- get_key_value n i ;; Ret (Some kv)
              | None => Ret None
              end) ;;
      if cas old (KV (length (core s)) key value) then
        r <- put_loop (bool_decide (is_Some matched)) (length (core s)) [] p (Changes (length (core s)) key value []) ;;
        match r with
        | PutReady ch' => add_changes ch' ;; Ret (matched, Some (length (core s)))
        | PutNewRoot k cs ch' =>
            n <- node_new (Node [k] cs) ;;
            let '(_, ch'') := add_node n ch' in
            add_changes ch'' ;; Ret (matched, Some (length (core s)))
        end
      else Ret (matched, None)) s m t L 0); try done|destruct t; lia].
  - unfold version. free2.
  - intros root s' Hx. unfold version, core_len. cbn [pbind reads]. by rewrite (sx_core _ _ Hx).
  - intros T h mt p tp s' _ _ _ _ _ _ Hm. rewrite reads_bind.
    assert (forall old, cost (if cas old (KV (length (core s)) key value) then
        r <- put_loop (bool_decide (is_Some mt)) (length (core s)) [] p (Changes (length (core s)) key value []) ;;
        match r with
        | PutReady ch' => add_changes ch' ;; Ret (mt, Some (length (core s)))
        | PutNewRoot k cs ch' =>
            n <- node_new (Node [k] cs) ;;
            let '(_, ch'') := add_node n ch' in
            add_changes ch'' ;; Ret (mt, Some (length (core s)))
        end else Ret (mt, None)) 0) as Hc.
    { intros old. free2. }
    match goal with |- (?a + ?b <= 0)%nat => assert (a = 0) as ->; [|assert (b = 0) as ->; [|lia]] end.
    + destruct mt as [q|]; [|done]. destruct (Hm q eq_refl) as (n & i & p' & -> & H0).
      cbn [head unwrap pbind]. rewrite reads_bind, H0. by destruct (run (get_key_value n i) s') as [[] ?].
    + match goal with |- context [run ?p s'] => destruct (run p s') as [[old|] s2] end; [|done]. pose proof (Hc old s2). lia.
Qed.

(** Repairing reads at most four siblings per level. *)
Lemma cost_can_rotate sd f di order : cost (can_rotate sd f di order) 1.
Proof.
  unfold can_rotate. eapply (cost_bind _ _ 0 1); [destruct sd; unfold get_donor_index; free|intros d|done].
  destruct d; [|apply cost_ret]. eapply (cost_bind _ _ 1 0); [apply cost_get_child|intros x; free|done].
Qed.
Lemma cost_maybe_rotate sd f di dc order ch : cost (maybe_rotate sd f di dc order ch) 1.
Proof.
  unfold maybe_rotate. eapply (cost_bind _ _ 1 0); [apply cost_can_rotate|intros d|done]. destruct d as [[j dn]|]; [|apply cost_ret].
  unfold rotate, get_donor_key, get_donor_child, swap_donor_key, insert_donations, set_child. destruct sd; free.
Qed.
Lemma cost_maybe_merge sd f di dc ch : cost (maybe_merge sd f di dc ch) 1.
Proof.
  unfold maybe_merge. eapply (cost_bind _ _ 0 1); [destruct sd; unfold get_donor_index; free|intros d|done].
  destruct d; [|apply cost_ret]. eapply (cost_bind _ _ 1 0); [apply cost_get_child|intros x|done]. destruct sd; free.
Qed.
Lemma cost_repair_one f di dc order ch : cost (repair_one f di dc order ch) 4.
Proof.
  unfold repair_one. eapply (cost_bind _ _ 1 3); [apply cost_maybe_rotate|intros [r|]; [apply cost_ret|]|done].
  eapply (cost_bind _ _ 1 2); [apply cost_maybe_rotate|intros [r|]; [apply cost_ret|]|done].
  eapply (cost_bind _ _ 1 1); [apply cost_maybe_merge|intros [r|]; [apply cost_ret|]|done].
  eapply (cost_bind _ _ 1 0); [apply cost_maybe_merge|intros [r|]; free|done].
Qed.
Lemma cost_repair_loop order p : forall f di dc ch, cost (repair_loop p f di dc order ch) (4 * S (length p)).
Proof.
  induction p as [|[n i] p IH]; intros f di dc ch; cbn [repair_loop].
  - eapply (cost_bind _ _ 4 0); [apply cost_repair_one|intros ch'; free|done].
  - eapply (cost_bind _ _ 4 (4 * S (length p))); [apply cost_repair_one|intros ch'|simpl; lia].
    eapply (cost_bind _ _ 0 (4 * S (length p))); [apply cost_num_keys|intros nk|lia].
    eapply (cost_bind _ _ 0 (4 * S (length p))); [apply cost_num_children|intros nc|lia].
    destruct (_ <=? nk)%nat; [apply cost_ret|apply IH].
Qed.
Lemma cost_repair p order ch : cost (repair p order ch) (1 + 4 * length p).
Proof.
  destruct p as [|[f di] p]; [apply cost_stop|]. cbn [repair]. eapply (cost_bind _ _ 1 (4 * S (length p))); [apply cost_get_child|intros dc; apply cost_repair_loop|simpl; lia].
Qed.
Lemma reads_side {B} C v h0 T0 o key n nd u ci j c g fuel tp K s (k : path -> prog B) N :
  wft C v h0 T0 -> length C = S v ->
  MI C (refs T0) o (prefs ((u, ci) :: tp)) K s -> K !! n = Some nd -> n_children nd = map tref (tkids u) ->
  chain u tp T0 -> tkids u !! j = Some c -> shape g c -> (g < fuel)%nat ->
  (forall p s', MI C (refs T0) o (prefs ((u, ci) :: tp)) K s' -> (reads (k p) s' <= N)%nat) ->
  (reads (child <- get_child n j ;; '(_, p) <- nearest_node fuel child key ;; k p) s <= 5 * g + 5 + N)%nat.
Proof.
  intros HW Hv HM Hn Hnd Hch Hj Hsc Hg Hk.
  destruct (chain_ready C v h0 T0 o HW u ci tp K s c j HM Hch Hj) as (_ & R1 & R2 & R3 & R4).
  rewrite reads_bind. pose proof (cost_get_child n j s) as H1.
  destruct (run (get_child n j) s) as [[cn|x] s1] eqn:E; [|lia].
  assert (MI C (refs T0) o (prefs ((u, ci) :: tp)) K s1 /\ loc s1 (tref c) cn /\ heap s1 !! cn = Some (node_of c) /\ sext s s1) as (HM1 & Hl1 & Hh1 & Hx1).
  { apply (swp_run _ (fun cn s1 => MI C (refs T0) o (prefs ((u, ci) :: tp)) K s1 /\ loc s1 (tref c) cn /\ heap s1 !! cn = Some (node_of c) /\ sext s s1) _ _ _) in E; [done|].
    eapply (m_read C (refs T0) o); [exact HM|exact Hn| |exact R1|exact R2|exact R3|done|done].
    rewrite Hnd. change (map tref (tkids u)) with (tref <$> tkids u). by rewrite list_lookup_fmap, Hj. }
  rewrite reads_bind. unfold nearest_node.
  destruct (chain_ready C v h0 T0 o HW u ci tp K s1 c j HM1 Hch Hj) as (R0 & _).
  assert (reads (nearest_loop fuel cn key []) s1 <= 5 * g + 4)%nat as H2.
  { eapply reads_nearest; [apply HM1|exact R0|done|done|done]. }
  destruct (run (nearest_loop fuel cn key []) s1) as [[[mt p]|x] s2] eqn:E2; [|lia].
  assert (sext s1 s2) as Hx2.
  { apply (swp_run _ (fun _ s2 => sext s1 s2) _ _ _) in E2; [done|].
    eapply (swp_nearest_node (kd C)); [apply HM1|exact R0|exact Hsc|done|done|exact Hh1|exact Hl1| |done]. by eauto. }
  assert (reads (k p) s2 <= N)%nat; [|lia]. apply Hk. by eapply MI_sext.
Qed.

Lemma run_num_keys n s : run (num_keys n) s = match heap s !! n with Some nd => (Datatypes.inl (length (n_keys nd)), s) | None => (Datatypes.inr SPanic, s) end.
Proof. unfold num_keys. rewrite run_bind, run_node_get. by destruct (heap s !! n). Qed.
Lemma reads_top {B} (p : path) (k : nid -> nat -> prog B) s N : (forall x nk, reads (k x nk) s <= N)%nat -> (reads ('(x, _) <- unwrap (head p) ;; nk <- num_keys x ;; k x nk) s <= N)%nat.
Proof.
  intros H. rewrite reads_bind, run_unwrap. pose proof (cost_unwrap (head p) s). destruct (head p) as [[x i]|]; [|lia].
  rewrite reads_bind, run_num_keys. pose proof (cost_num_keys x s). destruct (heap s !! x) as [nd|]; [|lia]. specialize (H x (length (n_keys nd))). lia.
Qed.

Lemma reads_replace C v h0 T0 o n nd u ci g fuel tp p K s q0 :
  wft C v h0 T0 -> length C = S v ->
  MI C (refs T0) o (prefs ((u, ci) :: tp)) K s -> K !! n = Some nd -> n_children nd = map tref (tkids u) ->
  chain u tp T0 -> tkeys u !! ci = Some q0 -> shape (S g) u -> (g < fuel)%nat ->
  (reads (replace_removed fuel p n ci) s <= 10 * S g)%nat.
Proof.
  intros HW Hv HM Hn Hnd Hch Hci Hsu Hg. unfold replace_removed.
  pose proof (lookup_lt_Some _ _ _ Hci) as Hlt. pose proof (shape_kids_length _ _ Hsu) as Hlen.
  destruct (lookup_lt_is_Some_2 (tkids u) ci ltac:(lia)) as [lc Hlc].
  destruct (lookup_lt_is_Some_2 (tkids u) (S ci) ltac:(lia)) as [rc Hrc].
  destruct (shape_kids g u lc Hsu) as [_ Lsh]; [by eapply elem_of_list_lookup_2|].
  destruct (shape_kids g u rc Hsu) as [_ Rsh]; [by eapply elem_of_list_lookup_2|].
  replace (10 * S g)%nat with (5 * g + 5 + (5 * g + 5 + 0))%nat by lia.
  eapply reads_side; [done|done|exact HM|exact Hn|done|exact Hch|exact Hlc|done|done|].
  intros lp s1 HM1. apply (reads_top lp). intros ln nl. replace (ci + 1)%nat with (S ci) by lia.
  eapply reads_side; [done|done|exact HM1|exact Hn|done|exact Hch|exact Hrc|done|done|].
  intros rp s2 HM2. apply (reads_top rp). intros rn nr.
  match goal with |- (reads ?p s2 <= 0)%nat => assert (cost p 0) as Hc by free end. apply Hc.
Qed.

(** The end of a deletion, once the path to the leaf is known. *)
Definition del_end (key : bytes) (v seq : nat) (p2 : path) : prog (option (bool * nat)) :=
  '(bottom, _) <- unwrap (head p2) ;;
  let p3 := tail p2 in
  nk <- num_keys bottom ;;
  '(child, p4, ch') <-
    (if negb (bool_decide (p3 = [])) && (nk <? min_keys MAX_KEYS)%nat
     then repair p3 MAX_KEYS (Changes v key None [])
     else let '(r, ch1) := add_node bottom (Changes v key None []) in Ret (r, p3, ch1)) ;;
  ch'' <- propagate ch' p4 child ;;
  add_changes ch'' ;;
  Ret (Some (true, seq)).
Lemma cost_del_end key v seq p2 : cost (del_end key v seq p2) (1 + 4 * length (tail p2)).
Proof.
  unfold del_end. eapply (cost_bind _ _ 0); [apply cost_unwrap|intros [bottom bi]|apply le_n]. cbn zeta.
  eapply (cost_bind _ _ 0); [apply cost_num_keys|intros nk|apply le_n].
  eapply (cost_bind _ _ (1 + 4 * length (tail p2)) 0); [|intros [[child p4] ch']; free2|lia].
  destruct (_ && _); [apply cost_repair|]. eapply (cost_mono _ 0); [free|lia].
Qed.

Lemma shape_det h : forall h' t, shape h t -> shape h' t -> h = h'.
Proof.
  induction h as [|h IH]; intros [|h'] [r ks cs]; simpl; [done|intros [-> _] [? _]; done|intros [? _] [-> _]; done|].
  intros (Hl & _ & H1) (_ & _ & H2). destruct cs as [|c cs]; [done|]. apply Forall_cons in H1 as [[_ H1] _]. apply Forall_cons in H2 as [[_ H2] _].
  f_equal. by eapply IH.
Qed.

Lemma reads_tree_del_cas fuel key cas s m t L : rep (core s) m t -> okh s t -> levels t L -> (length (core s) <= fuel)%nat ->
  (reads (tree_del_cas fuel key cas) s <= 20 * L)%nat.
Proof.
  intros Hr Hok HL Hf. unfold tree_del_cas.
  etrans; [eapply (reads_find false fuel key _ (fun matched p => match matched with None => Ret None | Some seq =>
          '(n, i) <- unwrap (head p) ;;
          kv <- get_key_value n i ;;
          if cas kv then
            v <- version ;;
            '(cur, ci) <- unwrap (head p) ;;
            let p1 := tail p in
            node_mod cur (on_keys (vec_remove ci)) ;;
            leaf <- is_leaf cur ;;
            p2 <- (if (leaf : bool) then Ret ((cur, ci) :: p1)
                   else replace_removed fuel p1 cur ci) ;;
            del_end key v seq p2
          else Ret (Some (false, seq)) end) s m t L (15 * L - 1)); try done|destruct t; [|lia]; destruct HL as (h & -> & _); lia].
  - apply cost_ret.
  - intros T h mt p tpf s1 -> -> Hx1 Hw1 Hd Hp Hm. destruct mt as [q|]; [|simpl; lia]. destruct (Hm q eq_refl) as (n & i & p' & -> & H0).
    pose proof Hr as (Hl2 & h' & HW & _). destruct HL as (h2 & [= <-] & Hsh).
    assert (h' = h) as ->. { eapply shape_det; [apply (proj1 (wf_shape _ _ _ _ HW))|exact Hsh]. }
    destruct (wf_shape _ _ _ _ HW) as [Hs0 Hr0].
    cbn [head unwrap pbind]. rewrite reads_bind, H0.
    destruct (run (get_key_value n i) s1) as [[kv|x] s2] eqn:E; [|lia].
    destruct (desc_zip _ _ _ _ _ _ 1 Hd Hs0) as (b & i' & tp & g & -> & Hch & Hlen & Hz & Hsb & H4 & Hfa).
    { destruct Hr0 as [->|Hne]; [by left|right]. destruct (tkeys T); [done|simpl; lia]. }
    { apply HW. }
    destruct Hfa as [Hi Hk].
    pose proof Hp as Hp'. apply Forall2_cons in Hp' as [(Hi' & Hn & Hln) Hp']. cbn [fst snd] in *. subst i'.
    assert (sext s1 s2 /\ hwf s2) as [Hx2 Hw2].
    { apply (swp_run _ (fun _ s2 => sext s1 s2 /\ hwf s2) _ _ _) in E; [done|].
      eapply (swp_get_key_value (kd (core s))); [done|exact Hn|exact Hi| |by eauto|done].
      eapply wft_kok; [exact HW|apply Hx1|]. apply (elem_of_flat_sub h); [done|]. exists b. split; [by eapply chain_subs|]. by eapply elem_of_list_lookup_2. }
    destruct (cas kv); [|simpl; lia].
    assert (sext s s2) as Hx02 by (by eapply sext_trans).
    pose proof (okh_sext _ _ _ _ Hr Hx02 Hok) as [_ Hco2].
    destruct (prefs_nodup (core s) _ h T HW b i tp Hch) as [Hnd Hin].
    destruct (claim_path (core s) T (oracle s2) _ _ _ _ _ (MI_init (core s) T (oracle s2) s2 Hw2 (sx_core _ _ Hx02) Hco2 eq_refl) (spath_mono _ _ _ _ Hx2 Hp) Hnd Hin)
      as (K & M1 & M2 & M3 & M4 & M5); [by intros ? _ ?%elem_of_nil|].
    rewrite app_nil_r in M1. apply Forall2_cons in M2 as [[_ Hb] M2']. simpl in Hb.
    unfold version, core_len. cbn [pbind reads head unwrap tail]. cbn zeta. rewrite reads_bind.
    pose proof (cost_node_mod n (on_keys (vec_remove i)) s2) as Hc0.
    destruct (run (node_mod n (on_keys (vec_remove i))) s2) as [[x|x] s3] eqn:E3; [|lia].
    set (nd' := Node (take i (tkeys b) ++ drop (S i) (tkeys b)) (map tref (tkids b))).
    assert (MI (core s) (refs T) (oracle s2) (prefs ((b, i) :: tp)) (<[n := nd']> K) s3) as HM3.
    { apply (swp_run _ (fun _ s3 => MI (core s) (refs T) (oracle s2) (prefs ((b, i) :: tp)) (<[n := nd']> K) s3) _ _ _) in E3; [done|].
      eapply (m_mod _ _ _ _ _ s2 n); [exact M1|exact Hb| |by eauto].
      unfold on_keys, vec_remove. cbn [node_of n_keys n_children]. rewrite Hi. reflexivity. }
    assert (heap s3 !! n = Some nd') as Hn3 by (eapply (mi_own _ _ _ _ _ _ HM3); by rewrite lookup_insert).
    rewrite reads_bind, (run_is_leaf _ _ _ Hn3). pose proof (cost_is_leaf n s3). cbn [nd' n_children]. rewrite map_length.
    assert (length p' = length tp) as Hlp by (by apply Forall2_length in Hp').
    rewrite reads_bind. destruct (Nat.eqb_spec (length (tkids b)) 0) as [E0|E0].
    + cbn [reads run]. pose proof (cost_del_end key (length (core s2)) q ((n, i) :: p') s3) as Hc. cbn [tail] in Hc. lia.
    + destruct g as [|g]; [by apply shape_leaf in Hsb; rewrite Hsb in E0|].
      assert (reads (replace_removed fuel p' n i) s3 <= 10 * S g)%nat as H10.
      { eapply (reads_replace (core s)); [exact HW|lia|exact HM3|by rewrite lookup_insert|done|exact Hch|exact Hi|exact Hsb|].
        pose proof (wft_height _ _ _ _ HW). lia. }
      destruct (run (replace_removed fuel p' n i) s3) as [[p2|x2] s4] eqn:E4; [|lia].
      assert (length (tail p2) = h) as Hl.
      { apply (swp_run _ (fun p2 _ => length (tail p2) = h) _ _ _) in E4; [done|]. simpl in M3. apply NoDup_cons in M3 as [N1 N2].
        eapply (m_replace (core s) _ h T (oracle s2) HW ltac:(lia) fuel n i b g q tp p' _ s3); [exact HM3|by rewrite lookup_insert| | |done|done|done|done| | | |done].
        - eapply pK_mono; [|exact M2']. intros n' Hn'. rewrite lookup_insert_ne; [done|]. by intros <-.
        - by apply NoDup_cons.
        - destruct tp; [destruct (tkeys b); [done|simpl; lia]|by apply H4].
        - pose proof (wft_height _ _ _ _ HW). lia.
        - intros K' s' b' b0 bn bi px tp' tp0 _ A2 _ _ _ _ _ _ _ _ _ A12 _ _ _ _ _ _. apply Forall2_length in A2. simpl in A2. simpl. lia. }
      pose proof (cost_del_end key (length (core s2)) q p2 s4) as Hc. rewrite Hl in Hc. lia.
Qed.

(** ** Every block is fetched once *)
(** Reads that bring nothing usable. *)
Fixpoint misses {A} (p : prog A) (s : st) : nat :=
  match p with
  | Ret _ | Stop _ => 0
  | CoreLen k => misses (k (length (core s))) s
  | CoreGet q k => let '(r, s') := exec_get q s in (badget r + misses (k r) s')%nat
  | CoreAppend b k => let '(r, s') := exec_append b s in misses (k r) s'
  | CacheGet q k => misses (k (cache s !! q)) s
  | CachePut q e k => misses k (set_cache s (<[q := e]> (cache s)))
  | NodeNew nd k => misses (k (length (heap s))) (set_heap s (heap s ++ [nd]))
  | NodeGet n k => match heap s !! n with Some nd => misses (k nd) s | None => 0 end
  | NodeUpd n f k =>
      match heap s !! n with
      | Some nd =>
          match f nd with
          | Some nd' => misses (k nd) (set_heap s (<[n := nd']> (heap s)))
          | None => 0
          end
      | None => 0
      end
  end.
Lemma misses_bind {A B} (p : prog A) (f : A -> prog B) s :
  misses (pbind p f) s = (misses p s + match run p s with (Datatypes.inl a, s') => misses (f a) s' | _ => 0 end)%nat.
Proof.
  revert s. induction p as [a|x|k IH|q k IH|b k IH|q k IH|q e k IH|nd k IH|n k IH|n g k IH]; intros s; simpl; try done.
  - destruct (exec_get q s). rewrite IH. lia.
  - destruct (exec_append b s). by rewrite IH.
  - destruct (heap s !! n); [by rewrite IH|done].
  - destruct (heap s !! n) as [nd|]; [|done]. destruct (g nd); [by rewrite IH|done].
Qed.
Lemma misses_catch {A} (p : prog A) s : misses (catch p) s = misses p s.
Proof.
  revert s. induction p as [a|x|k IH|q k IH|b k IH|q k IH|q e k IH|nd k IH|n k IH|n g k IH]; intros s; simpl; try done.
  - by destruct x.
  - destruct (exec_get q s). by rewrite IH.
  - destruct (exec_append b s). by rewrite IH.
  - destruct (heap s !! n); [by rewrite IH|done].
  - destruct (heap s !! n) as [nd|]; [|done]. destruct (g nd); [by rewrite IH|done].
Qed.
Lemma run_catch {A} (p : prog A) s : run (catch p) s =
  match run p s with
  | (Datatypes.inl a, s') => (Datatypes.inl (Datatypes.inl a), s')
  | (Datatypes.inr (SErr e), s') => (Datatypes.inl (Datatypes.inr e), s')
  | (Datatypes.inr x, s') => (Datatypes.inr x, s')
  end.
Proof.
  revert s. induction p as [a|x|k IH|q k IH|b k IH|q k IH|q e k IH|nd k IH|n k IH|n g k IH]; intros s; simpl; try done.
  - by destruct x.
  - destruct (exec_get q s). by rewrite IH.
  - destruct (exec_append b s). by rewrite IH.
  - destruct (heap s !! n); [by rewrite IH|done].
  - destruct (heap s !! n) as [nd|]; [|done]. destruct (g nd); [by rewrite IH|done].
Qed.

(** [P] holds at every point of the run; [n] counts the reads that were not missed. *)
Fixpoint along {A} (P : st -> nat -> Prop) (p : prog A) (s : st) (n : nat) : Prop :=
  P s n /\
  match p with
  | Ret _ | Stop _ => True
  | CoreLen k => along P (k (length (core s))) s n
  | CoreGet q k => let '(r, s') := exec_get q s in along P (k r) s' (n + (1 - badget r))
  | CoreAppend b k => let '(r, s') := exec_append b s in along P (k r) s' n
  | CacheGet q k => along P (k (cache s !! q)) s n
  | CachePut q e k => along P k (set_cache s (<[q := e]> (cache s))) n
  | NodeNew nd k => along P (k (length (heap s))) (set_heap s (heap s ++ [nd])) n
  | NodeGet m k => match heap s !! m with Some nd => along P (k nd) s n | None => True end
  | NodeUpd m f k =>
      match heap s !! m with
      | Some nd => match f nd with Some nd' => along P (k nd) (set_heap s (<[m := nd']> (heap s))) n | None => True end
      | None => True
      end
  end.
Lemma badget_1 r : (badget r <= 1)%nat.
Proof. destruct r as [|[raw|]]; simpl; try lia. destruct (decode_block raw); lia. Qed.
Lemma along_bind {A B} P (p : prog A) (f : A -> prog B) : forall s n, along P p s n ->
  (forall a s' n', run p s = (Datatypes.inl a, s') -> (n' + misses p s = n + reads p s)%nat -> along P (f a) s' n') -> along P (pbind p f) s n.
Proof.
  induction p as [a|x|k IH|q k IH|b k IH|q k IH|q e k IH|nd k IH|m k IH|m g k IH]; intros s n; cbn [along pbind]; intros [H1 H2] Hf.
  - apply Hf; [done|simpl; lia].
  - done.
  - split; [done|]. apply IH; [done|]. intros a s' n' E En. apply Hf; [done|simpl; lia].
  - split; [done|]. cbn [run misses reads] in Hf. destruct (exec_get q s) as [r s1]. apply IH; [done|]. intros a s' n' E En.
    apply Hf; [done|]. pose proof (badget_1 r). lia.
  - split; [done|]. cbn [run misses reads] in Hf. destruct (exec_append b s) as [r s1]. apply IH; [done|]. intros a s' n' E En. by apply Hf.
  - split; [done|]. apply IH; [done|]. intros a s' n' E En. apply Hf; [done|simpl; lia].
  - split; [done|]. apply IH; [done|]. intros a s' n' E En. apply Hf; [done|simpl; lia].
  - split; [done|]. apply IH; [done|]. intros a s' n' E En. apply Hf; [done|simpl; lia].
  - split; [done|]. cbn [run misses reads] in Hf. destruct (heap s !! m); [|done]. apply IH; [done|]. intros a s' n' E En. by apply Hf.
  - split; [done|]. cbn [run misses reads] in Hf. destruct (heap s !! m) as [nd|]; [|done]. destruct (g nd); [|done].
    apply IH; [done|]. intros a s' n' E En. by apply Hf.
Qed.
Lemma along_catch {A} P (p : prog A) : forall s n, along P p s n -> along P (catch p) s n.
Proof.
  induction p as [a|x|k IH|q k IH|b k IH|q k IH|q e k IH|nd k IH|m k IH|m g k IH]; intros s n; cbn [along catch]; intros [H1 H2].
  - by split.
  - destruct x; by split.
  - split; [done|]. by apply IH.
  - split; [done|]. destruct (exec_get q s). by apply IH.
  - split; [done|]. destruct (exec_append b s). by apply IH.
  - split; [done|]. by apply IH.
  - split; [done|]. by apply IH.
  - split; [done|]. by apply IH.
  - split; [done|]. destruct (heap s !! m); [by apply IH|done].
  - split; [done|]. destruct (heap s !! m) as [nd|]; [|done]. destruct (g nd); [by apply IH|done].
Qed.
Lemma along_mono {A} (P : st -> nat -> Prop) (p : prog A) : (forall s n n', (n' <= n)%nat -> P s n -> P s n') ->
  forall s n n', (n' <= n)%nat -> along P p s n -> along P p s n'.
Proof.
  intros HP. induction p as [a|x|k IH|q k IH|b k IH|q k IH|q e k IH|nd k IH|m k IH|m g k IH]; intros s n n' Hn; cbn [along]; intros [H1 H2].
  all: split; [by eapply HP|]; try done; try by eapply IH.
  - destruct (exec_get q s). eapply IH; [|done]. lia.
  - destruct (exec_append b s). by eapply IH.
  - destruct (heap s !! m); [by eapply IH|done].
  - destruct (heap s !! m) as [nd|]; [|done]. destruct (g nd); [by eapply IH|done].
Qed.
Lemma along_head {A} P (p : prog A) s n : along P p s n -> P s n.
Proof. destruct p; cbn [along]; by intros [? _]. Qed.
Lemma along_run {A} P (p : prog A) : forall s n, along P p s n -> exists n', P (snd (run p s)) n'.
Proof.
  induction p as [a|x|k IH|q k IH|b k IH|q k IH|q e k IH|nd k IH|m k IH|m g k IH]; intros s n; cbn [along run]; intros [H1 H2]; try by eauto.
  - destruct (exec_get q s). by eauto.
  - destruct (exec_append b s). by eauto.
  - destruct (heap s !! m); by eauto.
  - destruct (heap s !! m) as [nd|]; [|by eauto]. destruct (g nd); by eauto.
Qed.
Lemma along_upto {A} P k : forall (p : prog A) s n, along P p s n -> exists n', P (snd (run_upto k p s)) n' /\ (n' + misses_upto k p s = n + reads_upto k p s)%nat.
Proof.
  induction k as [|k IH]; intros p s n H; [exists n; split; [by eapply along_head|done]|]. cbn [run_upto misses_upto reads_upto].
  assert (along P (fst (step p s)) (snd (step p s)) (n + match p with CoreGet q _ => 1 - badget (fst (exec_get q s)) | _ => 0 end)) as G.
  { destruct p as [a|x|k'|q k'|b k'|q k'|q e k'|nd k'|m k'|m g k']; cbn [along step] in *; rewrite ?Nat.add_0_r.
    1-2: done. all: destruct H as [H1 H2]; try done.
    - by destruct (exec_get q s).
    - by destruct (exec_append b s).
    - destruct (heap s !! m); [done|]. cbn [along fst snd]. done.
    - destruct (heap s !! m) as [nd|]; [|by cbn [along fst snd]]. destruct (g nd); [done|by cbn [along fst snd]]. }
  destruct (step p s) as [p' s']. cbn [fst snd] in G. destruct (IH _ _ _ G) as (n' & H1 & H2). exists n'. split; [done|].
  destruct p as [a|x|k'|q k'|b k'|q k'|q e k'|nd k'|m k'|m g k']; try lia. pose proof (badget_1 (fst (exec_get q s))). lia.
Qed.

(** What is fetched stays, or is missed; on the way at most one block is fetched and not yet kept. *)
Definition roomy (s : st) (n : nat) : Prop := (n <= S (size (cache s)))%nat.
Definition thrifty {A} (p : prog A) : Prop := forall s,
  (reads p s + size (cache s) <= size (cache (snd (run p s))) + misses p s)%nat /\ along roomy p s (size (cache s)).
(** A miss ends the program with an error. *)
Definition strict {A} (p : prog A) : Prop := forall s, (misses p s <= match fst (run p s) with Datatypes.inl _ => 0 | Datatypes.inr _ => 1 end)%nat.
(** Only blocks of the core are kept. *)
Definition within_core (s : st) : Prop := forall q, is_Some (cache s !! q) -> (q < length (core s))%nat.
Definition keeps {A} (p : prog A) : Prop := forall s n, within_core s -> along (fun s _ => within_core s) p s n.
Definition careful {A} (p : prog A) : Prop := (thrifty p /\ keeps p) /\ strict p.

Lemma keeps_run {A} (p : prog A) s : keeps p -> within_core s -> within_core (snd (run p s)).
Proof. intros H Hs. by destruct (along_run _ _ _ _ (H s 0 Hs)). Qed.
Lemma thrifty_bind {A B} (p : prog A) (f : A -> prog B) : thrifty p -> (forall a, thrifty (f a)) -> thrifty (pbind p f).
Proof.
  intros Hp Hf s. destruct (Hp s) as [H1 H2]. split.
  - rewrite reads_bind, misses_bind, run_bind. destruct (run p s) as [[a|x] s']; simpl in *; [|lia].
    destruct (Hf a s') as [H3 _]. lia.
  - apply along_bind; [done|]. intros a s' n' E En. rewrite E in H1. cbn [snd] in H1. destruct (Hf a s') as [_ H4].
    eapply along_mono; [|..|exact H4]; [unfold roomy; intros; lia|lia].
Qed.
Lemma keeps_bind {A B} (p : prog A) (f : A -> prog B) : keeps p -> (forall a, keeps (f a)) -> keeps (pbind p f).
Proof.
  intros Hp Hf s n Hs. apply along_bind; [by apply Hp|]. intros a s' n' E _. apply Hf. pose proof (keeps_run p s Hp Hs) as H. by rewrite E in H.
Qed.
Lemma thrifty_catch {A} (p : prog A) : thrifty p -> thrifty (catch p).
Proof.
  intros Hp s. destruct (Hp s) as [H1 H2]. split; [|by apply along_catch]. rewrite reads_catch, misses_catch, run_catch. by destruct (run p s) as [[a|[]] s'].
Qed.
Lemma keeps_catch {A} (p : prog A) : keeps p -> keeps (catch p).
Proof. intros Hp s n Hs. apply along_catch. by apply Hp. Qed.
Lemma careful_bind {A B} (p : prog A) (f : A -> prog B) : careful p -> (forall a, careful (f a)) -> careful (pbind p f).
Proof.
  intros [[H1 H3] H2] Hf. split; [split; [apply thrifty_bind; [done|apply Hf]|apply keeps_bind; [done|apply Hf]]|].
  intros s. rewrite misses_bind, run_bind. specialize (H2 s).
  destruct (run p s) as [[a|x] s']; simpl in *; [|lia]. pose proof (proj2 (Hf a) s'). lia.
Qed.
Ltac leaf := split; [split|]; [intros s; split|intros s nn Hs|intros s]; cbn; unfold roomy; split_and?; cbn; try done; try lia.
Lemma careful_ret {A} (a : A) : careful (Ret a).
Proof. leaf. Qed.
Lemma careful_stop {A} x : careful (@Stop A x).
Proof. leaf. Qed.
Lemma careful_node_get n : careful (node_get n).
Proof. unfold node_get. leaf; destruct (heap s !! _); cbn; split_and?; cbn; try done; lia. Qed.
Lemma careful_node_new nd : careful (node_new nd).
Proof. leaf. Qed.
Lemma careful_core_len : careful core_len.
Proof. leaf. Qed.
Lemma careful_unwrap {A} (o : option A) : careful (unwrap o).
Proof. destruct o; [apply careful_ret|apply careful_stop]. Qed.
Lemma careful_node_mod {B} n (f : node -> option (B * node)) : careful (node_mod n f).
Proof.
  unfold node_mod. leaf; (destruct (heap s !! n) as [nd|]; [|cbn; try done; lia]); cbn; split_and?; cbn; try done; try lia;
    destruct (f nd) as [[b nd']|]; cbn; split_and?; cbn; try done; lia.
Qed.
Lemma careful_append b : careful (blocks_append b).
Proof.
  unfold blocks_append. leaf; unfold exec_append; destruct (oracle s) as [|[] o]; cbn; split_and?; cbn; try done; try lia.
  all: intros q Hq; specialize (Hs q Hq); cbn in *; rewrite app_length; lia.
Qed.

Ltac care_step := first
  [ apply careful_ret | apply careful_stop | apply careful_node_get | apply careful_node_new | apply careful_core_len | apply careful_unwrap
  | apply careful_append | apply careful_node_mod | assumption
  | apply careful_bind; [|intros ?] | case_match | progress cbn beta zeta iota ].
Ltac care := repeat care_step.

Lemma misses_alloc_all l : forall s, misses (alloc_all l) s = 0.
Proof.
  induction l as [|nd l IH]; intros s; cbn [alloc_all]; [done|]. rewrite misses_bind. simpl. rewrite misses_bind, IH.
  by destruct (run (alloc_all l) _) as [[] ?].
Qed.
Lemma along_alloc_all (P : st -> nat -> Prop) l : (forall s h n, P s n -> P (set_heap s h) n) -> forall s n, P s n -> along P (alloc_all l) s n.
Proof.
  intros HP. induction l as [|nd l IH]; intros s n H; cbn [alloc_all]; [by split|]. apply along_bind; [by repeat split; try apply HP|].
  cbn. intros a s' n' [= <- <-] En. apply along_bind; [apply IH; replace n' with n by lia; by apply HP|].
  intros ns s2 n2 E En2. split; [|done]. destruct (run_alloc_all l (set_heap s (heap s ++ [nd]))) as (ns' & h & Er). rewrite Er in E. injection E as <- <-.
  assert (n2 = n) as -> by (rewrite misses_alloc_all in En2; pose proof (cost_alloc_all l (set_heap s (heap s ++ [nd]))); lia). by repeat apply HP.
Qed.
Lemma careful_blocks_get q : careful (blocks_get q).
Proof.
  assert (forall (P : st -> nat -> Prop) s n, (forall s h n, P s n -> P (set_heap s h) n) -> (forall s o n, P s n -> P (set_oracle s o) n) -> P s n ->
    (cache s !! q = None -> P s (S n)) ->
    (forall s' e, cache s !! q = None -> core s' = core s -> cache s' = cache s -> (q < length (core s))%nat -> P (set_cache s' (<[q:=e]> (cache s))) (S n)) ->
    along P (blocks_get q) s n) as HA.
  { intros P s n HP HO H0 H1 H2. unfold blocks_get. split; [done|]. cbn. destruct (cache s !! q) as [e|] eqn:Ec; cbn; [done|]. split; [done|].
    pose proof (exec_get_state q s) as Hg. destruct (exec_get q s) as [r s1] eqn:Eg. cbn in Hg. subst s1.
    destruct r as [|[raw|]]; cbn; rewrite ?Nat.add_0_r; [split; [by apply HO|done]| |split; [by apply HO|done]].
    destruct (decode_block raw) as [| |b] eqn:Ed; cbn; rewrite ?Nat.add_0_r; [split; [by apply HO|done]..|].
    replace (n + 1)%nat with (S n) by lia. apply along_bind; [apply along_alloc_all; [done|]; apply HO; by apply H1|].
    intros ns s' n' E En. destruct (run_alloc_all (b_nodes b) (set_oracle s (tail (oracle s)))) as (ns' & h & Er). rewrite Er in E. injection E as <- <-.
    assert (n' = S n) as -> by (rewrite misses_alloc_all in En; pose proof (cost_alloc_all (b_nodes b) (set_oracle s (tail (oracle s)))); lia).
    split; [apply HP, HO; by apply H1|]. cbn [cache set_heap set_oracle]. assert (q < length (core s))%nat as Hl
      by (unfold exec_get in Eg; destruct (oracle s) as [|[] o]; simplify_eq; by eapply lookup_lt_Some).
    split; [by apply H2|done]. }
  split; [split|].
  - intros s. split; [|apply HA; unfold roomy; cbn; try done; try lia].
    2:{ intros s' e Hn _ _ _. cbn. rewrite map_size_insert_None by done. lia. }
    unfold blocks_get; simpl; destruct (cache s !! q) as [e|] eqn:Ec; simpl; try done; try lia.
    pose proof (exec_get_state q s) as Hg; destruct (exec_get q s) as [r s1] eqn:Eg; simpl in Hg; subst s1.
    destruct r as [|[raw|]]; simpl; try done; try lia.
    destruct (decode_block raw) as [| |b] eqn:Ed; simpl; rewrite ?Ed; try done; try lia.
    rewrite ?reads_bind, ?misses_bind, ?run_bind; match goal with |- context [run (alloc_all ?l) ?s] => destruct (run_alloc_all l s) as (ns & h & ->) end; simpl.
    rewrite ?misses_alloc_all.
    pose proof (cost_alloc_all (b_nodes b) (set_oracle s (tail (oracle s)))). rewrite map_size_insert_None by done. lia.
  - intros s n Hs. apply HA; try done. intros s' e Hn E1 E2 Hl q' Hq'. cbn in *. rewrite E1.
    destruct (decide (q' = q)) as [->|Hne]; [done|]. rewrite lookup_insert_ne in Hq' by done. by apply Hs.
  - intros s; unfold blocks_get; simpl; destruct (cache s !! q) as [e|] eqn:Ec; simpl; try done; try lia.
    pose proof (exec_get_state q s) as Hg; destruct (exec_get q s) as [r s1] eqn:Eg; simpl in Hg; subst s1.
    destruct r as [|[raw|]]; simpl; try done; try lia.
    destruct (decode_block raw) as [| |b] eqn:Ed; simpl; rewrite ?Ed; try done; try lia.
    rewrite ?reads_bind, ?misses_bind, ?run_bind; match goal with |- context [run (alloc_all ?l) ?s] => destruct (run_alloc_all l s) as (ns & h & ->) end; simpl.
    rewrite ?misses_alloc_all. lia.
Qed.
Lemma careful_get_key_value n i : careful (get_key_value n i).
Proof. unfold get_key_value. repeat first [apply careful_blocks_get | care_step]. Qed.
Lemma careful_get_child n i : careful (get_child n i).
Proof. unfold get_child, get_tree_node. repeat first [apply careful_blocks_get | care_step]. Qed.
Lemma careful_num_keys n : careful (num_keys n).
Proof. unfold num_keys. care. Qed.
Lemma careful_num_children n : careful (num_children n).
Proof. unfold num_children. care. Qed.
Lemma careful_is_leaf n : careful (is_leaf n).
Proof. unfold is_leaf, num_children. care. Qed.
Ltac care2 := repeat first [apply careful_get_key_value | apply careful_get_child | apply careful_num_keys | apply careful_num_children
  | apply careful_is_leaf | apply careful_blocks_get | care_step].
Lemma careful_search_loop n key fuel : forall low high, careful (search_loop fuel n key low high).
Proof. induction fuel as [|fuel IH]; intros low high; cbn [search_loop]; [care|]. repeat first [apply IH | apply careful_get_key_value | care_step]. Qed.
Lemma careful_index n key : careful (get_index_of_key n key).
Proof. unfold get_index_of_key. repeat first [apply careful_search_loop | apply careful_num_keys | care_step]. Qed.
Lemma careful_nearest key fuel : forall n acc, careful (nearest_loop fuel n key acc).
Proof. induction fuel as [|fuel IH]; intros n acc; cbn [nearest_loop]; [care|]. apply careful_bind; [apply careful_index|intros [mt i]]. repeat first [apply IH | apply careful_get_key_value | apply careful_get_child | apply careful_is_leaf | care_step]. Qed.
Lemma careful_create_header md : careful (create_header md).
Proof. unfold create_header. care. Qed.
Lemma careful_ensure_header : careful ensure_header.
Proof.
  unfold ensure_header. pose proof (careful_create_header None) as [[Ht Hk] Hs]. split; [split|].
  - apply thrifty_bind; [by apply thrifty_catch|]. intros [x|e]; [apply careful_ret|]. destruct e; first [apply careful_ret|apply careful_stop].
  - apply keeps_bind; [by apply keeps_catch|]. intros [x|e]; [apply careful_ret|]. destruct e; first [apply careful_ret|apply careful_stop].
  - intros s. rewrite misses_bind, misses_catch, run_bind, run_catch.
    assert (misses (create_header None) s = 0) as ->.
    { unfold create_header. rewrite misses_bind. cbn [run core_len misses]. destruct (length (core s) =? 0)%nat; [|done].
      pose proof (proj2 (careful_append (enc_header (Header PROTOCOL None))) s). unfold blocks_append in *. rewrite misses_bind in *. simpl in *.
      destruct (exec_append _ s) as [b s']. by destruct b. }
    destruct (run (create_header None) s) as [[a|[e| |]] s']; simpl; try lia. destruct e; simpl; lia.
Qed.
Lemma careful_get_root b : careful (get_root b).
Proof. unfold get_root, version, get_tree_node. repeat first [apply careful_ensure_header | apply careful_blocks_get | care_step]. Qed.
Lemma careful_propagate p : forall ch r, careful (propagate ch p r).
Proof. induction p as [|[n i] p IH]; intros ch r; cbn [propagate]; care. apply IH. Qed.
Lemma careful_put_loop m p : forall k cs ch, careful (put_loop m k cs p ch).
Proof. induction p as [|[n i] p IH]; intros k cs ch; cbn [put_loop]; [care|]. repeat first [apply careful_propagate | apply careful_num_keys | apply IH | care_step]. Qed.
Lemma careful_read_levels ns : careful (read_levels ns).
Proof. induction ns as [|n ns IH]; cbn [read_levels]; care. Qed.
Lemma careful_reorder_loop q nodes fuel : forall stack out, careful (reorder_loop fuel q nodes stack out).
Proof.
  induction fuel as [|fuel IH]; intros [|[n ci] stack] out; cbn [reorder_loop]; care. unfold take_children_with_seq. care. apply IH.
Qed.
Lemma careful_add_changes ch : careful (add_changes ch).
Proof.
  unfold add_changes, reorder_nodes, take_children_with_seq. repeat first [apply careful_read_levels | apply careful_reorder_loop | care_step].
Qed.
Ltac care3 := repeat first [apply careful_add_changes | apply careful_put_loop | apply careful_propagate | apply careful_nearest | apply careful_get_root
  | apply careful_get_key_value | apply careful_get_child | apply careful_num_keys | apply careful_num_children
  | apply careful_is_leaf | apply careful_index | care_step].
Lemma careful_tree_get fuel key : careful (tree_get fuel key).
Proof. unfold tree_get, nearest_node. care3. Qed.
Lemma careful_tree_put_cas fuel key value cas : careful (tree_put_cas fuel key value cas).
Proof. unfold tree_put_cas, nearest_node, version. care3. Qed.
Lemma careful_replace_removed fuel p n ki : careful (replace_removed fuel p n ki).
Proof. unfold replace_removed, nearest_node. care3. Qed.
Lemma careful_can_rotate sd f di order : careful (can_rotate sd f di order).
Proof. unfold can_rotate, get_donor_index. destruct sd; care3. Qed.
Lemma careful_maybe_rotate sd f di dc order ch : careful (maybe_rotate sd f di dc order ch).
Proof.
  unfold maybe_rotate. apply careful_bind; [apply careful_can_rotate|intros [[j dn]|]; [|apply careful_ret]].
  unfold rotate, get_donor_key, get_donor_child, swap_donor_key, insert_donations, set_child. destruct sd; care3.
Qed.
Lemma careful_maybe_merge sd f di dc ch : careful (maybe_merge sd f di dc ch).
Proof. unfold maybe_merge, get_donor_index. destruct sd; care3. Qed.
Lemma careful_repair_one f di dc order ch : careful (repair_one f di dc order ch).
Proof.
  unfold repair_one. apply careful_bind; [apply careful_maybe_rotate|intros [r|]; [apply careful_ret|]].
  apply careful_bind; [apply careful_maybe_rotate|intros [r|]; [apply careful_ret|]].
  apply careful_bind; [apply careful_maybe_merge|intros [r|]; [apply careful_ret|]].
  apply careful_bind; [apply careful_maybe_merge|intros [r|]; [apply careful_ret|apply careful_stop]].
Qed.
Lemma careful_repair_loop order p : forall f di dc ch, careful (repair_loop p f di dc order ch).
Proof.
  induction p as [|[n i] p IH]; intros f di dc ch; cbn [repair_loop]; (apply careful_bind; [apply careful_repair_one|intros ch']); care3. apply IH.
Qed.
Lemma careful_tree_del_cas fuel key cas : careful (tree_del_cas fuel key cas).
Proof.
  unfold tree_del_cas, nearest_node, version. apply careful_bind; [apply careful_get_root|intros [root|]; [|apply careful_ret]].
  apply careful_bind; [apply careful_nearest|intros [[q|] p]; [|apply careful_ret]].
  apply careful_bind; [apply careful_unwrap|intros [n i]]. apply careful_bind; [apply careful_get_key_value|intros kv].
  destruct (cas kv); [|apply careful_ret]. apply careful_bind; [apply careful_core_len|intros v]. cbn zeta.
  apply careful_bind; [apply careful_unwrap|intros [cur ci]]. apply careful_bind; [apply careful_node_mod|intros _].
  apply careful_bind; [apply careful_is_leaf|intros leaf]. apply careful_bind; [destruct leaf; [apply careful_ret|apply careful_replace_removed]|intros p2].
  apply careful_bind; [apply careful_unwrap|intros [bottom bi]]. apply careful_bind; [apply careful_num_keys|intros nk].
  apply careful_bind; [|intros [[child p4] ch']; care3].
  destruct (_ && _); [|care3]. unfold repair. destruct (tail p2) as [|[f di] p3]; [apply careful_stop|].
  apply careful_bind; [apply careful_get_child|intros dc; apply careful_repair_loop].
Qed.

Lemma careful_make_iter conf n a b : careful (make_iter conf n a b).
Proof. unfold make_iter. apply careful_bind; [apply careful_index|]. intros [m i]. apply careful_ret. Qed.

Definition fails (its : list (item * nid)) : nat := length (List.filter (fun it => match it with IErr _ => true | IOk _ => false end) (map fst its)).
Lemma fails_err e n its : fails ((IErr e, n) :: its) = S (fails its).
Proof. done. Qed.
Lemma fails_ok kv n its : fails ((IOk kv, n) :: its) = fails its.
Proof. done. Qed.
(** A miss in a traversal is an error in its items. *)
Definition tcareful (p : prog (list (item * nid) * bool)) : Prop :=
  (thrifty p /\ keeps p) /\ forall s r b s', run p s = (Datatypes.inl (r, b), s') -> (misses p s <= fails r)%nat.

Lemma fails_app a b : fails (a ++ b) = (fails a + fails b)%nat.
Proof. unfold fails. by rewrite map_app, List.filter_app, app_length. Qed.

Lemma caught {A} (p : prog A) s : careful p -> 
  misses (catch p) s = match run (catch p) s with (Datatypes.inl (Datatypes.inl _), _) => 0 | _ => misses p s end /\
  (misses p s <= 1)%nat.
Proof.
  intros [_ H]. rewrite misses_catch, run_catch. specialize (H s). destruct (run p s) as [[a|[]] s']; simpl in *; lia.
Qed.

Lemma tcareful_loop rec conf n idxs : (forall c, tcareful (rec c)) -> tcareful (trav_loop rec conf n idxs).
Proof.
  intros Hrec. induction idxs as [|i idxs [[IH1 IH2] IH3]]; cbn [trav_loop].
  { split; [split|]; [apply careful_ret|apply careful_ret|]. intros s r b s' E. simpl. lia. }
  assert (forall f, (thrifty ('(its, b) <- trav_loop rec conf n idxs ;; Ret (f its : list (item * nid), b : bool)) /\ 
                     keeps ('(its, b) <- trav_loop rec conf n idxs ;; Ret (f its, b)))) as Hf.
  { intros f. split; [apply thrifty_bind|apply keeps_bind]; try done; intros [its b]; apply careful_ret. }
  destruct (Nat.even i).
  - pose proof (careful_get_child n (Nat.div2 i)) as Hc. split; [split|].
    + apply thrifty_bind; [apply thrifty_catch, Hc|]. intros [c|e]; [|apply Hf]. apply thrifty_bind; [apply Hrec|].
      intros [its1 b1]. destruct b1; [apply careful_ret|apply (Hf (app its1))].
    + apply keeps_bind; [apply keeps_catch, Hc|]. intros [c|e]; [|apply Hf]. apply keeps_bind; [apply Hrec|].
      intros [its1 b1]. destruct b1; [apply careful_ret|apply (Hf (app its1))].
    + intros s r b s'. rewrite misses_bind, run_bind. destruct (caught _ s Hc) as [-> Hm].
      destruct (run (catch (get_child n (Nat.div2 i))) s) as [[[c|e]|x] s1]; [| |done].
      * rewrite misses_bind, run_bind. pose proof (proj2 (Hrec c) s1) as Hr. destruct (run (rec c) s1) as [[[its1 b1]|x] s2]; [|done].
        specialize (Hr _ _ _ eq_refl). destruct b1; [intros [= <- <- <-]; cbn [misses] in *; lia|].
        rewrite misses_bind, run_bind. specialize (IH3 s2). destruct (run (trav_loop rec conf n idxs) s2) as [[[its2 b2]|x] s3]; [|done].
        specialize (IH3 _ _ _ eq_refl). intros [= <- <- <-]. rewrite fails_app. cbn [misses] in *. lia.
      * rewrite misses_bind, run_bind. specialize (IH3 s1). destruct (run (trav_loop rec conf n idxs) s1) as [[[its2 b2]|x] s3]; [|done].
        specialize (IH3 _ _ _ eq_refl). intros [= <- <- <-]. rewrite fails_err. cbn [misses] in *. lia.
  - pose proof (careful_get_key_value n (Nat.div2 i)) as Hc. split; [split|].
    + apply thrifty_bind; [apply thrifty_catch, Hc|]. intros [kv|e]; [|apply Hf]. destruct (in_bounds _ _); [|apply careful_ret]. apply Hf.
    + apply keeps_bind; [apply keeps_catch, Hc|]. intros [kv|e]; [|apply Hf]. destruct (in_bounds _ _); [|apply careful_ret]. apply Hf.
    + intros s r b s'. rewrite misses_bind, run_bind. destruct (caught _ s Hc) as [-> Hm].
      destruct (run (catch (get_key_value n (Nat.div2 i))) s) as [[[kv|e]|x] s1]; [| |done].
      * destruct (in_bounds _ _); [|intros [= <- <- <-]; simpl; lia].
        rewrite misses_bind, run_bind. specialize (IH3 s1). destruct (run (trav_loop rec conf n idxs) s1) as [[[its2 b2]|x] s3]; [|done].
        specialize (IH3 _ _ _ eq_refl). intros [= <- <- <-]. rewrite fails_ok. cbn [misses] in *. lia.
      * rewrite misses_bind, run_bind. specialize (IH3 s1). destruct (run (trav_loop rec conf n idxs) s1) as [[[its2 b2]|x] s3]; [|done].
        specialize (IH3 _ _ _ eq_refl). intros [= <- <- <-]. rewrite fails_err. cbn [misses] in *. lia.
Qed.
Lemma tcareful_trav conf fuel : forall n, tcareful (trav fuel conf n).
Proof.
  induction fuel as [|fuel IH]; intros n; cbn [trav]; [split; [split|]; [apply careful_stop|apply careful_stop|done]|].
  pose proof (careful_num_keys n) as [[A1 A2] A3]. pose proof (careful_num_children n) as [[B1 B2] B3].
  pose proof (fun a b => careful_make_iter conf n a b) as Hc.
  pose proof (fun idxs => tcareful_loop (trav fuel conf) conf n idxs IH) as HL. split; [split|].
  - apply thrifty_bind; [done|intros nk]. apply thrifty_bind; [done|intros nc]. apply thrifty_bind; [apply thrifty_catch, Hc|].
    intros [idxs|e]; [apply HL|apply careful_ret].
  - apply keeps_bind; [done|intros nk]. apply keeps_bind; [done|intros nc]. apply keeps_bind; [apply keeps_catch, Hc|].
    intros [idxs|e]; [apply HL|apply careful_ret].
  - intros s r b s'. rewrite misses_bind, run_bind. specialize (A3 s). destruct (run (num_keys n) s) as [[nk|x] s1]; [|done].
    rewrite misses_bind, run_bind. specialize (B3 s1). destruct (run (num_children n) s1) as [[nc|x] s2]; [|done].
    rewrite misses_bind, run_bind. destruct (caught _ s2 (Hc nk nc)) as [-> Hm]. cbn [fst] in A3, B3.
    destruct (run (catch (make_iter conf n nk nc)) s2) as [[[idxs|e]|x] s3]; [| |done].
    + intros E. pose proof (proj2 (HL idxs) _ _ _ _ E). cbv iota in *. lia.
    + intros [= <- <- <-]. rewrite fails_err. cbn [misses] in *. lia.
Qed.

Lemma trav_no_err conf fuel : forall n s e s', run (trav fuel conf n) s <> (Datatypes.inr (SErr e), s').
Proof.
  assert (forall {A} (p : prog A) s e s', run (catch p) s <> (Datatypes.inr (SErr e), s')) as Hcatch.
  { intros A p s e s'. rewrite run_catch. by destruct (run p s) as [[|[]] ?]. }
  induction fuel as [|fuel IH]; intros n s e s'; cbn [trav]; [done|].
  assert (forall s, exists x s', run (num_keys n) s = (x, s') /\ forall e, x <> Datatypes.inr (SErr e)) as Hk.
  { intros s1. unfold num_keys, node_get. simpl. destruct (heap s1 !! n); simpl; eexists _, _; by split. }
  assert (forall s, exists x s', run (num_children n) s = (x, s') /\ forall e, x <> Datatypes.inr (SErr e)) as Hc.
  { intros s1. unfold num_children, node_get. simpl. destruct (heap s1 !! n); simpl; eexists _, _; by split. }
  rewrite run_bind. destruct (Hk s) as (x & s1 & -> & Hx). destruct x as [nk|x]; [|intros [= -> _]; by eapply Hx].
  rewrite run_bind. destruct (Hc s1) as (y & s2 & -> & Hy). destruct y as [nc|y]; [|intros [= -> _]; by eapply Hy].
  rewrite run_bind. pose proof (Hcatch _ (make_iter conf n nk nc) s2) as Hm. destruct (run (catch (make_iter conf n nk nc)) s2) as [[[idxs|e']|z] s3]; [|done|].
  2:{ intros [= -> _]. by eapply Hm. }
  clear Hm Hx Hy Hk Hc s s1 s2. revert s3. induction idxs as [|i idxs IHi]; intros s; cbn [trav_loop]; [done|].
  assert (forall f s, run ('(its, b) <- trav_loop (trav fuel conf) conf n idxs ;; Ret (f its : list (item * nid), b : bool)) s <> (Datatypes.inr (SErr e), s')) as Hf.
  { intros f s1. rewrite run_bind. specialize (IHi s1). destruct (run (trav_loop _ _ _ _) s1) as [[[]|z] s2]; [done|]. intros [= -> ->]. done. }
  destruct (Nat.even i); rewrite run_bind.
  - pose proof (Hcatch _ (get_child n (Nat.div2 i)) s) as Hm. destruct (run (catch (get_child n (Nat.div2 i))) s) as [[[c|e']|z] s1].
    + rewrite run_bind. specialize (IH c s1). destruct (run (trav fuel conf c) s1) as [[[its1 b1]|z] s2].
      * destruct b1; [done|apply (Hf (app its1))].
      * intros [= -> ->]. by eapply IH.
    + apply (Hf (cons _)).
    + intros [= -> _]. by eapply Hm.
  - pose proof (Hcatch _ (get_key_value n (Nat.div2 i)) s) as Hm. destruct (run (catch (get_key_value n (Nat.div2 i))) s) as [[[kv|e']|z] s1].
    + destruct (in_bounds _ _); [apply (Hf (cons _))|done].
    + apply (Hf (cons _)).
    + intros [= -> _]. by eapply Hm.
Qed.

(** A call: what is fetched stays, but for one block for each error. *)
Lemma call_fetch fuel c s : (within_core s -> within_core (snd (run (api fuel c) s))) /\
  forall r s', run (api fuel c) s = (Datatypes.inl r, s') -> (reads (api fuel c) s + size (cache s) <= size (cache s') + errors (Datatypes.inl r))%nat.
Proof.
  assert (forall p : prog reply, careful p -> 
    (within_core s -> within_core (snd (run (r <- catch p ;; match r with Datatypes.inl x => Ret x | Datatypes.inr e => Ret (RErr e) end) s))) /\
    forall r s', run (r <- catch p ;; match r with Datatypes.inl x => Ret x | Datatypes.inr e => Ret (RErr e) end) s = (Datatypes.inl r, s') -> 
    (reads (r <- catch p ;; match r with Datatypes.inl x => Ret x | Datatypes.inr e => Ret (RErr e) end) s + size (cache s) <= size (cache s') + errors (Datatypes.inl r))%nat) as Hcare.
  { intros p [[H1 H3] H2]. rewrite reads_bind, reads_catch, run_bind, run_catch. specialize (H1 s). destruct H1 as [H1 _]. specialize (H2 s). pose proof (fun Hs => keeps_run p s H3 Hs) as H4.
    destruct (run p s) as [[x|[e| |]] s1]; simpl in *; (split; [done|]); try done; intros r s' [= <- <-]; simpl; lia. }
  unfold api. destruct c; cbn [call_prog]; try solve [apply Hcare; unfold tree_put, tree_del, version;
    repeat first [apply careful_tree_get | apply careful_tree_put_cas | apply careful_tree_del_cas | apply careful_create_header | care_step]].
  pose proof (careful_get_root false) as [[G1 G3] G2]. unfold tree_traverse.
  pose proof (fun n => tcareful_trav conf fuel n) as HT. clear Hcare. split.
  - intros Hw. apply keeps_run; [|done]. apply keeps_bind; [apply keeps_catch, keeps_bind; [apply keeps_bind; [done|intros [n|]; [|apply careful_stop]; apply keeps_bind; [apply HT|intros []; apply careful_ret]]|intros []; apply careful_ret]
      |intros []; apply careful_ret].
  - intros r s'. rewrite reads_bind, reads_catch, run_bind, run_catch. specialize (G1 s). destruct G1 as [G1 _]. specialize (G2 s).
    rewrite !reads_bind, !run_bind. destruct (run (get_root false) s) as [[[n|]|[e| |]] s1]; cbn [fst snd] in *.
    2-5: cbn [run reads throw errors]; intros [= <- <-]; cbn [errors]; lia.
    rewrite reads_bind, run_bind. pose proof (proj1 (proj1 (proj1 (HT n)) s1)) as H1. pose proof (proj2 (HT n) s1) as H2.
    destruct (run (trav fuel conf n) s1) as [[[its b]|[e| |]] s2] eqn:Et; cbn [run reads fst snd] in *; [|by eapply trav_no_err in Et|done|done].
    intros [= <- <-]. specialize (H2 _ _ _ eq_refl). unfold fails in H2. cbn [errors]. lia.
Qed.
Lemma run_core_grows {A} (p : prog A) : forall s, (length (core s) <= length (core (snd (run p s))))%nat.
Proof.
  induction p as [a|x|k IH|q k IH|b k IH|q k IH|q e k IH|nd k IH|n k IH|n g k IH]; intros s; simpl; try done; try apply IH.
  - pose proof (exec_get_state q s) as Hg. destruct (exec_get q s) as [r s1]. simpl in Hg. subst. etrans; [|apply IH]. done.
  - unfold exec_append. destruct (oracle s) as [|[] o]; (etrans; [|apply IH]); simpl; rewrite ?app_length; lia.
  - etrans; [|apply IH]. done.
  - etrans; [|apply IH]. done.
  - destruct (heap s !! n); [apply IH|done].
  - destruct (heap s !! n) as [nd|]; [|done]. destruct (g nd); [|done]. etrans; [|apply IH]. done.
Qed.
Lemma size_within s : within_core s -> (size (cache s) <= length (core s))%nat.
Proof.
  intros H. rewrite <-size_dom. assert (dom (cache s) ⊆ list_to_set (seq 0 (length (core s)))) as Hs.
  { intros q Hq. apply elem_of_list_to_set, elem_of_seq. apply elem_of_dom in Hq. specialize (H q Hq). lia. }
  apply subseteq_size in Hs. rewrite size_list_to_set in Hs by apply NoDup_seq. by rewrite seq_length in Hs.
Qed.

(** Events on other handles leave a handle alone. *)
Lemma run_upto_core_grows {A} k : forall (p : prog A) s, (length (core s) <= length (core (snd (run_upto k p s))))%nat.
Proof.
  induction k as [|k IH]; intros p s; [done|]. cbn [run_upto]. assert (length (core s) <= length (core (snd (step p s))))%nat as G.
  { destruct p as [a|x|k'|q k'|b k'|q k'|q e k'|nd k'|n k'|n g k']; cbn [step]; try done.
    - pose proof (exec_get_state q s) as Hg. destruct (exec_get q s) as [r s1]. cbn in *. by subst.
    - unfold exec_append. destruct (oracle s) as [|[] o]; cbn; rewrite ?app_length; lia.
    - by destruct (heap s !! n).
    - destruct (heap s !! n) as [nd|]; [|done]. by destruct (g nd). }
  destruct (step p s) as [p' s']. cbn [snd] in G. etrans; [exact G|apply IH].
Qed.
Lemma tasks_beside i sched : forall ts w, i ∉ map th_handle ts ->
  let w' := snd (tasks_run sched ts w) in
  w_handles w' i = w_handles w i /\ (length (w_core w) <= length (w_core w'))%nat /\ map th_handle (fst (tasks_run sched ts w)) = map th_handle ts.
Proof.
  induction sched as [|j sched IH]; intros ts w Hi; [done|]. cbn [tasks_run]. destruct (ts !! j) as [t|] eqn:Ej; [|by apply IH].
  unfold thread_step. pose proof (run_upto_core_grows 1 (th_prog t) (view w (th_handle t) (th_faults t))) as G. cbn [run_upto] in G.
  destruct (step (th_prog t) (view w (th_handle t) (th_faults t))) as [p s]. cbn [snd core view] in G.
  assert (map th_handle (<[j:=Thread (th_handle t) p (oracle s)]> ts) = map th_handle ts) as Em.
  { change (th_handle <$> <[j:=Thread (th_handle t) p (oracle s)]> ts = th_handle <$> ts). rewrite list_fmap_insert. cbn.
    apply list_insert_id. by rewrite list_lookup_fmap, Ej. }
  destruct (IH (<[j:=Thread (th_handle t) p (oracle s)]> ts) (commit_view w (th_handle t) s)) as (H1 & H2 & H3); [by rewrite Em|].
  cbn zeta. rewrite H1, H3, Em. split_and!; [|cbn in H2; lia|done]. cbn. unfold set_handle. destruct (Nat.eqb_spec i (th_handle t)) as [->|]; [|done].
  exfalso. apply Hi. apply elem_of_list_fmap. exists t. split; [done|]. by eapply elem_of_list_lookup_2.
Qed.
Lemma map_task_handle fuel xs : map th_handle (map (task fuel) xs) = map (fun x => fst (fst x)) xs.
Proof. rewrite map_map. apply map_ext. by intros [[? ?] ?]. Qed.
Lemma beside fuel i e w : ~ uses e i ->
  w_handles (snd (play fuel [e] w)) i = w_handles w i /\ (length (w_core w) <= length (w_core (snd (play fuel [e] w))))%nat.
Proof.
  intros He. destruct e as [j c o|j|j c o k|xs sched|j c o xs sched]; cbn [uses play] in *.
  - unfold do_call. pose proof (run_core_grows (api fuel c) (view w j o)) as G. destruct (run (api fuel c) (view w j o)) as [r s].
    cbn in *. unfold set_handle. destruct (Nat.eqb_spec i j); [congruence|done].
  - cbn. unfold set_handle. destruct (Nat.eqb_spec i j); [congruence|done].
  - pose proof (run_upto_core_grows k (api fuel c) (view w j o)) as G. cbn in *. unfold set_handle. destruct (Nat.eqb_spec i j); [congruence|done].
  - destruct (tasks_beside i sched (map (task fuel) xs) w) as (H1 & H2 & _); [by rewrite map_task_handle|]. done.
  - unfold do_busy. destruct (tasks_beside i sched (map (task fuel) ((j, c, o) :: xs)) w) as (H1 & H2 & _).
    { rewrite map_task_handle. cbn. intros [->|?]%elem_of_cons; tauto. }
    destruct (tasks_run sched (map (task fuel) ((j, c, o) :: xs)) w) as [ts w1]. cbn [fst snd] in *.
    destruct (ts !! 0) as [th|]; [|done]. pose proof (run_core_grows (th_prog th) (view w1 j (th_faults th))) as G.
    destruct (run (th_prog th) (view w1 j (th_faults th))) as [r s]. cbn in *. unfold set_handle.
    destruct (Nat.eqb_spec i j); [subst; tauto|]. split; [done|lia].
Qed.

Lemma uses_dec e i : uses e i \/ ~ uses e i.
Proof.
  destruct e as [j c o|j|j c o k|xs sched|j c o xs sched]; cbn [uses]; try (destruct (decide (j = i)); tauto);
  destruct (decide (i ∈ map (fun x : nat * call * list fault => fst (fst x)) xs)); try tauto. destruct (decide (j = i)); tauto.
Qed.
Lemma api_careful fuel c : thrifty (api fuel c) /\ keeps (api fuel c).
Proof.
  assert (forall p : prog reply, thrifty p /\ keeps p -> 
    let p' := r <- catch p ;; match r with Datatypes.inl x => Ret x | Datatypes.inr e => Ret (RErr e) end in thrifty p' /\ keeps p') as HC.
  { intros p [H1 H2]. split; [apply thrifty_bind; [by apply thrifty_catch|]|apply keeps_bind; [by apply keeps_catch|]]; intros []; apply careful_ret. }
  unfold api. apply HC. destruct c; cbn [call_prog]; try solve [apply (fun H => proj1 (H : careful _)); unfold tree_put, tree_del, version;
    repeat first [apply careful_tree_get | apply careful_tree_put_cas | apply careful_tree_del_cas | apply careful_create_header | care_step]].
  pose proof (careful_get_root false) as [[G1 G3] _]. unfold tree_traverse. pose proof (fun n => tcareful_trav conf fuel n) as HT.
  split.
  - apply thrifty_bind; [apply thrifty_bind; [done|intros [n|]; [|apply careful_stop]; apply thrifty_bind; [apply HT|intros []; apply careful_ret]]|intros []; apply careful_ret].
  - apply keeps_bind; [apply keeps_bind; [done|intros [n|]; [|apply careful_stop]; apply keeps_bind; [apply HT|intros []; apply careful_ret]]|intros []; apply careful_ret].
Qed.
(** A call that is given up: one more block may be fetched and not kept. *)
Lemma drop_fetch fuel c s k : let s' := snd (run_upto k (api fuel c) s) in
  (within_core s -> within_core s') /\
  (reads_upto k (api fuel c) s + size (cache s) <= size (cache s') + (1 + misses_upto k (api fuel c) s))%nat.
Proof.
  destruct (api_careful fuel c) as [Ht Hk]. cbn zeta. split.
  - intros Hs. by destruct (along_upto _ k _ _ _ (Hk s 0 Hs)) as (n & Hn & _).
  - destruct (along_upto _ k _ _ _ (proj2 (Ht s))) as (n & Hn & En). unfold roomy in Hn. lia.
Qed.

Lemma fetch_once fuel i l : forall w rs w', Forall (fun e => uses e i -> single e) l -> play fuel l w = (rs, w') -> within_core (view w i []) -> answers_all i l rs ->
  (fetches fuel i l w + size (h_cache (w_handles w i)) <= length (w_core w') + complaints i l rs + abandoned fuel i l w)%nat.
Proof.
  induction l as [|e l IH]; intros w rs w' Hpl E Hw Ha.
  { cbn in E. injection E as <- <-. pose proof (size_within _ Hw). simpl in *. lia. }
  apply Forall_cons in Hpl as [He Hpl].
  destruct (uses_dec e i) as [Hu'|Hu'].
  - specialize (He Hu'). destruct e as [j c o| |j c o k| |]; try done; cbn [uses] in Hu'; subst j.
    + cbn [play fetches complaints answers_all abandoned] in *. unfold do_call in *. destruct (run (api fuel c) (view w i o)) as [r s'] eqn:Er.
      destruct (play fuel l (commit_view w i s')) as [rs1 w1] eqn:Ep. injection E as <- <-. cbn [snd].
      destruct Ha as [Ha1 Ha2]. rewrite Nat.eqb_refl.
      destruct (Ha1 eq_refl) as [x ->]. destruct (call_fetch fuel c (view w i o)) as [Hk Hf]. specialize (Hf _ _ Er).
      rewrite Er in Hk. cbn [snd] in Hk.
      pose proof (IH _ _ _ Hpl Ep) as HI. unfold call_reads. unfold commit_view, set_handle, view in HI. cbn [w_core w_handles h_cache h_heap] in HI.
      rewrite Nat.eqb_refl in HI. cbn [h_cache h_heap] in HI. cbn [cache view] in Hf. unfold commit_view, set_handle.
      assert (within_core (St (core s') (cache s') (heap s') [])) as Hw' by (intros q Hq; apply Hk; [exact Hw|done]).
      specialize (HI Hw' Ha2). lia.
    + cbn [play fetches complaints answers_all abandoned] in *. rewrite Nat.eqb_refl. cbn [snd].
      destruct (drop_fetch fuel c (view w i o) k) as [Hk Hf]. cbn zeta in Hk, Hf.
      destruct (run_upto k (api fuel c) (view w i o)) as [p' s'] eqn:Er. cbn [snd] in *.
      pose proof (IH _ _ _ Hpl E) as HI. unfold commit_view, set_handle, view in HI. cbn [w_core w_handles h_cache h_heap] in HI.
      rewrite Nat.eqb_refl in HI. cbn [h_cache h_heap] in HI. cbn [cache view] in Hf. unfold commit_view, set_handle.
      assert (within_core (St (core s') (cache s') (heap s') [])) as Hw' by (intros q Hq; apply Hk; [exact Hw|done]).
      specialize (HI Hw' Ha). lia.
  - destruct (beside fuel i e w Hu') as [B1 B2].
    assert (fetches fuel i (e :: l) w = fetches fuel i l (snd (play fuel [e] w)) /\ abandoned fuel i (e :: l) w = abandoned fuel i l (snd (play fuel [e] w)) /\
      exists rs1, play fuel l (snd (play fuel [e] w)) = (rs1, w') /\ complaints i (e :: l) rs = complaints i l rs1 /\ answers_all i l rs1) as (-> & -> & rs1 & E1 & -> & Ha1).
    { destruct e as [j c o|j|j c o k|xs sched|j c o xs sched]; cbn [play fetches complaints answers_all uses abandoned] in *.
      2,4: split_and!; [done|done|]; exists rs; done.
      2:{ destruct (Nat.eqb_spec j i); [congruence|]. split_and!; [done|done|]. exists rs. done. }
      - destruct (do_call fuel j c o w) as [r wj]. cbn [snd]. destruct (play fuel l wj) as [rs1 w1] eqn:Ep. injection E as <- <-.
        destruct (Nat.eqb_spec j i); [congruence|]. split_and!; [done|done|]. exists rs1. by destruct Ha.
      - destruct (do_busy fuel j c o xs sched w) as [r wj]. cbn [snd]. destruct (play fuel l wj) as [rs1 w1] eqn:Ep. injection E as <- <-.
        split_and!; [done|done|]. by exists rs1. }
    assert (within_core (view (snd (play fuel [e] w)) i [])) as Hw'.
    { intros q Hq. cbn [view cache core] in *. rewrite B1 in Hq. specialize (Hw q Hq). cbn [core view] in Hw. lia. }
    pose proof (IH _ _ _ Hpl E1 Hw' Ha1) as HI. rewrite B1 in HI. exact HI.
Qed.

(** *** C43 *)
Lemma fetched_once fuel l i C rs w : Forall (fun e => uses e i -> single e) l -> play fuel l (new_world C) = (rs, w) -> answers_all i l rs ->
  (fetches fuel i l (new_world C) <= length (w_core w) + complaints i l rs + abandoned fuel i l (new_world C))%nat.
Proof.
  intros Hpl E Ha. pose proof (fetch_once fuel i l _ _ _ Hpl E) as H. cbn in H. rewrite map_size_empty in H.
  rewrite Nat.add_0_r in H. apply H; [|done]. intros q Hq. cbn in Hq. rewrite lookup_empty in Hq. by destruct Hq.
Qed.

(** *** C42 *)
Lemma okh_oracle s s' t : core s' = core s -> cache s' = cache s -> heap s' = heap s -> okh s t -> okh s' t.
Proof. destruct s, s'. simpl. intros -> -> ->. done. Qed.
Lemma few_reads fuel l i c o k : history fuel 1 l -> usable l i -> exists rs b L, 
  play fuel l (new_world []) = (rs, world_after fuel l) /\ explains l empty_store rs b /\ level_bound L (length (s_entries b)) /\
  (read_bound c L = Some k -> call_reads fuel i c o (world_after fuel l) <= k)%nat.
Proof.
  intros H Hi. reach H.
  assert (exists L, levels t L /\ level_bound L (length m)) as (L & HL & HLm).
  { destruct t as [T|]; [|exists 0; split; [done|by left; lia]]. destruct (wi_rep _ _ _ _ HI) as (_ & h & HW & Em).
    exists (S h). split; [exists h; split; [done|apply HW]|]. subst m. rewrite map_length.
    destruct (rshape_size h T (wf_shape _ _ _ _ HW)) as [->|?]; [left; lia|right; replace (S h - 1)%nat with h by lia; done]. }
  exists rs, (Store N m), L. split_and!; [done|done|done|]. intros Hk.
  pose proof (wi_rep _ _ _ _ HI) as Hr. pose proof (okh_oracle _ (view (world_after fuel l) i o) _ eq_refl eq_refl eq_refl (wi_ok _ _ _ _ HI i Hi)) as Ho.
  assert (length (core (view (world_after fuel l) i o)) <= fuel)%nat as Hfu by (destruct Hfit as [Hfit _]; unfold with_header in Hfit; cbn [view core]; lia).
  unfold call_reads, api. rewrite reads_bind, reads_catch.
  assert (forall z : (reply + err + stop) * st, match z with (Datatypes.inl a, s') => reads match a with Datatypes.inl x => Ret x | Datatypes.inr e => Ret (RErr e) end s' | _ => 0 end = 0) as -> by (by intros [[[|]|] ?]).
  rewrite Nat.add_0_r.
  assert (forall {A B} (p : prog A) (f : A -> prog B) n, reads p (view (world_after fuel l) i o) <= n -> (forall a s, reads (f a) s = 0) -> reads (pbind p f) (view (world_after fuel l) i o) <= n) as Hb.
  { intros A B p f n Hp Hf. rewrite reads_bind. destruct (run p _) as [[a|] s']; [rewrite Hf|]; lia. }
  destruct c; cbn [read_bound] in Hk; simplify_eq; cbn [call_prog].
  - apply Hb; [by eapply reads_tree_get|done].
  - unfold tree_put. apply Hb; [apply Hb; [by eapply reads_tree_put_cas|by intros [? []]]|by intros []].
  - apply Hb; [by eapply reads_tree_put_cas|by intros []].
  - unfold tree_del. apply Hb; [apply Hb; [by eapply reads_tree_del_cas|by intros [[[] ?]|]]|done].
  - apply Hb; [by eapply reads_tree_del_cas|done].
  - done.
  - apply Hb; [apply cost_create_header|done].
Qed.
