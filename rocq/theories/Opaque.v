(** What the programs are built from, and that they look at blocks only through
    [decode_block]. *)
From Coq.Strings Require Import Byte.
From Coq Require Import Lia.
From stdpp Require Import prelude gmap.
From Verif Require Import Bytes Codec Model Wire WireProofs Spec Client Subs Threads.

(** ** Construction *)
Inductive built : forall {A : Type}, prog A -> Prop :=
| built_ret A (a : A) : built (Ret a)
| built_stop A x : built (@Stop A x)
| built_bind A B (p : prog A) (f : A -> prog B) : built p -> (forall a, built (f a)) -> built (pbind p f)
| built_catch A (p : prog A) : built p -> built (catch p)
| built_len : built core_len
| built_get q : built (blocks_get q)
| built_append b : built (blocks_append b)
| built_new nd : built (node_new nd)
| built_node n : built (node_get n)
| built_mod B n (f : node -> option (B * node)) : built (node_mod n f).

Ltac bl := repeat first
  [ assumption | progress intros | progress cbv beta zeta
  | match goal with
    | |- built (Ret _) => apply built_ret
    | |- built (Stop _) => apply built_stop
    | |- built core_len => apply built_len
    | |- built (blocks_get _) => apply built_get
    | |- built (blocks_append _) => apply built_append
    | |- built (node_new _) => apply built_new
    | |- built (node_get _) => apply built_node
    | |- built (node_mod _ _) => apply built_mod
    | |- built (catch _) => apply built_catch
    | |- built (pbind _ _) => apply built_bind
    | |- built (match ?x with _ => _ end) => destruct x
    end
  | solve [auto with built nocore] ].

Lemma built_unwrap {A} (o : option A) : built (unwrap o).
Proof. destruct o; constructor. Qed.
Global Hint Resolve built_unwrap : built.
Lemma built_throw {A} e : built (@throw A e).
Proof. constructor. Qed.
Lemma built_panic {A} : built (@panic A).
Proof. constructor. Qed.
Global Hint Resolve built_throw built_panic : built.
Lemma built_tree_node e o : built (get_tree_node e o).
Proof. apply built_unwrap. Qed.
Global Hint Resolve built_tree_node : built.
Lemma built_gkv n i : built (get_key_value n i).
Proof. unfold get_key_value. bl. Qed.
Lemma built_num_keys n : built (num_keys n).
Proof. unfold num_keys. bl. Qed.
Lemma built_num_children n : built (num_children n).
Proof. unfold num_children. bl. Qed.
Global Hint Resolve built_gkv built_num_keys built_num_children : built.
Lemma built_is_leaf n : built (is_leaf n).
Proof. unfold is_leaf. bl. Qed.
Lemma built_get_child n i : built (get_child n i).
Proof. unfold get_child, get_tree_node. bl. Qed.
Global Hint Resolve built_is_leaf built_get_child : built.
Lemma built_search_loop fuel n key : forall low high, built (search_loop fuel n key low high).
Proof. induction fuel; intros; cbn [search_loop]; bl. Qed.
Global Hint Resolve built_search_loop : built.
Lemma built_index n key : built (get_index_of_key n key).
Proof. unfold get_index_of_key. bl. Qed.
Global Hint Resolve built_index : built.
Lemma built_nearest_loop fuel key : forall n acc, built (nearest_loop fuel n key acc).
Proof. induction fuel; intros; cbn [nearest_loop]; bl. Qed.
Global Hint Resolve built_nearest_loop : built.
Lemma built_nearest fuel key n : built (nearest_node fuel n key).
Proof. unfold nearest_node. bl. Qed.
Global Hint Resolve built_nearest : built.
Lemma built_take n seq : built (take_children_with_seq n seq).
Proof. unfold take_children_with_seq. bl. Qed.
Global Hint Resolve built_take : built.
Lemma built_reorder_loop fuel seq nodes : forall stack out, built (reorder_loop fuel seq nodes stack out).
Proof. induction fuel; intros [|[n ci] stack] out; cbn [reorder_loop]; bl. Qed.
Global Hint Resolve built_reorder_loop : built.
Lemma built_read_levels ns : built (read_levels ns).
Proof. induction ns; cbn [read_levels]; bl. Qed.
Global Hint Resolve built_read_levels : built.
Lemma built_add_changes ch : built (add_changes ch).
Proof. unfold add_changes, reorder_nodes. bl. Qed.
Global Hint Resolve built_add_changes : built.
Lemma built_create_header md : built (create_header md).
Proof. unfold create_header. bl. Qed.
Global Hint Resolve built_create_header : built.
Lemma built_get_root b : built (get_root b).
Proof. unfold get_root, ensure_header, version, get_tree_node. bl. Qed.
Global Hint Resolve built_get_root : built.
Lemma built_tree_get fuel key : built (tree_get fuel key).
Proof. unfold tree_get. bl. Qed.
Lemma built_propagate p : forall ch child, built (propagate ch p child).
Proof. induction p as [|[n i] p IH]; intros; cbn [propagate]; bl. Qed.
Global Hint Resolve built_propagate : built.
Lemma built_put_loop p : forall matched k cs ch, built (put_loop matched k cs p ch).
Proof. induction p as [|[n i] p IH]; intros; cbn [put_loop]; bl. Qed.
Global Hint Resolve built_put_loop : built.
Lemma built_put_cas fuel key value cas : built (tree_put_cas fuel key value cas).
Proof. unfold tree_put_cas, version. bl. Qed.
Global Hint Resolve built_put_cas : built.
Lemma built_put fuel key value : built (tree_put fuel key value).
Proof. unfold tree_put. bl. Qed.
Lemma built_replace fuel p n i : built (replace_removed fuel p n i).
Proof. unfold replace_removed. bl. Qed.
Global Hint Resolve built_replace : built.
Lemma built_donor_index sd f di : built (get_donor_index sd f di).
Proof. unfold get_donor_index. bl. Qed.
Global Hint Resolve built_donor_index : built.
Lemma built_maybe_rotate sd f di dc order ch : built (maybe_rotate sd f di dc order ch).
Proof. unfold maybe_rotate, can_rotate, rotate, get_donor_key, get_donor_child, swap_donor_key, insert_donations, set_child. bl. Qed.
Lemma built_maybe_merge sd f di dc ch : built (maybe_merge sd f di dc ch).
Proof. unfold maybe_merge. bl. Qed.
Global Hint Resolve built_maybe_rotate built_maybe_merge : built.
Lemma built_repair_one f di dc order ch : built (repair_one f di dc order ch).
Proof. unfold repair_one. bl. Qed.
Global Hint Resolve built_repair_one : built.
Lemma built_repair_loop p : forall f di dc order ch, built (repair_loop p f di dc order ch).
Proof. induction p as [|[n i] p IH]; intros; cbn [repair_loop]; bl. Qed.
Global Hint Resolve built_repair_loop : built.
Lemma built_del_cas fuel key cas : built (tree_del_cas fuel key cas).
Proof. unfold tree_del_cas, repair, version. bl. Qed.
Global Hint Resolve built_del_cas : built.
Lemma built_del fuel key : built (tree_del fuel key).
Proof. unfold tree_del. bl. Qed.
Lemma built_trav_loop rec conf n : (forall c, built (rec c)) -> forall l, built (trav_loop rec conf n l).
Proof. intros H. induction l; cbn [trav_loop]; bl. Qed.
Lemma built_trav fuel conf : forall n, built (trav fuel conf n).
Proof. induction fuel as [|fuel IH]; intros; cbn [trav]; unfold make_iter; bl. by apply built_trav_loop. Qed.
Global Hint Resolve built_trav : built.
Lemma built_traverse fuel conf : built (tree_traverse fuel conf).
Proof. unfold tree_traverse. bl. Qed.
Global Hint Resolve built_tree_get built_put built_del built_traverse : built.
Lemma built_api fuel c : built (api fuel c).
Proof. unfold api, call_prog, version. bl. Qed.

(** ** Blocks are looked at through [decode_block] only *)
Fixpoint opaque {A} (p : prog A) : Prop :=
  match p with
  | Ret _ | Stop _ => True
  | CoreGet _ k => (forall a b, decode_block a = decode_block b -> k (GOk (Some a)) = k (GOk (Some b))) /\ forall r, opaque (k r)
  | CoreLen k => forall v, opaque (k v)
  | CoreAppend _ k => forall v, opaque (k v)
  | CacheGet _ k => forall v, opaque (k v)
  | CachePut _ _ k => opaque k
  | NodeNew _ k => forall v, opaque (k v)
  | NodeGet _ k => forall v, opaque (k v)
  | NodeUpd _ _ k => forall v, opaque (k v)
  end.

Lemma opaque_bind {A B} (p : prog A) (f : A -> prog B) : opaque p -> (forall a, opaque (f a)) -> opaque (pbind p f).
Proof.
  intros Hp Hf. induction p as [| |? IH|? ? IH|? ? IH|? ? IH|? ? ? IH|? ? IH|? ? IH|? ? ? IH]; cbn [pbind opaque] in *; eauto.
  destruct Hp as [H1 H2]. split; [|eauto]. intros a b E. by rewrite (H1 a b E).
Qed.
Lemma opaque_catch {A} (p : prog A) : opaque p -> opaque (catch p).
Proof.
  intros Hp. induction p as [|x|? IH|? ? IH|? ? IH|? ? IH|? ? ? IH|? ? IH|? ? IH|? ? ? IH]; cbn [catch opaque] in *; eauto.
  - by destruct x.
  - destruct Hp as [H1 H2]. split; [|eauto]. intros a b E. by rewrite (H1 a b E).
Qed.
Lemma opaque_alloc nds : opaque (alloc_all nds).
Proof. induction nds; cbn; [done|]. intros n. by apply opaque_bind. Qed.
Lemma opaque_get q : opaque (blocks_get q).
Proof.
  unfold blocks_get. cbn. intros [e|]; cbn; [done|]. split.
  - intros a b E. by rewrite E.
  - intros [|[raw|]]; cbn; try done. destruct (decode_block raw); cbn; try done. by apply opaque_bind; [apply opaque_alloc|].
Qed.
Lemma built_opaque A (p : prog A) : built p -> opaque p.
Proof.
  induction 1; cbn; try done.
  - by apply opaque_bind.
  - by apply opaque_catch.
  - apply opaque_get.
  - by intros [].
  - intros nd. by destruct (f nd) as [[]|].
Qed.

(** Two cores that were the same to [decode_block], and have had the same blocks
    appended. *)
Definition same_content (a b : bytes) : Prop := decode_block a = decode_block b.
Definition grown (C C' D D' : list bytes) : Prop := exists X, D = C ++ X /\ D' = C' ++ X.
Definition alike (C C' : list bytes) (s s' : st) : Prop :=
  grown C C' (core s) (core s') /\ cache s = cache s' /\ heap s = heap s' /\ oracle s = oracle s'.

Lemma grown_len C C' D D' : Forall2 same_content C C' -> grown C C' D D' -> length D = length D'.
Proof. intros H (X & -> & ->). rewrite !app_length. by rewrite (Forall2_length _ _ _ H). Qed.
Lemma grown_at C C' D D' q : Forall2 same_content C C' -> grown C C' D D' ->
  (D !! q = None /\ D' !! q = None) \/ exists a b, D !! q = Some a /\ D' !! q = Some b /\ decode_block a = decode_block b.
Proof.
  intros H (X & -> & ->).
  assert (HF : Forall2 same_content (C ++ X) (C' ++ X)) by (apply Forall2_app; [done|by apply Forall_Forall2_diag, Forall_true]).
  destruct ((C ++ X) !! q) as [a|] eqn:Ea.
  - right. destruct (Forall2_lookup_l _ _ _ _ _ HF Ea) as (b & Eb & E). eauto.
  - left. split; [done|]. destruct ((C' ++ X) !! q) as [b|] eqn:Eb; [|done].
    destruct (Forall2_lookup_r _ _ _ _ _ HF Eb) as (a & Ea' & _). congruence.
Qed.
Lemma grown_append C C' D D' b : grown C C' D D' -> grown C C' (D ++ [b]) (D' ++ [b]).
Proof. intros (X & -> & ->). exists (X ++ [b]). by rewrite !app_assoc. Qed.

Section sim.
  Context (C C' : list bytes) (HC : Forall2 same_content C C').

  Lemma sim_append b s s' : alike C C' s s' ->
    fst (exec_append b s) = fst (exec_append b s') /\ alike C C' (snd (exec_append b s)) (snd (exec_append b s')).
  Proof.
    intros (H1 & H2 & H3 & H4). unfold exec_append. rewrite <- H4.
    destruct (oracle s) as [|[] o] eqn:Eo; cbn; (split; [done|]); repeat split; try done; try (cbn; congruence); by apply grown_append.
  Qed.
  Lemma sim_get {A} q (k : ioget -> prog A) s s' : opaque (CoreGet q k) -> alike C C' s s' ->
    k (fst (exec_get q s)) = k (fst (exec_get q s')) /\ alike C C' (snd (exec_get q s)) (snd (exec_get q s')).
  Proof.
    intros [HO _] (H1 & H2 & H3 & H4).
    assert (E : k (GOk (core s !! q)) = k (GOk (core s' !! q))).
    { destruct (grown_at _ _ _ _ q HC H1) as [[-> ->]|(a & b & -> & -> & E)]; [done|auto]. }
    unfold exec_get. rewrite <- H4. destruct (oracle s) as [|[] o] eqn:Eo; cbn; (split; [done|]); repeat split; try done; cbn; congruence.
  Qed.
  Lemma sim_step {A} (p : prog A) s s' : opaque p -> alike C C' s s' ->
    fst (step p s) = fst (step p s') /\ alike C C' (snd (step p s)) (snd (step p s')) /\ opaque (fst (step p s)).
  Proof.
    intros HO Ha. pose proof Ha as (H1 & H2 & H3 & H4).
    destruct p as [a|x|k|q k|b k|q k|q e k|nd k|n k|n f k]; cbn [step]; try done.
    - cbn. by rewrite (grown_len _ _ _ _ HC H1).
    - destruct (sim_get _ _ _ _ HO Ha) as [E1 E2]. destruct HO as [_ HO].
      destruct (exec_get q s), (exec_get q s'). by cbn in *.
    - destruct (sim_append b _ _ Ha) as [E1 E2]. destruct (exec_append b s), (exec_append b s'). cbn in *. by subst.
    - cbn. by rewrite H2.
    - cbn. split; [done|]. split; [|done]. repeat split; try done; cbn; congruence.
    - cbn in *. rewrite H3. split; [done|]. split; [|done]. repeat split; try done; cbn; congruence.
    - rewrite <- H3. destruct (heap s !! n); by cbn.
    - rewrite <- H3. destruct (heap s !! n) as [nd|]; [|by cbn]. destruct (f nd); [|by cbn].
      split; [done|]. split; [|apply HO]. repeat split; try done; cbn; congruence.
  Qed.
  Lemma sim_run {A} (p : prog A) : opaque p -> forall s s', alike C C' s s' ->
    fst (run p s) = fst (run p s') /\ alike C C' (snd (run p s)) (snd (run p s')).
  Proof.
    intros HO. induction p as [|x|k IH|q k IH|b k IH|q k IH|q e k IH|nd k IH|n k IH|n f k IH]; intros s s' Ha;
      pose proof Ha as (H1 & H2 & H3 & H4); cbn [run]; try done.
    - rewrite (grown_len _ _ _ _ HC H1). by apply IH.
    - destruct (sim_get _ _ _ _ HO Ha) as [E1 E2]. destruct HO as [_ HO].
      destruct (exec_get q s), (exec_get q s'). cbn in *. rewrite <- E1. by apply IH.
    - destruct (sim_append b _ _ Ha) as [E1 E2]. destruct (exec_append b s), (exec_append b s'). cbn in *. subst. by apply IH.
    - rewrite H2. by apply IH.
    - apply IH; [done|]. repeat split; try done; cbn; congruence.
    - rewrite H3. apply IH; [done|]. repeat split; try done; cbn; congruence.
    - rewrite <- H3. destruct (heap s !! n); [by apply IH|done].
    - rewrite <- H3. destruct (heap s !! n) as [nd|]; [|done]. destruct (f nd); [|done].
      apply IH; [apply HO|]. repeat split; try done; cbn; congruence.
  Qed.
  Lemma sim_upto {A} k : forall (p : prog A) s s', opaque p -> alike C C' s s' ->
    alike C C' (snd (run_upto k p s)) (snd (run_upto k p s')).
  Proof.
    induction k as [|k IH]; intros p s s' HO Ha; cbn [run_upto]; [done|].
    destruct (sim_step p _ _ HO Ha) as (E1 & E2 & E3). destruct (step p s), (step p s'). cbn in *. subst. by apply IH.
  Qed.

  Definition walike (w w' : world) : Prop := grown C C' (w_core w) (w_core w') /\ w_handles w = w_handles w'.
  Lemma sim_view w w' i o : walike w w' -> alike C C' (view w i o) (view w' i o).
  Proof. intros [H1 H2]. unfold view. rewrite H2. by repeat split. Qed.
  Lemma sim_commit w w' i s s' : walike w w' -> alike C C' s s' -> walike (commit_view w i s) (commit_view w' i s').
  Proof. intros [H1 H2] (H3 & H4 & H5 & H6). split; cbn; [done|]. by rewrite H2, H4, H5. Qed.
  Lemma sim_call fuel i c o w w' : walike w w' ->
    fst (do_call fuel i c o w) = fst (do_call fuel i c o w') /\ walike (snd (do_call fuel i c o w)) (snd (do_call fuel i c o w')).
  Proof.
    intros Hw. unfold do_call.
    destruct (sim_run (api fuel c) (built_opaque _ _ (built_api fuel c)) _ _ (sim_view _ _ i o Hw)) as [E1 E2].
    destruct (run (api fuel c) (view w i o)), (run (api fuel c) (view w' i o)). cbn in *. split; [done|]. by apply sim_commit.
  Qed.
  Lemma sim_tasks sched : forall ts w w', Forall (fun t => opaque (th_prog t)) ts -> walike w w' ->
    fst (tasks_run sched ts w) = fst (tasks_run sched ts w') /\ walike (snd (tasks_run sched ts w)) (snd (tasks_run sched ts w')) /\
    Forall (fun t => opaque (th_prog t)) (fst (tasks_run sched ts w)).
  Proof.
    induction sched as [|j sched IH]; intros ts w w' Ht Hw; cbn [tasks_run]; [done|].
    destruct (ts !! j) as [t|] eqn:Et; [|by apply IH]. unfold thread_step.
    pose proof (proj1 (Forall_lookup _ _) Ht _ _ Et) as HO. cbn in HO.
    destruct (sim_step _ _ _ HO (sim_view _ _ (th_handle t) (th_faults t) Hw)) as (E1 & E2 & E3).
    destruct (step (th_prog t) (view w (th_handle t) (th_faults t))) as [p s], (step (th_prog t) (view w' (th_handle t) (th_faults t))) as [p' s'].
    cbn in *. subst p'. pose proof E2 as (_ & _ & _ & E4). rewrite <- E4. apply IH; [by apply Forall_insert|by apply sim_commit].
  Qed.
  Lemma sim_task fuel xs : Forall (fun t => opaque (th_prog t)) (map (task fuel) xs).
  Proof. apply Forall_forall. intros t Ht. apply elem_of_list_fmap in Ht as ([[i c] o] & -> & _). cbn. apply built_opaque, built_api. Qed.
  Lemma sim_busy fuel i c o xs sched w w' : walike w w' ->
    fst (do_busy fuel i c o xs sched w) = fst (do_busy fuel i c o xs sched w') /\
    walike (snd (do_busy fuel i c o xs sched w)) (snd (do_busy fuel i c o xs sched w')).
  Proof.
    intros Hw. unfold do_busy.
    destruct (sim_tasks sched _ _ _ (sim_task fuel ((i, c, o) :: xs)) Hw) as (E1 & E2 & E3).
    destruct (tasks_run sched _ w) as [ts w1], (tasks_run sched _ w') as [ts' w1']. cbn in E1, E2, E3. subst ts'.
    destruct (ts !! 0) as [th|] eqn:Et; [|done]. pose proof (proj1 (Forall_lookup _ _) E3 _ _ Et) as HO. cbn in HO.
    destruct (sim_run (th_prog th) HO _ _ (sim_view _ _ i (th_faults th) E2)) as [F1 F2].
    destruct (run (th_prog th) (view w1 i (th_faults th))), (run (th_prog th) (view w1' i (th_faults th))). cbn in *.
    split; [done|]. by apply sim_commit.
  Qed.
  Lemma sim_play fuel l : forall w w', walike w w' ->
    fst (play fuel l w) = fst (play fuel l w') /\ walike (snd (play fuel l w)) (snd (play fuel l w')).
  Proof.
    induction l as [|e l IH]; intros w w' Hw; cbn [play]; [done|]. destruct e as [i c o|i|i c o k|xs sched|i c o xs sched].
    - destruct (sim_call fuel i c o _ _ Hw) as [E1 E2]. destruct (do_call fuel i c o w) as [r w1], (do_call fuel i c o w') as [r' w1'].
      cbn in E1, E2. subst r'. destruct (IH _ _ E2) as [E3 E4]. destruct (play fuel l w1), (play fuel l w1'). cbn in *. by subst.
    - apply IH. destruct Hw as [H1 H2]. split; cbn; [done|by rewrite H2].
    - apply IH, sim_commit; [done|]. apply sim_upto; [apply built_opaque, built_api|by apply sim_view].
    - apply IH, sim_tasks; [apply sim_task|done].
    - destruct (sim_busy fuel i c o xs sched _ _ Hw) as [E1 E2]. destruct (do_busy fuel i c o xs sched w) as [r w1], (do_busy fuel i c o xs sched w') as [r' w1'].
      cbn in E1, E2. subst r'. destruct (IH _ _ E2) as [E3 E4]. destruct (play fuel l w1), (play fuel l w1'). cbn in *. by subst.
  Qed.
End sim.

Lemma only_content fuel l C C' : Forall2 same_content C C' ->
  exists rs D w w', play fuel l (new_world C) = (rs, w) /\ play fuel l (new_world C') = (rs, w') /\ w_core w = C ++ D /\ w_core w' = C' ++ D.
Proof.
  intros HC. destruct (sim_play C C' HC fuel l (new_world C) (new_world C')) as [E1 [(D & E2 & E3) _]].
  { split; [|done]. exists []. by rewrite !app_nil_r. }
  exists (fst (play fuel l (new_world C))), D, (snd (play fuel l (new_world C))), (snd (play fuel l (new_world C'))).
  split; [apply surjective_pairing|]. split; [rewrite E1; apply surjective_pairing|]. by split.
Qed.

(** [says_same] of [Wire.v] is enough. *)
Lemma says_same_content a b : says_same a b -> same_content a b.
Proof.
  intros [->|(nds & key & value & Ha & Hb)]; [done|]. apply decode_exactly in Ha. apply decode_exactly in Hb.
  unfold same_content. by rewrite Ha, Hb.
Qed.
Lemma reads_same a b x : decode_block a = DOk x -> decode_block b = DOk x -> says_same a b.
Proof. destruct x as [nds key value]. intros Ha Hb. right. exists nds, key, value. split; by apply decode_exactly. Qed.
Lemma only_messages fuel l C C' : Forall2 says_same C C' ->
  exists rs D w w', play fuel l (new_world C) = (rs, w) /\ play fuel l (new_world C') = (rs, w') /\ w_core w = C ++ D /\ w_core w' = C' ++ D.
Proof. intros H. apply only_content. eapply Forall2_impl; [done|]. apply says_same_content. Qed.
