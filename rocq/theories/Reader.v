(** Reading calls step by step, and several of them at the same time. *)
From Coq.Strings Require Import Byte.
From Coq Require Import Lia Sorting.Sorted.
From stdpp Require Import prelude gmap.
From Verif Require Import Bytes Codec Model CodecProofs Order Wp Store Tree Iter Read Zip Pure Seq Mut MutDel MutTop Commit Spec OrderProofs Client Abs Api Call Det.

Local Arguments decode_block : simpl never.
Local Arguments blocks_get : simpl never.
Local Arguments api : simpl never.

Lemma wft_in_core C v h T r : wft C v h T -> r ∈ refs T -> (fst r < length C)%nat /\ is_Some (cnode C r).
Proof.
  intros HW Hr. apply elem_of_refs in Hr as (u & Hu & <-). pose proof (wf_node _ _ _ _ HW u Hu) as Hn.
  split; [|by rewrite Hn]. unfold cnode in Hn. destruct (blk C (fst (tref u))) eqn:E; [|done]. by eapply blk_lt.
Qed.

(** ** One reader *)

(** A handle that may be read, even if several tasks have filled its cache. *)
Definition rdy (s : st) (t : option tree) : Prop :=
  cwf s /\ match t with Some T => coh s T | None => True end.

Lemma okh_rdy s t : okh s t -> rdy s t.
Proof. by intros [[? _] ?]. Qed.

Lemma rdy_ready s m T : rep (core s) m (Some T) -> rdy s (Some T) -> ready (kd (core s)) s T.
Proof. intros (_ & h & HW & _) [_ Hc]. eapply sub_ready; [exact HW|done|apply subs_self|done]. Qed.

(** What others add to the cache of a handle does not spoil it. *)
Lemma rdy_cext s m t C0 ca he o o' : cext (St C0 ca he o) s -> cwf (St C0 ca he o) ->
  rep (core s) m t -> rdy (St (core s) ca he o') t -> rdy s t.
Proof.
  intros Hx Hw Hr [_ Hc]. pose proof (cx_cwf _ _ Hx Hw) as Hw'. split; [done|]. destruct t as [T|]; [|done].
  intros r Hin. specialize (Hc r Hin). destruct Hr as (_ & h & HW & _).
  destruct (wft_in_core _ _ _ _ _ HW Hin) as [_ [nd Hnd]]. cbn [core] in Hc. rewrite Hnd in Hc |- *.
  unfold hnode in Hc. cbn [cache core heap] in Hc. destruct (ca !! fst r) as [e|] eqn:E.
  - apply (cx_hnode _ _ Hx Hw). unfold hnode. cbn [cache heap]. by rewrite E.
  - assert (pristine s (fst r)) as Hp.
    { apply (cx_pristine _ _ Hx Hw). intros e off n He. cbn in He. congruence. }
    unfold hnode. destruct (cache s !! fst r) as [e|] eqn:Es; [|done].
    destruct (Hw' _ _ Es) as (b & Hb & _ & _ & Hlen & _).
    assert (is_Some (e_nodes e !! snd r)) as [n Hn].
    { apply lookup_lt_is_Some. rewrite Hlen. apply lookup_lt_is_Some. unfold cnode in Hnd. rewrite Hb in Hnd. by exists nd. }
    rewrite Hn. destruct (Hp e (snd r) n Es Hn) as (nd' & H1 & H2). rewrite <-surjective_pairing in H2. congruence.
Qed.

Lemma cext_heap s s' n nd : cext s s' -> heap s !! n = Some nd -> heap s' !! n = Some nd.
Proof. intros H Hn. eapply prefix_lookup; [done|apply H]. Qed.
Lemma cext_blk s s' q b : cext s s' -> blk (core s) q = Some b -> blk (core s') q = Some b.
Proof. intros H Hn. eapply blk_prefix; [apply H|done]. Qed.
Lemma cext_cwf s s' : cext s s' -> cwf s -> cwf s'.
Proof. intros H. apply (cx_cwf _ _ H). Qed.
Lemma cext_hnode s s' r nd : cext s s' -> cwf s -> hnode s r = Some nd -> hnode s' r = Some nd.
Proof. intros H Hw. by apply (cx_hnode _ _ H). Qed.

Definition reader_post (c : call) (o : list fault) (b : store) (r : reply) (s' : st) : Prop :=
  r = fst (spec_call c b) \/ (has_fault o /\ failed_reply (fun _ _ => True) c o (s_entries b) r).

Lemma reader_started s m t fuel c : reads_only c -> call_ok c -> rep (core s) m t -> rdy s t -> (length (core s) <= fuel)%nat ->
  rwp cext cown (started (length (core s)) (api fuel c)) (reader_post c (oracle s) (Store (length (core s)) m)) (fun _ _ => False) s.
Proof.
  intros Hro Hok Hr Hrd Hf. pose proof (proj1 Hrd) as Hw.
  assert (forall T, t = Some T -> root_at s (kd (core s)) T /\ exists h, wft (core s) (length (core s) - 1) h T /\ (h < fuel)%nat /\ m = map (kd (core s)) (flat T)) as HT.
  { intros T ->. pose proof Hr as (Hl & h & HW & Hm). split; [split; [apply HW|by eapply rdy_ready]|].
    exists h. split_and!; [done| |done]. pose proof (wft_height _ _ _ _ HW). lia. }
  assert (forall x s', cext s s' -> failing x (oracle s) ->
    rwp cext cown (Ret (RErr x)) (reader_post c (oracle s) (Store (length (core s)) m)) (fun _ _ => False) s') as HF.
  { intros x s' _ Hx s2 _. right. split; [by eapply failing_faulty|]. left. by exists x. }
  destruct c as [k|k v|k v f|k|k f| |md|conf]; try done.
  - change (rwp cext cown (pbind (catch (pbind (started (length (core s)) (tree_get fuel k)) (fun r => Ret (RGet r))))
      (fun r => match r with inl x => Ret x | Datatypes.inr e => Ret (RErr e) end)) (reader_post (CGet k) (oracle s) (Store (length (core s)) m)) (fun _ _ => False) s).
    apply rwp_bind; [apply cext_refl|]. apply rwp_catch. apply rwp_bind; [apply cext_refl|].
    apply (wp_tree_get_from cext cown cext cwf (fun _ _ _ => True));
      eauto using cext_refl, cext_trans, cext_cwf, cext_heap, cext_blk, cext_hnode, cx_oracle.
    + intros. by eapply blocks_get_conc.
    + intros s2 H2 _ Hl. destruct t as [T|]; [destruct Hr as [? _]; lia|]. destruct Hr as [_ ->].
      intros s3 _ s4 _. by left.
    + intros Hl. destruct t as [T|]; [|destruct Hr as [? _]; lia].
      destruct (HT T eq_refl) as (Hroot & h & HW & Hh & Hm). exists T, (kd (core s)), h.
      split_and!; [exact Hroot|apply HW|apply HW|done|].
      intros mt tp s2 H2 Hw2 Hd s3 _ s4 _. left. cbn [spec_call fst s_entries]. rewrite Hm.
      rewrite (desc_lookup _ _ _ _ _ _ Hd (wf_shape _ _ _ _ HW) (wf_sort _ _ _ _ HW)). by destruct mt.
    + intros x s' Hx Hw' Hfl%hit_failing. by apply HF.
  - intros s2 H2. by left.
  - change (rwp cext cown (pbind (catch (pbind (started (length (core s)) (tree_traverse fuel conf)) (fun x => let '(its, b) := x in Ret (RItems its b))))
      (fun r => match r with inl x => Ret x | Datatypes.inr e => Ret (RErr e) end)) (reader_post (CTraverse conf) (oracle s) (Store (length (core s)) m)) (fun _ _ => False) s).
    apply rwp_bind; [apply cext_refl|]. apply rwp_catch. apply rwp_bind; [apply cext_refl|].
    apply (wp_tree_traverse_from cext cown cext cwf (fun _ _ _ => True));
      eauto using cext_refl, cext_trans, cext_cwf, cext_heap, cext_blk, cext_hnode, cx_oracle.
    + intros. by eapply blocks_get_conc.
    + intros s2 H2 _ Hl. intros s3 _. left. unfold spec_call. cbn [s_blocks]. destruct (Nat.leb_spec (length (core s)) 1); [done|lia].
    + intros Hl. destruct t as [T|]; [|destruct Hr as [? _]; lia].
      destruct (HT T eq_refl) as (Hroot & h & HW & Hh & Hm). exists T, (kd (core s)), h.
      split_and!; [exact Hroot|apply HW|apply HW|done|].
      intros its b s2 H2 Hw2 Htr s3 _ s4 _. pose proof (tr_faulty _ _ _ _ _ _ _ _ Htr) as Hb.
      assert (map (fun x => kd (core s) (fst x)) (expected (kd (core s)) conf T) = range conf m) as He.
      { rewrite Hm. apply expected_gen. intros. by apply bounds_ok_rng. }
      assert (b = true \/ Exists is_err its -> reader_post (CTraverse conf) (oracle s) (Store (length (core s)) m) (RItems (map fst its) b) s4) as Hbad.
      { intros Hx. right. split; [by apply Hb|]. right. exists conf, (map fst its), b. split_and!; [done..|]. cbn [s_entries].
        rewrite <-He. by eapply tr_gappy. }
      destruct b; [apply Hbad; by left|]. destruct (decide (Exists is_err its)) as [Herr|Herr]; [apply Hbad; by right|].
      left. unfold spec_call. cbn [s_blocks fst]. destruct (Nat.leb_spec (length (core s)) 1); [lia|].
      cbn [fst s_entries]. f_equal. rewrite <-He, map_map. by eapply tr_no_err.
    + intros x s' Hx Hw' Hfl%hit_failing. by apply HF.
Qed.

(** ** Steps *)
Lemma rwp_env_step {A} (p : prog A) (Q : A -> st -> Prop) (E : stop -> st -> Prop) s s' :
  cext s s' -> rwp cext cown p Q E s -> rwp cext cown p Q E s'.
Proof.
  intros Hx H. destruct p; intros s1 H1; apply H; by eapply cext_trans.
Qed.

Lemma rwp_step {A} (p : prog A) (Q : A -> st -> Prop) s :
  rwp cext cown p Q (fun _ _ => False) s ->
  rwp cext cown (fst (step p s)) Q (fun _ _ => False) (snd (step p s)) /\ cown s (snd (step p s)).
Proof.
  assert (cown s s) as Hs by (split; [apply cext_refl|done]).
  intros H. destruct p as [a|x|k|q k|b k|q k|q e k|nd k|n k|n f k]; pose proof (H s (cext_refl s)) as H';
    cbn [step fst snd] in *; try done.
  - destruct (exec_get q s) as [r s']. cbn [fst snd] in *. tauto.
  - destruct (exec_append b s) as [r s']. cbn [fst snd] in *. tauto.
  - tauto.
  - specialize (H' []). cbn [heap set_heap core cache oracle] in H'. rewrite app_nil_r in H'. destruct s. simpl in *. tauto.
  - destruct (heap s !! n); [|done]. done.
  - destruct (heap s !! n) as [nd|]; [|done]. destruct (f nd); [|done]. cbn [fst snd]. tauto.
Qed.

Lemma cext_set_oracle s s' o : cext s s' -> cext (set_oracle s o) (set_oracle s' o).
Proof. intros [H1 H2 _ H4 H5 H6]. by split. Qed.

(** A thread of another handle sees at most a longer core; one on the same
    handle sees what the step did. *)
Lemma view_commit w i s i' o : view (commit_view w i s) i' o =
  if (i' =? i)%nat then set_oracle s o else set_core (view w i' o) (core s).
Proof. unfold view, commit_view, set_handle. cbn. by destruct (i' =? i)%nat. Qed.

Lemma cext_commit w i o s i' o' : cext (view w i o) s -> cext (view w i' o') (view (commit_view w i s) i' o').
Proof.
  intros Hx. rewrite view_commit. destruct (Nat.eqb_spec i' i) as [->|].
  - apply (cext_set_oracle _ _ o') in Hx. exact Hx.
  - apply cext_grow; try done. apply (cx_core _ _ Hx).
Qed.


(** ** Nodes that a reader has made and nobody else knows *)

(** [p] puts into the cache only nodes it has made itself, which it has not put there
    before; [own] are those it has made so far. *)
Fixpoint owns {A} (own : list nid) (p : prog A) (Q : list nid -> A -> Prop) : Prop :=
  match p with
  | Ret a => Q own a
  | Stop _ => True
  | CoreLen k => forall n, owns own (k n) Q
  | CoreGet q k => forall r, owns own (k r) Q
  | CoreAppend b k => False
  | CacheGet q k => forall e, owns own (k e) Q
  | CachePut q e k => NoDup (e_nodes e) /\ e_nodes e ⊆ own /\ owns [] k Q
  | NodeNew nd k => forall n, n ∉ own -> owns (n :: own) (k n) Q
  | NodeGet n k => forall nd, owns own (k nd) Q
  | NodeUpd n f k => False
  end.

Lemma owns_bind {A B} (p : prog A) (f : A -> prog B) Q : forall own,
  owns own p (fun own' a => owns own' (f a) Q) -> owns own (pbind p f) Q.
Proof. induction p as [a|x|k IH|q k IH|b k IH|q k IH|q e k IH|nd k IH|n k IH|n g k IH]; intros own H; simpl in *; eauto. destruct H as (? & ? & ?). eauto. Qed.
Lemma owns_catch {A} (p : prog A) (Q : list nid -> A + err -> Prop) : (forall o e, Q o (Datatypes.inr e)) -> forall own,
  owns own p (fun own' a => Q own' (Datatypes.inl a)) -> owns own (catch p) Q.
Proof.
  intros HQ. induction p as [a|x|k IH|q k IH|b k IH|q k IH|q e k IH|nd k IH|n k IH|n g k IH]; intros own H; simpl in *; eauto.
  - destruct x; simpl; eauto.
  - destruct H as (? & ? & ?). eauto.
Qed.

(** Whatever it has made before. *)
Record safe {A} (p : prog A) : Prop := Safe { safe_owns : forall own (Q : list nid -> A -> Prop), (forall o a, Q o a) -> owns own p Q }.
Lemma safe_bind {A B} (p : prog A) (f : A -> prog B) : safe p -> (forall a, safe (f a)) -> safe (pbind p f).
Proof. intros Hp Hf. split. intros own Q HQ. apply owns_bind, Hp. intros o a. by apply Hf. Qed.
Lemma safe_catch {A} (p : prog A) : safe p -> safe (catch p).
Proof. intros Hp. split. intros own Q HQ. apply owns_catch; [done|]. by apply Hp. Qed.
Lemma safe_ret {A} (a : A) : safe (Ret a).
Proof. split. intros own Q HQ. apply HQ. Qed.
Lemma safe_stop {A} x : safe (@Stop A x).
Proof. by split. Qed.
Lemma safe_node_get n : safe (node_get n).
Proof. split. intros own Q HQ nd. apply HQ. Qed.
Lemma safe_core_len : safe core_len.
Proof. split. intros own Q HQ n. apply HQ. Qed.
Lemma safe_unwrap {A} (o : option A) : safe (unwrap o).
Proof. destruct o; [apply safe_ret|apply safe_stop]. Qed.

Lemma owns_alloc_all nds : forall own (Q : list nid -> list nid -> Prop),
  (forall o ns, NoDup ns -> own ⊆ o -> ns ⊆ o -> (forall n, n ∈ ns -> n ∉ own) -> Q o ns) -> owns own (alloc_all nds) Q.
Proof.
  induction nds as [|nd nds IH]; intros own Q HQ; cbn [alloc_all].
  - apply HQ; [constructor|done|set_solver|set_solver].
  - apply owns_bind. cbn. intros n Hn. apply owns_bind, IH. intros o ns H1 H2 H3 H4. cbn. apply HQ.
    + constructor; [|done]. intros Hin. apply (H4 n Hin). by left.
    + intros x Hx. apply H2. by right.
    + intros x [->|Hx]%elem_of_cons; [apply H2; by left|by apply H3].
    + intros x [->|Hx]%elem_of_cons; [done|]. intros Ho. apply (H4 x Hx). by right.
Qed.
Lemma safe_blocks_get q : safe (blocks_get q).
Proof.
  split. intros own Q HQ. unfold blocks_get. cbn. intros [e|]; [apply HQ|]. cbn. intros [|[raw|]]; [done| |done].
  destruct (decode_block raw) as [| |b]; [done|done|]. apply owns_bind, owns_alloc_all.
  intros o ns H1 _ H3 _. cbn. split_and!; [done|done|apply HQ].
Qed.
Ltac safe_step := lazymatch goal with
  | |- safe (pbind _ _) => apply safe_bind; [|intros ?]
  | |- safe (catch _) => apply safe_catch
  | |- safe (Ret _) => apply safe_ret
  | |- safe (Stop _) => apply safe_stop
  | |- safe (throw _) => apply safe_stop
  | |- safe panic => apply safe_stop
  | |- safe (node_get _) => apply safe_node_get
  | |- safe core_len => apply safe_core_len
  | |- safe (unwrap _) => apply safe_unwrap
  | |- safe (blocks_get _) => apply safe_blocks_get
  | |- safe (match ?x with _ => _ end) => destruct x
  end.
Lemma safe_get_key_value n i : safe (get_key_value n i).
Proof. unfold get_key_value. repeat safe_step. Qed.
Lemma safe_get_child n i : safe (get_child n i).
Proof. unfold get_child, get_tree_node. repeat safe_step. Qed.
Lemma safe_num_keys n : safe (num_keys n).
Proof. unfold num_keys. repeat safe_step. Qed.
Lemma safe_num_children n : safe (num_children n).
Proof. unfold num_children. repeat safe_step. Qed.
Lemma safe_is_leaf n : safe (is_leaf n).
Proof. unfold is_leaf, num_children. repeat safe_step. Qed.
Lemma safe_search_loop n key fuel : forall low high, safe (search_loop fuel n key low high).
Proof. induction fuel as [|fuel IH]; intros low high; cbn [search_loop]; [apply safe_stop|]. repeat first [apply IH | apply safe_get_key_value | safe_step]. Qed.
Lemma safe_index n key : safe (get_index_of_key n key).
Proof. unfold get_index_of_key. repeat first [apply safe_search_loop | apply safe_num_keys | safe_step]. Qed.
Lemma safe_nearest key fuel : forall n acc, safe (nearest_loop fuel n key acc).
Proof.
  induction fuel as [|fuel IH]; intros n acc; cbn [nearest_loop]; [apply safe_stop|]. apply safe_bind; [apply safe_index|intros [mt i]].
  repeat first [apply IH | apply safe_get_key_value | apply safe_get_child | apply safe_is_leaf | safe_step].
Qed.
Lemma safe_get_root : safe (get_root false).
Proof. unfold get_root, version, get_tree_node. apply safe_bind; [apply safe_core_len|intros v]. rewrite andb_false_r. repeat safe_step. Qed.
Lemma safe_tree_get fuel key : safe (tree_get fuel key).
Proof. unfold tree_get, nearest_node. repeat first [apply safe_get_root | apply safe_nearest | apply safe_get_key_value | safe_step]. Qed.
Lemma safe_trav_loop rec conf n idxs : (forall c, safe (rec c)) -> safe (trav_loop rec conf n idxs).
Proof.
  intros Hr. induction idxs as [|i idxs IH]; cbn [trav_loop]; [apply safe_ret|].
  repeat first [apply IH | apply Hr | apply safe_get_child | apply safe_get_key_value | safe_step].
Qed.
Lemma safe_trav conf fuel : forall n, safe (trav fuel conf n).
Proof.
  induction fuel as [|fuel IH]; intros n; cbn [trav]; [apply safe_stop|]. unfold make_iter.
  repeat first [apply safe_num_keys | apply safe_num_children | apply safe_index | apply safe_trav_loop, IH | safe_step].
Qed.
Lemma safe_api fuel c : reads_only c -> safe (api fuel c).
Proof.
  intros Hc. unfold api. apply safe_bind; [apply safe_catch|intros []; apply safe_ret]. destruct c; try done; cbn [call_prog].
  - apply safe_bind; [apply safe_tree_get|intros ?; apply safe_ret].
  - unfold version. repeat safe_step.
  - unfold tree_traverse. repeat first [apply safe_get_root | apply safe_trav | safe_step].
Qed.

Lemma owns_step {A} (p : prog A) Q own s : owns own p Q -> Forall (fun n => n < length (heap s))%nat own ->
  let '(p', s') := step p s in exists own', owns own' p' Q /\ core s' = core s /\
    ((heap s' = heap s /\ cache s' = cache s /\ own' = own) \/
     (exists nd, heap s' = heap s ++ [nd] /\ cache s' = cache s /\ own' = length (heap s) :: own) \/
     (exists q e, heap s' = heap s /\ cache s' = <[q := e]> (cache s) /\ NoDup (e_nodes e) /\ e_nodes e ⊆ own /\ own' = [])).
Proof.
  intros H Hown. destruct p as [a|x|k|q k|b k|q k|q e k|nd k|n k|n g k]; cbn [step owns] in *; try done.
  - exists own. split_and!; [done|done|by left].
  - exists own. split_and!; [done|done|by left].
  - exists own. split_and!; [apply H|done|by left].
  - pose proof (exec_get_state q s) as E. destruct (exec_get q s) as [r s']. cbn in E. subst s'. exists own. split_and!; [apply H|done|by left].
  - exists own. split_and!; [apply H|done|by left].
  - destruct H as (H1 & H2 & H3). exists []. split_and!; [done|done|]. right. right. by exists q, e.
  - exists (length (heap s) :: own). split_and!; [|done|].
    + apply H. intros Hin. rewrite Forall_forall in Hown. specialize (Hown _ Hin). lia.
    + right. left. by exists nd.
  - destruct (heap s !! n) as [nd|]; exists own; (split_and!; [|done|by left]); [apply H|done].
Qed.

(** No two places in the cache share a node. *)
Definition unshared (s : st) : Prop := forall r1 r2 n, loc s r1 n -> loc s r2 n -> r1 = r2.

(** What the tasks have made and not yet put into the cache is known to nobody else. *)
Definition apart (ts : list thread) (w : world) : Prop := exists O : nat -> list nid,
  (forall j th, ts !! j = Some th -> owns (O j) (th_prog th) (fun _ _ => True) /\ unshared (view w (th_handle th) []) /\
     Forall (fun n => n < length (h_heap (w_handles w (th_handle th))))%nat (O j) /\
     forall n r, n ∈ O j -> ~ loc (view w (th_handle th) []) r n) /\
  forall j j' th th' n, ts !! j = Some th -> ts !! j' = Some th' -> j <> j' -> th_handle th = th_handle th' -> n ∈ O j -> n ∉ O j'.

Lemma apart_start fuel xs w : Forall (fun x => reads_only (snd (fst x)) /\ unshared (view w (fst (fst x)) [])) xs ->
  apart (map (task fuel) xs) w.
Proof.
  intros H. exists (fun _ => []). split.
  - intros j th Hj. rewrite list_lookup_fmap in Hj. destruct (xs !! j) as [[[i c] o]|] eqn:E; [|done]. injection Hj as <-.
    rewrite Forall_forall in H. destruct (H (i, c, o)) as [H1 H2]; [by eapply elem_of_list_lookup_2|]. cbn in *.
    split_and!; [by apply safe_api|done|done|]. intros n r Hn. by apply elem_of_nil in Hn.
  - intros j j' th th' n _ _ _ _ Hn. by apply elem_of_nil in Hn.
Qed.

(** Other handles do not matter. *)
Lemma apart_world ts w w' : apart ts w -> (forall th, th ∈ ts -> w_handles w' (th_handle th) = w_handles w (th_handle th)) -> apart ts w'.
Proof.
  intros (O & H1 & H2) Hw. exists O. split; [|done]. intros j th Hj. destruct (H1 j th Hj) as (A1 & A2 & A3 & A4).
  unfold unshared, loc, view in *. rewrite (Hw th) by (by eapply elem_of_list_lookup_2). done.
Qed.

Lemma apart_step ts w j th th' w' : apart ts w -> ts !! j = Some th -> cwf (view w (th_handle th) []) ->
  thread_step th w = (th', w') -> apart (<[j := th']> ts) w'.
Proof.
  intros (O & H1 & H2) Hj Hw E. unfold thread_step in E. set (i := th_handle th) in *.
  destruct (H1 j th Hj) as (A1 & A2 & A3 & A4). fold i in A2, A3, A4.
  pose proof (owns_step (th_prog th) _ (O j) (view w i (th_faults th)) A1 A3) as Hs.
  destruct (step (th_prog th) (view w i (th_faults th))) as [p s]. injection E as <- <-.
  destruct Hs as (own' & B1 & _ & B2). set (w' := commit_view w i s).
  assert (Hother : forall i', i' <> i -> w_handles w' i' = w_handles w i').
  { intros i' Hne. cbn. unfold set_handle. by apply Nat.eqb_neq in Hne as ->. }
  assert (Hsame : w_handles w' i = Handle (cache s) (heap s)).
  { cbn. unfold set_handle. by rewrite Nat.eqb_refl. }
  assert (Hlen : (length (h_heap (w_handles w i)) <= length (heap s))%nat).
  { destruct B2 as [(-> & _)|[(nd & -> & _)|(q & e & -> & _)]]; cbn; rewrite ?app_length; lia. }
  (* the new places in the cache *)
  assert (Hloc : forall r n, loc (view w' i []) r n -> loc (view w i []) r n \/ n ∈ O j).
  { intros r n (e & He & Hn). unfold view in He. rewrite Hsame in He. cbn in He.
    destruct B2 as [(_ & B2 & _)|[(nd & _ & B2 & _)|(q & e' & _ & B2 & _ & B3 & _)]]; rewrite B2 in He.
    - left. by exists e.
    - left. by exists e.
    - apply lookup_insert_Some in He as [[_ <-]|[_ He]]; [right; apply B3; by eapply elem_of_list_lookup_2|left; by exists e]. }
  assert (Hnew : forall n, n ∈ own' -> n ∈ O j \/ n = length (h_heap (w_handles w i))).
  { intros n Hn. destruct B2 as [(_ & _ & ->)|[(nd & _ & _ & ->)|(q & e' & _ & _ & _ & _ & ->)]]; [by left| |by apply elem_of_nil in Hn].
    apply elem_of_cons in Hn as [->|Hn]; [by right|by left]. }
  assert (Hun : unshared (view w' i [])).
  { intros r1 r2 n L1 L2. pose proof (Hloc r1 n L1) as K1. pose proof (Hloc r2 n L2) as K2.
    destruct L1 as (e1 & He1 & Hn1), L2 as (e2 & He2 & Hn2). unfold view in He1, He2. rewrite Hsame in He1, He2. cbn in He1, He2.
    assert (Hold : cache s = h_cache (w_handles w i) -> r1 = r2).
    { intros Ec. rewrite Ec in *. eapply A2; [by exists e1|by exists e2]. }
    destruct B2 as [(_ & B2 & _)|[(nd & _ & B2 & _)|(q & e' & _ & B2 & Hnd & B3 & _)]]; [by apply Hold|by apply Hold|].
    rewrite B2 in He1, He2. cbn [cache view] in He1, He2.
    apply lookup_insert_Some in He1, He2. destruct He1 as [[E1 <-]|[N1 He1]], He2 as [[E2 <-]|[N2 He2]].
    - destruct r1 as [q1 o1], r2 as [q2 o2]. cbn in *. subst. f_equal. by eapply NoDup_lookup.
    - exfalso. apply (A4 n r2); [apply B3; by eapply elem_of_list_lookup_2|by exists e2].
    - exfalso. apply (A4 n r1); [apply B3; by eapply elem_of_list_lookup_2|by exists e1].
    - eapply A2; [by exists e1|by exists e2]. }
  assert (Hfresh : forall r, ~ loc (view w i []) r (length (h_heap (w_handles w i)))).
  { intros r L. pose proof (loc_lt _ _ _ Hw L) as Hlt. cbn in Hlt. lia. }
  exists (fun k => if decide (k = j) then own' else O k).
  assert (Hlk : forall k tk, <[j := Thread i p (oracle s)]> ts !! k = Some tk ->
    (k = j /\ tk = Thread i p (oracle s)) \/ (k <> j /\ ts !! k = Some tk)).
  { intros k tk Hk. apply list_lookup_insert_Some in Hk as [(-> & <- & _)|[? ?]]; [by left|by right]. }
  split.
  - intros k tk Hk. destruct (Hlk k tk Hk) as [[-> ->]|[Hne Hk']].
    + rewrite decide_True by done. cbn [th_prog th_handle]. split_and!; [done|done| |].
      * rewrite Hsame. cbn [h_heap]. apply Forall_forall. intros n Hn. destruct (Hnew n Hn) as [Ho| ->].
        -- rewrite Forall_forall in A3. specialize (A3 n Ho). cbn in A3. lia.
        -- destruct B2 as [(_ & _ & ->)|[(nd & -> & _)|(q & e' & _ & _ & _ & _ & ->)]].
           ++ rewrite Forall_forall in A3. specialize (A3 _ Hn). cbn in A3. lia.
           ++ rewrite app_length. cbn. lia.
           ++ by apply elem_of_nil in Hn.
      * intros n r Hn L. destruct B2 as [(_ & B2 & ->)|[(nd & _ & B2 & ->)|(q & e' & _ & _ & _ & _ & ->)]].
        -- apply (A4 n r Hn). destruct L as (e & He & Hn'). exists e. unfold view in He. rewrite Hsame in He. cbn in He. by rewrite B2 in He.
        -- assert (loc (view w i []) r n) as L'.
           { destruct L as (e & He & Hn'). exists e. unfold view in He. rewrite Hsame in He. cbn in He. by rewrite B2 in He. }
           apply elem_of_cons in Hn as [->|Hn]; [by apply (Hfresh r)|by apply (A4 n r)].
        -- by apply elem_of_nil in Hn.
    + rewrite decide_False by done. destruct (H1 k tk Hk') as (C1 & C2 & C3 & C4).
      destruct (decide (th_handle tk = i)) as [Ei|Hi].
      * rewrite Ei in *. split_and!; [done|done| |].
        -- rewrite Hsame. eapply Forall_impl; [exact C3|]. cbn. intros n. lia.
        -- intros n r Hn L. destruct (Hloc r n L) as [L'|Ho]; [by apply (C4 n r)|].
           apply (H2 k j tk th n Hk' Hj Hne Ei Hn Ho).
      * unfold unshared, loc, view in *. rewrite (Hother _ Hi). done.
  - intros k k' tk tk' n Hk Hk' Hne Eh Hn. destruct (Hlk k tk Hk) as [[-> ->]|[Hnk Hk1]], (Hlk k' tk' Hk') as [[-> ->]|[Hnk' Hk1']]; [done| | |].
    + rewrite decide_True in Hn by done. rewrite decide_False by done. cbn [th_handle] in Eh. destruct (Hnew n Hn) as [Ho| ->].
      * by eapply (H2 j k' th tk').
      * intros Hin. destruct (H1 k' tk' Hk1') as (_ & _ & C3 & _). rewrite <-Eh in C3. rewrite Forall_forall in C3. specialize (C3 _ Hin). cbn in C3. lia.
    + rewrite decide_False in Hn by done. rewrite decide_True by done. cbn [th_handle] in Eh. intros Hin. destruct (Hnew n Hin) as [Ho| ->].
      * apply (H2 j k th tk n); try done; by subst.
      * destruct (H1 k tk Hk1) as (_ & _ & C3 & _). rewrite Eh in C3. rewrite Forall_forall in C3. specialize (C3 _ Hn). cbn in C3. lia.
    + rewrite decide_False in Hn by done. rewrite decide_False by done. by eapply (H2 k k' tk tk').
Qed.
