(** What the locks of nodes and caches do to calls that run at the same time. *)
From Coq.Strings Require Import Byte.
From Coq Require Import Lia.
From stdpp Require Import prelude gmap.
From Verif Require Import Bytes Codec Model Spec Client Locks.

Local Arguments decode_block : simpl never.

(** * Without the locks, the programs are those of the model *)
Inductive er {A} : lprog A -> prog A -> Prop :=
| er_ret a : er (LRet a) (Ret a)
| er_stop x : er (LStop x) (Stop x)
| er_len k k' : (forall v, er (k v) (k' v)) -> er (LCoreLen k) (CoreLen k')
| er_get q k k' : (forall v, er (k v) (k' v)) -> er (LCoreGet q k) (CoreGet q k')
| er_append b k k' : (forall v, er (k v) (k' v)) -> er (LCoreAppend b k) (CoreAppend b k')
| er_cget q k k' : (forall v, er (k v) (k' v)) -> er (LCacheGet q k) (CacheGet q k')
| er_cput q e k k' : er k k' -> er (LCachePut q e k) (CachePut q e k')
| er_new nd k k' : (forall v, er (k v) (k' v)) -> er (LNodeNew nd k) (NodeNew nd k')
| er_nget n k k' : (forall v, er (k v) (k' v)) -> er (LNodeGet n k) (NodeGet n k')
| er_nupd n f k k' : (forall v, er (k v) (k' v)) -> er (LNodeUpd n f k) (NodeUpd n f k')
| er_acq l m k p : er k p -> er (LAcq l m k) p
| er_rel l m k p : er k p -> er (LRel l m k) p.

Lemma er_bind {A B} (p : lprog A) p' (f : A -> lprog B) f' : er p p' -> (forall a, er (f a) (f' a)) -> er (lbind p f) (pbind p' f').
Proof. intros Hp Hf. induction Hp; simpl; try constructor; auto. Qed.
Lemma er_bind_ret {A} (p : lprog A) p' f : er p p' -> (forall a, er (f a) (Ret a)) -> er (lbind p f) p'.
Proof. intros Hp Hf. induction Hp; simpl; try constructor; auto. Qed.
Lemma er_locked {A} l m (p : lprog A) p' : er p p' -> er (locked l m p) p'.
Proof. intros Hp. unfold locked. constructor. induction Hp; simpl; repeat constructor; auto. Qed.
Lemma er_catch {A} (p : lprog A) p' : er p p' -> er (lcatch p) (catch p').
Proof. intros Hp. unfold lcatch. induction Hp; simpl; try constructor; auto. destruct x; constructor. Qed.
Lemma er_lift {A} (p : prog A) : er (lift p) p.
Proof. induction p; simpl; constructor; auto. Qed.

Create HintDb er.
Ltac er_step := lazymatch goal with
  | |- er (LRet _) (Ret _) => constructor
  | |- er (LStop _) _ => constructor
  | |- er (lift _) _ => apply er_lift
  | |- er (locked _ _ _) _ => apply er_locked
  | |- er (node_read _ _) _ => apply er_locked
  | |- er (node_write _ _) _ => apply er_locked
  | |- er (kids_read _ _) _ => apply er_locked, er_locked
  | |- er (wchildren _ _) _ => apply er_locked, er_locked
  | |- er (lcatch _) (catch _) => apply er_catch
  | |- er (lbind _ _) (pbind _ _) => apply er_bind; [|intros ?]
  | |- er (match ?x with _ => _ end) _ => destruct x
  end.
Ltac ers := repeat first [solve [auto with er nocore] | er_step].

Lemma er_blocks_get q : er (l_blocks_get q) (blocks_get q).
Proof.
  unfold l_blocks_get, blocks_get. apply er_bind; [apply er_locked; by repeat constructor|intros [e|]; [constructor|]].
  apply er_bind; [by repeat constructor|intros [|[raw|]]; try constructor].
  destruct (decode_block raw); try constructor. apply er_bind; [apply er_lift|intros ns]. apply er_locked. by repeat constructor.
Qed.
#[local] Hint Resolve er_blocks_get : er.
Lemma er_get_key_value n i : er (l_get_key_value n i) (get_key_value n i).
Proof. unfold l_get_key_value, get_key_value. ers. Qed.
Lemma er_get_child n i : er (l_get_child n i) (get_child n i).
Proof.
  unfold l_get_child. apply er_locked.
  change (get_child n i) with (pbind (pbind (node_get n) (fun nd => unwrap (n_children nd !! i))) (fun r => pbind (blocks_get (fst r)) (fun e => get_tree_node e (snd r)))).
  ers.
Qed.
Lemma er_num_keys n : er (l_num_keys n) (num_keys n).
Proof. unfold l_num_keys. ers. Qed.
Lemma er_num_children n : er (l_num_children n) (num_children n).
Proof. unfold l_num_children. ers. Qed.
#[local] Hint Resolve er_get_key_value er_get_child er_num_keys er_num_children : er.
Lemma er_is_leaf n : er (l_is_leaf n) (is_leaf n).
Proof. unfold l_is_leaf, is_leaf. ers. Qed.
#[local] Hint Resolve er_is_leaf : er.
Lemma er_search n key fuel : forall low high, er (l_search_loop fuel n key low high) (search_loop fuel n key low high).
Proof. induction fuel as [|fuel IH]; intros low high; cbn [l_search_loop search_loop]; [constructor|]. cbv zeta. ers. Qed.
#[local] Hint Resolve er_search : er.
Lemma er_index n key : er (l_get_index_of_key n key) (get_index_of_key n key).
Proof. unfold l_get_index_of_key, get_index_of_key. ers. Qed.
#[local] Hint Resolve er_index : er.
Lemma er_nearest key fuel : forall n acc, er (l_nearest_loop fuel n key acc) (nearest_loop fuel n key acc).
Proof. induction fuel as [|fuel IH]; intros n acc; cbn [l_nearest_loop nearest_loop]; [constructor|]. cbv zeta. ers. Qed.
#[local] Hint Resolve er_nearest : er.
Lemma er_insert n key cs a b : er (l_insert n key cs a b) (node_mod n (node_insert key cs a b)).
Proof. unfold l_insert. ers. Qed.
Lemma er_take n seq : er (l_take_children_with_seq n seq) (take_children_with_seq n seq).
Proof. unfold l_take_children_with_seq. ers. Qed.
#[local] Hint Resolve er_insert er_take : er.
Lemma er_reorder seq nodes fuel : forall stack out, er (l_reorder_loop fuel seq nodes stack out) (reorder_loop fuel seq nodes stack out).
Proof.
  induction fuel as [|fuel IH]; intros [|[n ci] stack] out; cbn [l_reorder_loop reorder_loop]; try solve [constructor].
  apply (er_bind _ (pbind (node_get n) (fun nd => unwrap (n_children nd !! ci))) _
    (fun c => pbind (node_mod n (on_children (fun cs => c' ← cs !! ci; only (vec_set ci (fst c', length out) cs))))
      (fun _ => pbind (unwrap (nodes !! snd c)) (fun child => pbind (take_children_with_seq child seq) (fun more => reorder_loop fuel seq nodes (more ++ stack) (out ++ [child])))))); [|intros c].
  - ers.
  - ers.
Qed.
#[local] Hint Resolve er_reorder : er.
Lemma er_levels ns : er (l_read_levels ns) (read_levels ns).
Proof. induction ns; cbn [l_read_levels read_levels]; ers. Qed.
#[local] Hint Resolve er_levels : er.
Lemma er_add_changes ch : er (l_add_changes ch) (add_changes ch).
Proof. unfold l_add_changes, add_changes, l_reorder_nodes, reorder_nodes. ers. Qed.
Lemma er_root b : er (l_get_root b) (get_root b).
Proof. unfold l_get_root, get_root. ers. Qed.
#[local] Hint Resolve er_add_changes er_root : er.
Lemma er_tree_get fuel key : er (l_tree_get fuel key) (tree_get fuel key).
Proof. unfold l_tree_get, tree_get, l_nearest_node, nearest_node. ers. Qed.
Lemma er_set_child n i r : er (l_set_child n i r) (set_child n i r).
Proof. unfold l_set_child. ers. Qed.
#[local] Hint Resolve er_set_child : er.
Lemma er_propagate p : forall ch child, er (l_propagate ch p child) (propagate ch p child).
Proof.
  induction p as [|[n i] p IH]; intros ch child; cbn [l_propagate propagate]; [constructor|].
  apply er_bind; [apply er_set_child|intros _]. cbn [add_node]. auto.
Qed.
Lemma er_split n : er (l_split n) (node_mod n split_node).
Proof.
  unfold l_split. apply er_locked. apply (er_bind _ (Ret tt) _ (fun _ => node_mod n split_node)); [ers|intros _].
  apply er_bind_ret; [ers|intros a; ers].
Qed.
#[local] Hint Resolve er_propagate er_split : er.
Lemma er_put_loop matched p : forall k cs ch, er (l_put_loop matched k cs p ch) (put_loop matched k cs p ch).
Proof.
  induction p as [|[n i] p IH]; intros k cs ch; cbn [l_put_loop put_loop]; [constructor|].
  apply er_bind; [auto with er|intros nk]. destruct (_ || _).
  - apply er_bind; [auto with er|intros _]. cbn [add_node]. ers.
  - apply er_bind; [auto with er|intros _]. apply er_bind; [auto with er|intros [[lnd mid] rnd]].
    apply er_bind; [ers|intros l]. apply er_bind; [ers|intros r]. cbn [add_node]. auto.
Qed.
#[local] Hint Resolve er_put_loop : er.
Lemma er_put_cas fuel key value cas : er (l_tree_put_cas fuel key value cas) (tree_put_cas fuel key value cas).
Proof.
  unfold l_tree_put_cas, tree_put_cas, l_nearest_node, nearest_node. cbv zeta.
  apply er_bind; [auto with er|intros [root|]]; (apply er_bind; [ers|intros seq]).
  - apply er_bind; [auto with er|intros [matched p]]. apply er_bind; [ers|intros old]. destruct (cas _ _); [|constructor].
    apply er_bind; [auto with er|intros []]; ers.
  - destruct (cas _ _); [|constructor]. apply er_bind; [ers|intros n]. cbn [add_node]. ers.
Qed.
Lemma er_put fuel key value : er (l_tree_put fuel key value) (tree_put fuel key value).
Proof. unfold l_tree_put, tree_put. apply er_bind; [apply er_put_cas|intros []]. ers. Qed.
Lemma er_replace fuel p n ki : er (l_replace_removed fuel p n ki) (replace_removed fuel p n ki).
Proof. unfold l_replace_removed, replace_removed, l_nearest_node, nearest_node. ers. Qed.
Lemma er_donor_index sd f di : er (l_get_donor_index sd f di) (get_donor_index sd f di).
Proof. unfold l_get_donor_index, get_donor_index. ers. Qed.
Lemma er_donor_key sd d : er (l_get_donor_key sd d) (get_donor_key sd d).
Proof. unfold l_get_donor_key. ers. Qed.
Lemma er_donor_child sd d : er (l_get_donor_child sd d) (get_donor_child sd d).
Proof. unfold l_get_donor_child, get_donor_child. ers. Qed.
Lemma er_swap sd f di key : er (l_swap_donor_key sd f di key) (swap_donor_key sd f di key).
Proof. unfold l_swap_donor_key. ers. Qed.
Lemma er_donations sd dc key child : er (l_insert_donations sd dc key child) (insert_donations sd dc key child).
Proof. unfold l_insert_donations, insert_donations. ers. Qed.
#[local] Hint Resolve er_replace er_donor_index er_donor_key er_donor_child er_swap er_donations : er.
Lemma er_rotate sd f di dc dx d ch : er (l_rotate sd f di dc dx d ch) (rotate sd f di dc dx d ch).
Proof. unfold l_rotate, rotate. cbn [add_node]. ers. Qed.
#[local] Hint Resolve er_rotate : er.
Lemma er_maybe_rotate sd f di dc order ch : er (l_maybe_rotate sd f di dc order ch) (maybe_rotate sd f di dc order ch).
Proof. unfold l_maybe_rotate, maybe_rotate, l_can_rotate, can_rotate. ers. Qed.
Lemma er_maybe_merge sd f di dc ch : er (l_maybe_merge sd f di dc ch) (maybe_merge sd f di dc ch).
Proof.
  unfold l_maybe_merge, maybe_merge. apply er_bind; [auto with er|intros [dx|]]; [|constructor].
  apply er_bind; [auto with er|intros donor]. destruct (match sd with SLeft => _ | SRight => _ end) as [l r]. cbv zeta.
  apply er_bind; [ers|intros fk]. apply er_bind; [ers|intros _]. apply er_bind; [ers|intros nl]. apply er_bind; [ers|intros rk].
  apply er_bind; [ers|intros _]. apply er_bind; [ers|intros nlc].
  apply (er_bind _ (pbind (node_mod r (on_children (fun cs => Some (cs, [])))) (fun rc => node_mod l (on_children (fun cs => only (vec_splice nlc nlc rc cs)))))).
  - ers.
  - intros _. cbn [add_node]. ers.
Qed.
#[local] Hint Resolve er_maybe_rotate er_maybe_merge : er.
Lemma er_repair_one f di dc order ch : er (l_repair_one f di dc order ch) (repair_one f di dc order ch).
Proof. unfold l_repair_one, repair_one. ers. Qed.
#[local] Hint Resolve er_repair_one : er.
Lemma er_repair_loop order p : forall f di dc ch, er (l_repair_loop p f di dc order ch) (repair_loop p f di dc order ch).
Proof.
  induction p as [|[n i] p IH]; intros f di dc ch; cbn [l_repair_loop repair_loop];
    (apply er_bind; [auto with er|intros ch']); (apply er_bind; [auto with er|intros nk]); (apply er_bind; [auto with er|intros nc]).
  - destruct (_ && _); [|cbn [add_node]; constructor].
    apply (er_bind _ (pbind (node_get f) (fun nd => unwrap (n_children nd !! 0))) _ (fun r => Ret (r, [], ch'))); [ers|intros r; ers].
  - destruct (_ <=? _)%nat; [cbn [add_node]; constructor|auto].
Qed.
#[local] Hint Resolve er_repair_loop : er.
Lemma er_repair p order ch : er (l_repair p order ch) (repair p order ch).
Proof. destruct p as [|[f di] p]; cbn [l_repair repair]; ers. Qed.
#[local] Hint Resolve er_repair : er.
Lemma er_del_cas fuel key cas : er (l_tree_del_cas fuel key cas) (tree_del_cas fuel key cas).
Proof.
  unfold l_tree_del_cas, tree_del_cas, l_nearest_node, nearest_node. cbv zeta. cbn [add_node]. ers.
Qed.
Lemma er_del fuel key : er (l_tree_del fuel key) (tree_del fuel key).
Proof. unfold l_tree_del, tree_del. apply er_bind; [apply er_del_cas|intros [[[] ]|]]; ers. Qed.
Lemma er_make_iter conf n nk nc : er (l_make_iter conf n nk nc) (make_iter conf n nk nc).
Proof. unfold l_make_iter, make_iter. cbv zeta. ers. Qed.
#[local] Hint Resolve er_make_iter : er.
Lemma er_trav_loop (rec : nid -> lprog stream_result) rec' conf n idxs : (forall c, er (rec c) (rec' c)) -> er (l_trav_loop rec conf n idxs) (trav_loop rec' conf n idxs).
Proof. intros Hr. induction idxs as [|i idxs IH]; cbn [l_trav_loop trav_loop]; ers. Qed.
Lemma er_trav conf fuel : forall n, er (l_trav fuel conf n) (trav fuel conf n).
Proof.
  induction fuel as [|fuel IH]; intros n; cbn [l_trav trav]; [constructor|].
  apply (er_bind _ (pbind (num_keys n) (fun nk => pbind (num_children n) (fun nc => Ret (nk, nc)))) _
    (fun x => let '(nk, nc) := x in pbind (catch (make_iter conf n nk nc)) (fun it => match it with
      | inr e => Ret ([(IErr (EBuildIterator e), n)], true) | inl idxs => trav_loop (trav fuel conf) conf n idxs end))).
  - unfold l_n_keys_and_children. apply er_locked. ers.
  - intros [nk nc]. apply er_bind; [ers|intros []]; [by apply er_trav_loop|constructor].
Qed.
#[local] Hint Resolve er_trav er_put er_put_cas er_del er_del_cas er_tree_get : er.
Lemma er_call fuel c : er (l_api fuel c) (api fuel c).
Proof.
  unfold l_api, api. apply er_bind; [apply er_catch|intros []; constructor].
  destruct c; cbn [l_call_prog call_prog]; unfold l_tree_traverse, tree_traverse; ers.
Qed.

(** ** Every run with locks is a run without *)
Definition tracks (t : ltask) (th : thread) : Prop :=
  th_handle th = lt_handle t /\ th_faults th = lt_faults t /\ er (lt_prog t) (th_prog th).
Lemma er_step_cmd {A} (p : lprog A) p' s : er p p' ->
  match p with
  | LAcq _ _ _ | LRel _ _ _ => True
  | _ => er (fst (lstep p s)) (fst (step p' s)) /\ snd (lstep p s) = snd (step p' s)
  end.
Proof.
  intros Her. destruct Her; cbn [lstep step]; try exact I;
    repeat match goal with
    | |- context [exec_get ?q s] => destruct (exec_get q s)
    | |- context [exec_append ?b s] => destruct (exec_append b s)
    | |- context [heap s !! ?n] => destruct (heap s !! n)
    | |- context [match ?f ?nd with Some _ => _ | None => _ end] => destruct (f nd)
    end; cbn; (split; [|reflexivity]); first [constructor | assumption | auto].
Qed.
Lemma lock_runs ms : forall ts q w ths, Forall2 tracks ts ths ->
  exists sched, let y := lsys_run ms (LSys ts q w) in
    ls_world y = snd (tasks_run sched ths w) /\ Forall2 tracks (ls_tasks y) (fst (tasks_run sched ths w)).
Proof.
  induction ms as [|mv ms IH]; intros ts q w ths HF; [by exists []|]. cbn [lsys_run].
  assert (forall j t t' q', ts !! j = Some t -> lt_handle t' = lt_handle t -> lt_faults t' = lt_faults t ->
    (forall p, er (lt_prog t) p -> er (lt_prog t') p) ->
    exists sched, let y := lsys_run ms (LSys (<[j := t']> ts) q' w) in
      ls_world y = snd (tasks_run sched ths w) /\ Forall2 tracks (ls_tasks y) (fst (tasks_run sched ths w))) as Hstay.
  { intros j t t' q' Ht E1 E2 He. apply IH. pose proof (Forall2_lookup_l _ _ _ _ _ HF Ht) as (th & Hth & T1 & T2 & T3).
    rewrite <- (list_insert_id ths j th Hth). apply Forall2_insert; [done|]. split_and!; [congruence|congruence|auto]. }
  destruct mv as [j|j]; cbn [lsys_step ls_tasks ls_reqs ls_world]; (destruct (ts !! j) as [t|] eqn:Ht; [|by apply IH]).
  2: { by apply (Hstay j t). }
  destruct t as [i p o ph]. unfold task_step. cbn [lt_phase lt_prog lt_faults lt_handle].
  assert (forall t' q', t' = LTask i p o ph -> exists sched, let y := lsys_run ms (LSys (<[j := t']> ts) q' w) in
      ls_world y = snd (tasks_run sched ths w) /\ Forall2 tracks (ls_tasks y) (fst (tasks_run sched ths w))) as Hsame.
  { intros t' q' ->. by eapply (Hstay j). }
  destruct ph; [|destruct p; try (by apply Hsame); (destruct (may_go j q); [|by apply Hsame])|by apply Hsame].
  - destruct (match p with LRet _ | LStop _ | LAcq _ _ _ | LRel _ _ _ => false | _ => true end) eqn:Ecmd.
    + assert ((match p with
        | LRet _ | LStop _ => (LTask i p o Runs, q, w)
        | LAcq l m k => (LTask i p o Waits, Req j i l m :: q, w)
        | LRel l m k => (LTask i k o Runs, release (Req j i l m) q, w)
        | _ => let '(p, s) := lstep p (view w i o) in (LTask i p (oracle s) Runs, match p with LStop _ => without j q | _ => q end, commit_view w i s)
        end) = (let '(p, s) := lstep p (view w i o) in (LTask i p (oracle s) Runs, match p with LStop _ => without j q | _ => q end, commit_view w i s))) as -> by by destruct p.
      pose proof (Forall2_lookup_l _ _ _ _ _ HF Ht) as (th & Hth & T1 & T2 & T3). destruct th as [i' p' o']. cbn in T1, T2, T3. subst i' o'.
      pose proof (er_step_cmd p p' (view w i o) T3) as Hs. assert (er (fst (lstep p (view w i o))) (fst (step p' (view w i o))) /\
        snd (lstep p (view w i o)) = snd (step p' (view w i o))) as [He Es] by by destruct p.
      destruct (lstep p (view w i o)) as [p1 s1]. destruct (step p' (view w i o)) as [p2 s2] eqn:E2. cbn in He, Es. subst s2.
      destruct (IH (<[j := LTask i p1 (oracle s1) Runs]> ts) (match p1 with LStop _ => without j q | _ => q end) (commit_view w i s1) (<[j := Thread i p2 (oracle s1)]> ths)) as (sched & H1 & H2).
      { by apply Forall2_insert. }
      exists (j :: sched). cbn [tasks_run]. rewrite Hth. unfold thread_step. cbn [th_prog th_handle th_faults]. rewrite E2. done.
    + destruct p; try done; try by apply Hsame.
      * by eapply (Hstay j).
      * eapply (Hstay j); [done..|]. cbn. intros p' Hp'. by inversion Hp'.
  - eapply (Hstay j); [done..|]. cbn. intros p' Hp'. by inversion Hp'.
Qed.
Lemma locks_restrict fuel xs w ms : let y := lsys_run ms (lsys_start fuel xs w) in
  exists sched, ls_world y = snd (tasks_run sched (map (task fuel) xs) w) /\
    forall j r, l_answer y j = Some r -> th_prog <$> fst (tasks_run sched (map (task fuel) xs) w) !! j = Some (Ret r).
Proof.
  cbv zeta. destruct (lock_runs ms (map (ltask_of fuel) xs) [] w (map (task fuel) xs)) as (sched & H1 & H2).
  { apply Forall2_fmap. induction xs as [|[[i c] o] xs IH]; constructor; [|done]. split_and!; [done..|apply er_call]. }
  exists sched. split; [exact H1|]. intros j r Hr. unfold l_answer in Hr.
  unfold lsys_start in Hr. destruct (ls_tasks _ !! j) as [t|] eqn:Ht; [|done].
  pose proof (Forall2_lookup_l _ _ _ _ _ H2 Ht) as (th & Hth & _ & _ & He). rewrite Hth. cbn.
  destruct (lt_phase t); try done; (destruct (lt_prog t) eqn:Ep; try done); injection Hr as ->; by inversion He.
Qed.

(** * Which locks are asked for while which are held *)
Inductive kind := KRead | KStream | KPut | KDel.
Definition writes (K : kind) : bool := match K with KPut | KDel => true | _ => false end.
Notation held := (list (lock * mode)).
Definition mode_ok (K : kind) (l : lock) (m : mode) : Prop := writes K = true \/ m = MRead \/ l = LCache.
Definition may_nest (K : kind) (h : held) (l : lock) : Prop :=
  match h, l with
  | [], LNode _ => True
  | [], LCache => True
  | [(LNode n, _)], LKids n' => n' = n
  | [(LNode _, _)], LCache => True
  | [(LNode n, _)], LNode n' => K = KStream /\ n' = n
  | [(LNode n, _); (LNode n', _)], LKids n'' => K = KStream /\ n' = n /\ n'' = n
  | [(LKids n, _); (LNode n', _)], LNode _ => K = KDel /\ n' = n
  | [(LNode r, _); (LKids n, _); (LNode n', _)], LKids r' => K = KDel /\ n' = n /\ r' = r
  | _, _ => False
  end.
Definition may_ask (K : kind) (h : held) (l : lock) (m : mode) : Prop := mode_ok K l m /\ may_nest K h l.
(** [p], holding [h], keeps to that, and ends holding [h0]. *)
Fixpoint disc {A} (K : kind) (h0 : held) (p : lprog A) (h : held) : Prop :=
  match p with
  | LRet _ | LStop _ => h = h0
  | LCoreLen k => forall v, disc K h0 (k v) h
  | LCoreGet _ k => forall v, disc K h0 (k v) h
  | LCoreAppend _ k => forall v, disc K h0 (k v) h
  | LCacheGet _ k => forall v, disc K h0 (k v) h
  | LCachePut _ _ k => disc K h0 k h
  | LNodeNew _ k => forall v, disc K h0 (k v) h
  | LNodeGet _ k => forall v, disc K h0 (k v) h
  | LNodeUpd _ _ k => forall v, disc K h0 (k v) h
  | LAcq l m k => may_ask K h l m /\ disc K h0 k ((l, m) :: h)
  | LRel l m k => exists h', h = (l, m) :: h' /\ disc K h0 k h'
  end.
Lemma disc_bind {A B} K h0 (p : lprog A) (f : A -> lprog B) : forall h, disc K h0 p h -> (forall a, disc K h0 (f a) h0) -> disc K h0 (lbind p f) h.
Proof.
  intros h Hp Hf. revert h Hp. induction p; intros h Hp; cbn in *; try by eauto.
  - by subst.
  - split; [apply Hp|apply IHp, Hp].
  - destruct Hp as (h' & -> & Hp). eauto.
Qed.
Lemma disc_attempt {A B} K h0 h1 (p : lprog A) (f : A + stop -> lprog B) : forall h, disc K h1 p h -> (forall a, disc K h0 (f a) h1) -> disc K h0 (lbind (attempt p) f) h.
Proof.
  intros h Hp Hf. revert h Hp. induction p; intros h Hp; cbn in *; try by eauto.
  - by subst.
  - by subst.
  - split; [apply Hp|apply IHp, Hp].
  - destruct Hp as (h' & -> & Hp). eauto.
Qed.
Lemma disc_locked {A} K h l m (p : lprog A) : may_ask K h l m -> disc K ((l, m) :: h) p ((l, m) :: h) -> disc K h (locked l m p) h.
Proof.
  intros Ha Hp. split; [done|]. eapply disc_attempt; [exact Hp|]. intros [a|x]; cbn; by exists h.
Qed.
Lemma disc_catch {A} K h (p : lprog A) : disc K h p h -> disc K h (lcatch p) h.
Proof. intros Hp. eapply disc_attempt; [exact Hp|]. intros [a|[]]; done. Qed.
Lemma disc_lift {A} K h (p : prog A) : disc K h (lift p) h.
Proof. induction p; cbn; auto. Qed.

Ltac ask := split; [unfold mode_ok; auto|cbn; auto].
Create HintDb disc.
Ltac disc_step := lazymatch goal with
  | |- disc _ _ (LRet _) _ => reflexivity
  | |- disc _ _ (LStop _) _ => reflexivity
  | |- disc _ _ (lift _) _ => apply disc_lift
  | |- disc _ _ (locked _ _ _) _ => apply disc_locked; [solve [ask]|]
  | |- disc _ _ (node_read _ _) _ => apply disc_locked; [solve [ask]|]
  | |- disc _ _ (node_write _ _) _ => apply disc_locked; [solve [ask]|]
  | |- disc _ _ (kids_read _ _) _ => apply disc_locked; [solve [ask]|apply disc_locked; [solve [ask]|]]
  | |- disc _ _ (wchildren _ _) _ => apply disc_locked; [solve [ask]|apply disc_locked; [solve [ask]|]]
  | |- disc _ _ (lcatch _) _ => apply disc_catch
  | |- disc _ _ (lbind _ _) _ => apply disc_bind; [|intros ?]
  | |- disc _ _ (match ?x with _ => _ end) _ => destruct x
  | |- disc _ _ (let _ := _ in _) _ => cbv zeta
  end.
Ltac ds := repeat first [solve [auto with disc nocore] | disc_step].

Lemma disc_blocks_get K h q : may_nest K h LCache -> disc K h (l_blocks_get q) h.
Proof.
  intros Hh. unfold l_blocks_get. assert (forall m, may_ask K h LCache m) as Ha by (intros m; split; [unfold mode_ok; auto|done]).
  apply disc_bind; [by apply disc_locked|intros [e|]; [done|]].
  apply disc_bind; [done|intros [|[raw|]]; try done].
  destruct (decode_block raw); try done. apply disc_bind; [apply disc_lift|intros ns]. cbv zeta. by apply disc_locked.
Qed.
Lemma disc_blocks_get_0 K q : disc K [] (l_blocks_get q) [].
Proof. by apply disc_blocks_get. Qed.
Lemma disc_blocks_get_1 K n m q : disc K [(LNode n, m)] (l_blocks_get q) [(LNode n, m)].
Proof. by apply disc_blocks_get. Qed.
#[local] Hint Resolve disc_blocks_get_0 disc_blocks_get_1 : disc.
Section disc.
Context (K : kind).
Lemma disc_get_key_value n i : disc K [] (l_get_key_value n i) [].
Proof. unfold l_get_key_value. ds. Qed.
Lemma disc_get_child n i : disc K [] (l_get_child n i) [].
Proof. unfold l_get_child. ds. Qed.
Lemma disc_num_keys n : disc K [] (l_num_keys n) [].
Proof. unfold l_num_keys. ds. Qed.
Lemma disc_num_children n : disc K [] (l_num_children n) [].
Proof. unfold l_num_children. ds. Qed.
#[local] Hint Resolve disc_get_key_value disc_get_child disc_num_keys disc_num_children : disc.
Lemma disc_is_leaf n : disc K [] (l_is_leaf n) [].
Proof. unfold l_is_leaf. ds. Qed.
#[local] Hint Resolve disc_is_leaf : disc.
Lemma disc_search n key fuel : forall low high, disc K [] (l_search_loop fuel n key low high) [].
Proof. induction fuel as [|fuel IH]; intros low high; cbn [l_search_loop]; [done|]. ds. Qed.
#[local] Hint Resolve disc_search : disc.
Lemma disc_index n key : disc K [] (l_get_index_of_key n key) [].
Proof. unfold l_get_index_of_key. ds. Qed.
#[local] Hint Resolve disc_index : disc.
Lemma disc_nearest key fuel : forall n acc, disc K [] (l_nearest_loop fuel n key acc) [].
Proof. induction fuel as [|fuel IH]; intros n acc; cbn [l_nearest_loop]; [done|]. ds. Qed.
#[local] Hint Resolve disc_nearest : disc.
Lemma disc_nearest_node key fuel n : disc K [] (l_nearest_node fuel n key) [].
Proof. unfold l_nearest_node. ds. Qed.
#[local] Hint Resolve disc_nearest_node : disc.
Lemma disc_take n seq : disc K [] (l_take_children_with_seq n seq) [].
Proof. unfold l_take_children_with_seq. ds. Qed.
Lemma disc_root b : disc K [] (l_get_root b) [].
Proof. unfold l_get_root. ds. Qed.
#[local] Hint Resolve disc_root disc_take : disc.
Lemma disc_tree_get fuel key : disc K [] (l_tree_get fuel key) [].
Proof. unfold l_tree_get. ds. Qed.
Lemma disc_levels ns : disc K [] (l_read_levels ns) [].
Proof. induction ns; cbn [l_read_levels]; ds. Qed.
Lemma disc_donor_index sd f di : disc K [] (l_get_donor_index sd f di) [].
Proof. unfold l_get_donor_index. ds. Qed.
#[local] Hint Resolve disc_levels disc_donor_index : disc.
Context (HK : writes K = true).
Lemma disc_insert n key cs a b : disc K [] (l_insert n key cs a b) [].
Proof. unfold l_insert. ds. Qed.
#[local] Hint Resolve disc_insert : disc.
Lemma disc_reorder seq nodes fuel : forall stack out, disc K [] (l_reorder_loop fuel seq nodes stack out) [].
Proof. induction fuel as [|fuel IH]; intros [|[n ci] stack] out; cbn [l_reorder_loop]; try done. ds. Qed.
#[local] Hint Resolve disc_reorder : disc.
Lemma disc_add_changes ch : disc K [] (l_add_changes ch) [].
Proof. unfold l_add_changes, l_reorder_nodes. ds. Qed.
#[local] Hint Resolve disc_add_changes : disc.
Lemma disc_set_child n i r : disc K [] (l_set_child n i r) [].
Proof. unfold l_set_child. ds. Qed.
#[local] Hint Resolve disc_set_child : disc.
Lemma disc_propagate p : forall ch child, disc K [] (l_propagate ch p child) [].
Proof. induction p as [|[n i] p IH]; intros ch child; cbn [l_propagate add_node]; ds. Qed.
Lemma disc_split n : disc K [] (l_split n) [].
Proof. unfold l_split. ds. Qed.
#[local] Hint Resolve disc_propagate disc_split : disc.
Lemma disc_put_loop matched p : forall k cs ch, disc K [] (l_put_loop matched k cs p ch) [].
Proof. induction p as [|[n i] p IH]; intros k cs ch; cbn [l_put_loop add_node]; ds. Qed.
#[local] Hint Resolve disc_put_loop : disc.
Lemma disc_put_cas fuel key value cas : disc K [] (l_tree_put_cas fuel key value cas) [].
Proof. unfold l_tree_put_cas. cbv zeta. cbn [add_node]. ds. Qed.
#[local] Hint Resolve disc_put_cas : disc.
Lemma disc_put fuel key value : disc K [] (l_tree_put fuel key value) [].
Proof. unfold l_tree_put. ds. Qed.
Lemma disc_replace fuel p n ki : disc K [] (l_replace_removed fuel p n ki) [].
Proof. unfold l_replace_removed. ds. Qed.
Lemma disc_donor_key sd d : disc K [] (l_get_donor_key sd d) [].
Proof. unfold l_get_donor_key. ds. Qed.
Lemma disc_donor_child sd d : disc K [] (l_get_donor_child sd d) [].
Proof. unfold l_get_donor_child. ds. Qed.
Lemma disc_swap sd f di key : disc K [] (l_swap_donor_key sd f di key) [].
Proof. unfold l_swap_donor_key. ds. Qed.
Lemma disc_donations sd dc key child : disc K [] (l_insert_donations sd dc key child) [].
Proof. unfold l_insert_donations. ds. Qed.
#[local] Hint Resolve disc_replace disc_donor_key disc_donor_child disc_swap disc_donations : disc.
Lemma disc_rotate sd f di dc dx d ch : disc K [] (l_rotate sd f di dc dx d ch) [].
Proof. unfold l_rotate. cbn [add_node]. ds. Qed.
#[local] Hint Resolve disc_rotate : disc.
Lemma disc_maybe_rotate sd f di dc order ch : disc K [] (l_maybe_rotate sd f di dc order ch) [].
Proof. unfold l_maybe_rotate, l_can_rotate. ds. Qed.
#[local] Hint Resolve disc_maybe_rotate : disc.
End disc.
Lemma writes_del : writes KDel = true. Proof. done. Qed.
Lemma writes_put : writes KPut = true. Proof. done. Qed.
#[local] Hint Resolve writes_del writes_put : disc.
#[local] Hint Resolve disc_get_key_value disc_get_child disc_num_keys disc_num_children disc_is_leaf disc_index disc_nearest_node
  disc_add_changes disc_root disc_tree_get disc_set_child disc_propagate disc_put disc_put_cas disc_replace disc_donor_index disc_maybe_rotate : disc.
Lemma disc_maybe_merge sd f di dc ch : disc KDel [] (l_maybe_merge sd f di dc ch) [].
Proof. unfold l_maybe_merge. cbv zeta. cbn [add_node]. ds. Qed.
#[local] Hint Resolve disc_maybe_merge : disc.
Lemma disc_repair_one f di dc order ch : disc KDel [] (l_repair_one f di dc order ch) [].
Proof. unfold l_repair_one. ds. Qed.
#[local] Hint Resolve disc_repair_one : disc.
Lemma disc_repair_loop order p : forall f di dc ch, disc KDel [] (l_repair_loop p f di dc order ch) [].
Proof. induction p as [|[n i] p IH]; intros f di dc ch; cbn [l_repair_loop add_node]; ds. Qed.
#[local] Hint Resolve disc_repair_loop : disc.
Lemma disc_repair p order ch : disc KDel [] (l_repair p order ch) [].
Proof. destruct p as [|[f di] p]; cbn [l_repair]; ds. Qed.
#[local] Hint Resolve disc_repair : disc.
Lemma disc_del_cas fuel key cas : disc KDel [] (l_tree_del_cas fuel key cas) [].
Proof. unfold l_tree_del_cas. cbv zeta. cbn [add_node]. ds. Qed.
#[local] Hint Resolve disc_del_cas : disc.
Lemma disc_del fuel key : disc KDel [] (l_tree_del fuel key) [].
Proof. unfold l_tree_del. ds. Qed.
Lemma disc_make_iter conf n nk nc : disc KStream [] (l_make_iter conf n nk nc) [].
Proof. unfold l_make_iter. cbv zeta. ds. Qed.
#[local] Hint Resolve disc_make_iter disc_del : disc.
Lemma disc_trav_loop (rec : nid -> lprog stream_result) conf n idxs : (forall c, disc KStream [] (rec c) []) -> disc KStream [] (l_trav_loop rec conf n idxs) [].
Proof. intros Hr. induction idxs as [|i idxs IH]; cbn [l_trav_loop]; ds. Qed.
Lemma disc_trav conf fuel : forall n, disc KStream [] (l_trav fuel conf n) [].
Proof.
  induction fuel as [|fuel IH]; intros n; cbn [l_trav]; [done|].
  apply disc_bind; [unfold l_n_keys_and_children; ds|intros [nk nc]].
  apply disc_bind; [ds|intros []]; [by apply disc_trav_loop|done].
Qed.
#[local] Hint Resolve disc_trav : disc.
Definition kind_of (c : call) : kind :=
  match c with CDel _ | CDelCas _ _ => KDel | CTraverse _ => KStream | CPut _ _ | CPutCas _ _ _ => KPut | _ => KRead end.
Lemma disc_call fuel c : disc (kind_of c) [] (l_api fuel c) [].
Proof.
  unfold l_api. apply disc_bind; [apply disc_catch|intros []; done].
  destruct c; cbn [l_call_prog kind_of]; unfold l_tree_traverse; ds.
Qed.

(** * The requests of each task *)
Definition mine (j : nat) (q : list req) : list req := List.filter (fun r => (rq_task r =? j)%nat) q.
Definition to_req (j i : nat) (e : lock * mode) : req := Req j i (fst e) (snd e).
Definition task_ok (K : kind) (j : nat) (t : ltask) (q : list req) : Prop :=
  match lt_phase t with
  | Gone => mine j q = []
  | Runs => exists h, mine j q = map (to_req j (lt_handle t)) h /\ disc K [] (lt_prog t) h
  | Waits => exists l m k h, lt_prog t = LAcq l m k /\ may_ask K h l m /\ disc K [] k ((l, m) :: h) /\
      mine j q = map (to_req j (lt_handle t)) ((l, m) :: h)
  end.
Definition all_granted (ts : list ltask) (q : list req) : Prop := forall a r b, q = a ++ r :: b ->
  granted b r = true \/ (mine (rq_task r) a = [] /\ exists t, ts !! rq_task r = Some t /\ lt_phase t = Waits).
Record lsys_ok (Ks : list kind) (y : lsys) : Prop := {
  ok_len : length Ks = length (ls_tasks y);
  ok_task : forall j t K, ls_tasks y !! j = Some t -> Ks !! j = Some K -> task_ok K j t (ls_reqs y);
  ok_none : forall j, ls_tasks y !! j = None -> mine j (ls_reqs y) = [];
  ok_granted : all_granted (ls_tasks y) (ls_reqs y);
  ok_modes : forall r K, In r (ls_reqs y) -> Ks !! rq_task r = Some K -> mode_ok K (rq_lock r) (rq_mode r)
}.

Lemma mine_cons j r q : mine j (r :: q) = if (rq_task r =? j)%nat then r :: mine j q else mine j q.
Proof. done. Qed.
Lemma mine_app j a b : mine j (a ++ b) = mine j a ++ mine j b.
Proof. apply List.filter_app. Qed.
Lemma mine_task j q r : In r (mine j q) -> rq_task r = j.
Proof. intros [_ H]%filter_In. by apply Nat.eqb_eq. Qed.
Lemma mine_sublist j a b : sublist a b -> sublist (mine j a) (mine j b).
Proof. induction 1; cbn; [done|destruct (_ =? _)%nat; [by constructor|done]|destruct (_ =? _)%nat; [by constructor|done]]. Qed.
Lemma mine_without j j' q : mine j (without j' q) = if (j =? j')%nat then [] else mine j q.
Proof.
  unfold mine, without. induction q as [|r q IH]; cbn; [by destruct (_ =? _)%nat|].
  destruct (rq_task r =? j')%nat eqn:E1; cbn; [|destruct (rq_task r =? j)%nat eqn:E2; cbn]; rewrite IH; destruct (j =? j')%nat eqn:E; try done.
  - apply Nat.eqb_eq in E1. subst. by rewrite Nat.eqb_sym, E.
  - apply Nat.eqb_eq in E, E2. subst. by rewrite Nat.eqb_refl in E1.
Qed.
Local Arguments mine : simpl never.
Local Arguments without : simpl never.
Lemma without_sublist j q : sublist (without j q) q.
Proof. unfold without. induction q as [|r q IH]; cbn; [done|]. destruct (negb _); by constructor. Qed.
Lemma release_sublist r q : sublist (release r q) q.
Proof. induction q as [|x q IH]; cbn; [done|]. destruct (same_req x r); by constructor. Qed.
Lemma same_lock_refl r : same_lock r r = true.
Proof. destruct r as [j i [n|n|] m]; unfold same_lock; cbn; by rewrite !Nat.eqb_refl. Qed.
Lemma same_req_refl r : same_req r r = true.
Proof. unfold same_req. rewrite Nat.eqb_refl, same_lock_refl. by destruct (rq_mode r). Qed.
Lemma same_lock_eq a b : same_lock a b = true <-> rq_handle a = rq_handle b /\ rq_lock a = rq_lock b.
Proof.
  destruct a as [j i l m], b as [j' i' l' m']. unfold same_lock. cbn. rewrite andb_true_iff, Nat.eqb_eq.
  destruct l, l'; rewrite ?Nat.eqb_eq; naive_solver.
Qed.
Lemma mine_release j r q h : mine (rq_task r) q = r :: h -> mine j (release r q) = if (j =? rq_task r)%nat then h else mine j q.
Proof.
  induction q as [|x q IH]; intros H; [done|]. rewrite mine_cons in H. cbn [release].
  destruct (rq_task x =? rq_task r)%nat eqn:E.
  - injection H as -> <-. rewrite same_req_refl. rewrite mine_cons. rewrite (Nat.eqb_sym (rq_task r) j). destruct (Nat.eqb_spec j (rq_task r)) as [->|]; done.
  - assert (same_req x r = false) as -> by (unfold same_req; by rewrite E). rewrite !mine_cons, (IH H).
    destruct (j =? rq_task r)%nat eqn:E'; [|done]. apply Nat.eqb_eq in E' as ->. by rewrite E.
Qed.
Lemma newest_split j q r b : newest j q = Some (r, b) <-> exists a, q = a ++ r :: b /\ rq_task r = j /\ mine j a = [].
Proof.
  induction q as [|x q IH]; cbn.
  - split; [done|]. by intros ([] & ? & ?).
  - destruct (rq_task x =? j)%nat eqn:E.
    + split.
      * intros [= -> ->]. exists []. split_and!; [done|by apply Nat.eqb_eq|done].
      * intros ([|y a] & H & Hr & Ha); [by injection H as -> ->|]. injection H as -> ->. rewrite mine_cons, E in Ha. done.
    + rewrite IH. split.
      * intros (a & -> & Hr & Ha). exists (x :: a). by rewrite mine_cons, E.
      * intros ([|y a] & H & Hr & Ha).
        -- injection H as -> ->. apply Nat.eqb_neq in E. congruence.
        -- injection H as -> ->. exists a. by rewrite mine_cons, E in Ha.
Qed.
Lemma granted_sublist a b r : sublist a b -> granted b r = true -> granted a r = true.
Proof.
  unfold granted. rewrite !forallb_forall. intros Hs H x Hx. apply H. apply elem_of_list_In. apply elem_of_list_In in Hx.
  by eapply sublist_submseteq, elem_of_submseteq in Hs.
Qed.
Lemma granted_shrinks ts ts' q q' : all_granted ts q -> sublist q' q ->
  (forall j t, ts !! j = Some t -> lt_phase t = Waits -> mine j q' = [] \/ exists t', ts' !! j = Some t' /\ lt_phase t' = Waits) -> all_granted ts' q'.
Proof.
  intros HG Hs Ht a r b ->. apply sublist_app_l in Hs as (k1 & k2 & -> & Ha & Hb). apply sublist_cons_l in Hb as (k3 & k4 & -> & Hb).
  destruct (HG (k1 ++ k3) r k4) as [H|(H1 & t & H2 & H3)]; [by rewrite <- app_assoc| |].
  - left. by eapply granted_sublist.
  - right. split.
    + rewrite mine_app in H1. apply app_eq_nil in H1 as [H1 _]. apply (mine_sublist (rq_task r)) in Ha. rewrite H1 in Ha. by apply sublist_nil_r in Ha.
    + destruct (Ht _ _ H2 H3) as [H|H]; [|done]. rewrite mine_app, mine_cons, Nat.eqb_refl in H. by destruct (mine (rq_task r) a).
Qed.

Lemma ok_start fuel xs w : lsys_ok (map (fun x => kind_of (snd (fst x))) xs) (lsys_start fuel xs w).
Proof.
  split; cbn [lsys_start ls_tasks ls_reqs].
  - by rewrite !map_length.
  - intros j t K Ht HK. rewrite list_lookup_fmap in Ht. rewrite list_lookup_fmap in HK. destruct (xs !! j) as [[[i c] o]|]; [|done]. injection Ht as <-. injection HK as <-.
    exists []. split; [done|]. apply disc_call.
  - done.
  - intros [] ? ? ?; done.
  - done.
Qed.
Lemma task_ok_other K j t q q' : mine j q' = mine j q -> task_ok K j t q -> task_ok K j t q'.
Proof. unfold task_ok. intros ->. done. Qed.
Lemma ok_change Ks ts q w q' w' j t t' : lsys_ok Ks (LSys ts q w) -> ts !! j = Some t ->
  (forall j', j' <> j -> mine j' q' = mine j' q) ->
  (forall K, Ks !! j = Some K -> task_ok K j t q -> task_ok K j t' q') ->
  (all_granted ts q -> all_granted (<[j := t']> ts) q') ->
  (forall r K, In r q' -> In r q \/ (Ks !! rq_task r = Some K -> mode_ok K (rq_lock r) (rq_mode r))) ->
  lsys_ok Ks (LSys (<[j := t']> ts) q' w').
Proof.
  intros [H1 H2 H3 H4 H5] Ht Ho Hk Hg Hm. cbn in *. split; cbn.
  - by rewrite insert_length.
  - intros j' t1 K Ht1 HK. destruct (decide (j' = j)) as [->|Hj].
    + rewrite list_lookup_insert in Ht1 by (by eapply lookup_lt_Some). injection Ht1 as <-. by apply Hk; [|apply H2].
    + rewrite list_lookup_insert_ne in Ht1 by done. eapply task_ok_other; [by apply Ho|by apply H2].
  - intros j' Hn. destruct (decide (j' = j)) as [->|Hj].
    + apply lookup_ge_None in Hn. rewrite insert_length in Hn. apply lookup_lt_Some in Ht. lia.
    + rewrite list_lookup_insert_ne in Hn by done. rewrite Ho by done. by apply H3.
  - by apply Hg.
  - intros r K Hr HK. destruct (Hm r K Hr) as [H|H]; [by apply H5|by apply H].
Qed.
Lemma sublist_In {A} (a b : list A) x : sublist a b -> In x a -> In x b.
Proof. intros Hs Hx. apply elem_of_list_In. apply elem_of_list_In in Hx. by eapply sublist_submseteq, elem_of_submseteq in Hs. Qed.
Lemma disc_lstep {A} K h (p : lprog A) s : disc K [] p h -> match p with LAcq _ _ _ | LRel _ _ _ => True | _ =>
  disc K [] (fst (lstep p s)) h \/ exists x, fst (lstep p s) = LStop x end.
Proof.
  destruct p; cbn; try done; intros Hd; try by left.
  - destruct (exec_get seq s); cbn; by left.
  - destruct (exec_append b s); cbn; by left.
  - destruct (heap s !! n); cbn; [by left|right; by eexists].
  - destruct (heap s !! n) as [nd|]; cbn; [|right; by eexists]. destruct (f nd); cbn; [by left|right; by eexists].
Qed.
Lemma phase_change ts q q' j t t' : ts !! j = Some t -> lt_phase t' = lt_phase t -> sublist q' q -> all_granted ts q -> all_granted (<[j := t']> ts) q'.
Proof.
  intros Ht Hp Hs HG. eapply granted_shrinks; [exact HG|done|]. intros j' t1 Ht1 Hw. right. destruct (decide (j' = j)) as [->|Hj].
  - exists t'. rewrite list_lookup_insert by (by eapply lookup_lt_Some). split; [done|congruence].
  - exists t1. by rewrite list_lookup_insert_ne.
Qed.
Lemma ok_step Ks m y : lsys_ok Ks y -> lsys_ok Ks (lsys_step m y).
Proof.
  destruct y as [ts q w]. intros Hok. destruct m as [j|j]; cbn [lsys_step ls_tasks ls_reqs ls_world]; (destruct (ts !! j) as [t|] eqn:Ht; [|done]).
  2: { eapply (ok_change _ _ _ _ _ _ _ t); [exact Hok|done|..].
    - intros j' Hj. rewrite mine_without. by destruct (Nat.eqb_spec j' j).
    - intros K HK _. unfold task_ok. cbn. by rewrite mine_without, Nat.eqb_refl.
    - intros HG. eapply granted_shrinks; [exact HG|apply without_sublist|]. intros j' t1 Ht1 Hw. destruct (decide (j' = j)) as [->|Hj].
      + left. by rewrite mine_without, Nat.eqb_refl.
      + right. exists t1. by rewrite list_lookup_insert_ne.
    - intros r K Hr. left. eapply sublist_In; [apply without_sublist|done]. }
  destruct t as [i p o ph]. unfold task_step. cbn [lt_phase lt_prog lt_faults lt_handle].
  assert (lsys_ok Ks (LSys (<[j := LTask i p o ph]> ts) q w)) as Hsame by by rewrite list_insert_id.
  destruct ph; [|destruct p; try done|done].
  - destruct (match p with LRet _ | LStop _ | LAcq _ _ _ | LRel _ _ _ => false | _ => true end) eqn:Ecmd.
    + assert ((match p with
        | LRet _ | LStop _ => (LTask i p o Runs, q, w)
        | LAcq l m k => (LTask i p o Waits, Req j i l m :: q, w)
        | LRel l m k => (LTask i k o Runs, release (Req j i l m) q, w)
        | _ => let '(p, s) := lstep p (view w i o) in (LTask i p (oracle s) Runs, match p with LStop _ => without j q | _ => q end, commit_view w i s)
        end) = (let '(p, s) := lstep p (view w i o) in (LTask i p (oracle s) Runs, match p with LStop _ => without j q | _ => q end, commit_view w i s))) as -> by by destruct p.
      destruct (lstep p (view w i o)) as [p1 s1] eqn:Es.
      assert (sublist (match p1 with LStop _ => without j q | _ => q end) q) as Hsub by (destruct p1; try done; apply without_sublist).
      eapply (ok_change _ _ _ _ _ _ _ (LTask i p o Runs)); [exact Hok|done|..].
      * intros j' Hj. destruct p1; try done. rewrite mine_without. by destruct (Nat.eqb_spec j' j).
      * intros K HK (h & Hm & Hd). unfold task_ok. cbn in *. pose proof (disc_lstep K h p (view w i o) Hd) as Hl.
        assert (disc K [] p1 h \/ exists x, p1 = LStop x) as [Hl'|(x & ->)] by (rewrite Es in Hl; by destruct p).
        -- destruct p1; try by exists h. exists []. rewrite mine_without, Nat.eqb_refl. done.
        -- exists []. by rewrite mine_without, Nat.eqb_refl.
      * by apply (phase_change _ _ _ _ (LTask i p o Runs)).
      * intros r K Hr. left. by eapply sublist_In.
    + destruct p; try done.
      * eapply (ok_change _ _ _ _ _ _ _ (LTask i (LAcq l m p) o Runs)); [exact Hok|done|..].
        -- intros j' Hj. rewrite mine_cons. cbn. destruct (Nat.eqb_spec j j'); [congruence|done].
        -- intros K HK (h & Hm & Ha & Hd). unfold task_ok. cbn [lt_phase lt_prog lt_handle]. exists l, m, p, h. split_and!; [done..|].
           rewrite mine_cons. cbn. rewrite Nat.eqb_refl. by rewrite Hm.
        -- intros HG [|x a] r b E.
           ++ injection E as <- <-. right. split; [done|]. eexists. cbn. rewrite list_lookup_insert by (by eapply lookup_lt_Some). done.
           ++ injection E as <- ->. destruct (HG a r b eq_refl) as [H|(H1 & t & H2 & H3)]; [by left|].
              assert (rq_task r <> j) by (intros E'; rewrite E', Ht in H2; by injection H2 as <-).
              right. rewrite mine_cons. cbn. destruct (Nat.eqb_spec j (rq_task r)); [congruence|]. split; [done|]. exists t. by rewrite list_lookup_insert_ne.
        -- intros r K [<-|Hr]; [|by left]. right. intros HK. by destruct (ok_task _ _ Hok j _ K Ht HK) as (h & _ & Ha & _); destruct Ha.
      * assert (forall K, Ks !! j = Some K -> task_ok K j (LTask i (LRel l m p) o Runs) q) as Hq by (intros K HK; by apply (ok_task _ _ Hok)).
        assert (exists K, Ks !! j = Some K) as (K & HK).
        { apply lookup_lt_is_Some. rewrite (ok_len _ _ Hok). by eapply lookup_lt_Some. }
        destruct (Hq K HK) as (h & Hm & h' & -> & Hd). cbn in Hm.
        pose proof (fun j' => mine_release j' (Req j i l m) q _ Hm) as Hr.
        eapply (ok_change _ _ _ _ _ _ _ (LTask i (LRel l m p) o Runs)); [exact Hok|done|..].
        -- intros j' Hj. rewrite Hr. cbn. by destruct (Nat.eqb_spec j' j).
        -- intros K' HK' _. assert (K' = K) as -> by congruence. exists h'. cbn. rewrite Hr. cbn. by rewrite Nat.eqb_refl.
        -- apply (phase_change _ _ _ _ (LTask i (LRel l m p) o Runs)); [done..|apply release_sublist].
        -- intros r K' Hr'. left. eapply sublist_In; [apply release_sublist|done].
  - destruct (may_go j q) eqn:Eg; [|done].
    eapply (ok_change _ _ _ _ _ _ _ (LTask i (LAcq l m p) o Waits)); [exact Hok|done|done|..].
    + intros K HK (l' & m' & k' & h & [= <- <- <-] & Ha & Hd & Hm). exists ((l, m) :: h). done.
    + intros HG a r b ->. destruct (decide (rq_task r = j)) as [Hj|Hj].
      * left. destruct (HG a r b eq_refl) as [H|(H1 & _)]; [done|]. unfold may_go in Eg.
        assert (newest j (a ++ r :: b) = Some (r, b)) as E by (apply newest_split; exists a; by subst j). by rewrite E in Eg.
      * destruct (HG a r b eq_refl) as [H|(H1 & t & H2 & H3)]; [by left|]. right. split; [done|]. exists t. by rewrite list_lookup_insert_ne.
    + auto.
Qed.
Lemma ok_run Ks ms : forall y, lsys_ok Ks y -> lsys_ok Ks (lsys_run ms y).
Proof. induction ms as [|m ms IH]; intros y Hy; [done|]. apply IH. by apply ok_step. Qed.

(** * Who waits for whom *)
Lemma run_handles ms : forall y, map lt_handle (ls_tasks (lsys_run ms y)) = map lt_handle (ls_tasks y).
Proof.
  induction ms as [|m ms IH]; intros y; [done|]. cbn [lsys_run]. rewrite IH. clear IH. destruct y as [ts q w].
  assert (forall j t t', ts !! j = Some t -> lt_handle t' = lt_handle t -> map lt_handle (<[j := t']> ts) = map lt_handle ts) as Hins.
  { intros j t t' Ht E. change (map lt_handle (<[j := t']> ts)) with (lt_handle <$> <[j := t']> ts). rewrite list_fmap_insert. apply list_insert_id.
    rewrite list_lookup_fmap, Ht. cbn. by f_equal. }
  destruct m as [j|j]; cbn [lsys_step ls_tasks ls_reqs ls_world]; (destruct (ts !! j) as [t|] eqn:Ht; [|done]); [|by eapply Hins].
  destruct (task_step j t q w) as [[t' q'] w'] eqn:E. cbn. eapply Hins; [done|]. destruct t as [i p o ph]. unfold task_step in E. cbn in E.
  destruct ph; [| |congruence].
  - destruct p; try (injection E as <- _ _; done); destruct (lstep _ _); injection E as <- _ _; done.
  - destruct p; try congruence. destruct (may_go j q); injection E as <- _ _; done.
Qed.

Lemma last_such (P : req -> bool) rs : existsb P rs = true -> exists a x b, rs = a ++ x :: b /\ P x = true /\ forall z, In z b -> P z = false.
Proof.
  induction rs as [|z rs IH]; [done|]. cbn. intros H. destruct (existsb P rs) eqn:E.
  - destruct IH as (a & x & b & -> & Hx); [done|]. by exists (z :: a), x, b.
  - exists [], z, rs. rewrite orb_false_r in H. split_and!; [done..|]. intros z' Hz'. destruct (P z') eqn:Ez; [|done].
    rewrite <- E. symmetry. apply existsb_exists. by exists z'.
Qed.
Section stuck.
Context (Ks : list kind) (y : lsys) (Hok : lsys_ok Ks y) (Hstuck : stuck y).
Notation q := (ls_reqs y).
Definition waits_at (j i : nat) (K : kind) (l : lock) (m : mode) (h : held) : Prop :=
  exists t, ls_tasks y !! j = Some t /\ l_over t = false /\ lt_handle t = i /\ Ks !! j = Some K /\ may_ask K h l m /\
    mine j q = map (to_req j i) ((l, m) :: h).
Lemma some_kind j t : ls_tasks y !! j = Some t -> exists K, Ks !! j = Some K.
Proof. intros Ht. apply lookup_lt_is_Some. rewrite (ok_len _ _ Hok). by eapply lookup_lt_Some. Qed.
Lemma stuck_task j t : ls_tasks y !! j = Some t -> l_over t = false -> exists K l m h, waits_at j (lt_handle t) K l m h.
Proof.
  intros Ht Ho. destruct Hstuck as [_ Hs]. destruct (Hs j t Ht Ho) as (t' & Ht' & Hw & Hg). assert (t' = t) as -> by congruence.
  destruct (some_kind j t Ht) as (K & HK). pose proof (ok_task _ _ Hok j t K Ht HK) as Hk. unfold task_ok in Hk. rewrite Hw in Hk.
  destruct Hk as (l & m & k & h & Hp & Ha & Hd & Hm). exists K, l, m, h, t. done.
Qed.
Lemma stuck_req r : In r q -> exists K l m h, waits_at (rq_task r) (rq_handle r) K l m h.
Proof.
  intros Hr. assert (In r (mine (rq_task r) q)) as Hin by (apply filter_In; by rewrite Nat.eqb_refl).
  destruct (ls_tasks y !! rq_task r) as [t|] eqn:Ht; [|by rewrite (ok_none _ _ Hok) in Hin by done].
  destruct (some_kind _ t Ht) as (K & HK). pose proof (ok_task _ _ Hok _ t K Ht HK) as Hk.
  assert (rq_handle r = lt_handle t /\ l_over t = false) as [E Ho].
  { unfold task_ok in Hk. unfold l_over. destruct (lt_phase t).
    - destruct Hk as (h & Hm & Hd). rewrite Hm in Hin. split.
      + apply in_map_iff in Hin as (e & <- & _). done.
      + destruct (lt_prog t); try done; cbn in Hd; subst h; done.
    - destruct Hk as (l & m & k & h & Hp & Ha & Hd & Hm). rewrite Hm in Hin. rewrite Hp. split; [|done].
      apply in_map_iff in Hin as (e & <- & _). done.
    - by rewrite Hk in Hin. }
  rewrite E. by apply stuck_task.
Qed.
Lemma waits_same j i K l m h i' K' l' m' h' : waits_at j i K l m h -> waits_at j i' K' l' m' h' -> l' = l /\ h' = h /\ K' = K.
Proof.
  intros (t & H1 & H2 & H3 & H4 & H5 & H6) (t' & H1' & H2' & H3' & H4' & H5' & H6').
  assert (t' = t) as -> by congruence. subst. rewrite H6 in H6'. cbn in H6'. injection H6' as -> -> E. rewrite H4 in H4'. injection H4' as ->.
  split_and!; try done. symmetry. clear -E. revert h' E. induction h as [|[l m] h IH]; intros [|[l' m'] h'] E; try done.
  cbn in E. injection E as -> -> E. f_equal. auto.
Qed.
Lemma next j i K l m h : waits_at j i K l m h -> exists j' K' l' m' h' m'', waits_at j' i K' l' m' h' /\ In (l, m'') h'.
Proof.
  intros (t & Ht & Ho & Hi & HK & Ha & Hm).
  destruct (last_such (same_lock (Req j i l m)) q) as (a & r & b & Hq & Hr & Hb).
  { apply existsb_exists. exists (Req j i l m). split; [|apply same_lock_refl]. assert (In (Req j i l m) (mine j q)) as H by (rewrite Hm; by left).
    by apply filter_In in H as [? _]. }
  assert (granted b r = true) as Hg.
  { unfold granted. apply forallb_forall. intros o Hin. apply orb_true_iff. left. apply negb_true_iff. destruct (same_lock o r) eqn:E; [|done].
    rewrite <- (Hb o Hin). symmetry. apply same_lock_eq in E as [E1 E2], Hr as [E3 E4]. apply same_lock_eq. split; congruence. }
  apply same_lock_eq in Hr as [Hr1 Hr2]. cbn in Hr1, Hr2.
  destruct (stuck_req r) as (K' & l' & m' & h' & Hw); [rewrite Hq; apply in_or_app; right; by left|].
  exists (rq_task r), K', l', m', h', (rq_mode r). rewrite Hr1. split; [done|].
  destruct Hw as (t' & Ht' & Ho' & Hi' & HK' & Ha' & Hm').
  destruct (mine (rq_task r) a) as [|x rest] eqn:Em.
  - destruct Hstuck as [_ Hs]. destruct (Hs _ t' Ht' Ho') as (? & _ & _ & Hg'). unfold may_go in Hg'.
    assert (newest (rq_task r) q = Some (r, b)) as E by (apply newest_split; by exists a). rewrite E in Hg'. congruence.
  - rewrite Hq, mine_app, Em in Hm'. rewrite mine_cons, Nat.eqb_refl in Hm'. cbn in Hm'. injection Hm' as _ E.
    assert (In r (map (to_req (rq_task r) (rq_handle r)) h')) as Hin by (rewrite <- E; apply in_or_app; right; by left).
    apply in_map_iff in Hin as ([l1 m1] & E1 & Hin). pose proof (f_equal rq_lock E1) as E2. pose proof (f_equal rq_mode E1) as E3. cbn in E2, E3. congruence.
Qed.
Lemma self j i K l m h m' : waits_at j i K l m h -> In (l, m') h -> waits_for_itself y j.
Proof.
  intros (t & Ht & Ho & Hi & HK & Ha & Hm) Hin. split; [by apply (proj2 Hstuck j t)|].
  cbn in Hm. destruct (newest j q) as [[r b]|] eqn:En.
  - exists r, b, (to_req j i (l, m')). split; [done|]. apply newest_split in En as (a & Hq & Hr & Hma). rewrite Hq, mine_app, Hma, mine_cons in Hm.
    cbn in Hm. rewrite Hr, Nat.eqb_refl in Hm. injection Hm as -> E. split_and!; [|done|apply same_lock_eq; cbn; auto].
    assert (In (to_req j i (l, m')) (mine j b)) as H by (rewrite E; by apply in_map). by apply filter_In in H as [? _].
  - exfalso. clear -Hm En. induction q as [|x rs IH]; [done|]. cbn in En. rewrite mine_cons in Hm. destruct (rq_task x =? j)%nat; [done|auto].
Qed.
Lemma ask_in K h l0 m0 l m : may_ask K h l m -> In (l0, m0) h ->
  match l0 with
  | LCache => False
  | LKids n => K = KDel /\ exists r, (l = LNode r /\ (exists m2, In (LNode n, m2) h) /\ forall k m2, In (LKids k, m2) h -> k = n) \/ (l = LKids r /\ forall k m2, In (LKids k, m2) h -> k = n)
  | LNode n => l = LKids n \/ l = LCache \/ (K = KStream /\ l = LNode n) \/ (K = KDel /\ exists k m2, In (LKids k, m2) h)
  end.
Proof.
  intros [_ Ha] Hin. destruct h as [|[[n1|n1|] m1] [|[[n2|n2|] m2] [|[[n3|n3|] m3] [|]]]], l as [r|r|]; cbn in Ha; try done; cbn in Hin;
    repeat (destruct Hin as [Hin|Hin]; [injection Hin as <- <-|]); try done; destruct_and?; subst;
    try (by auto); try (by eauto 10).
  all: try (right; right; right; split; [done|]; eexists _, _; cbn; eauto).
  all: try (split; [done|]; exists r; first [left; split_and!; [done|eexists; cbn; by eauto|] | right; split; [done|]]; intros k m5 Hin; cbn in Hin; naive_solver).
  split; [done|]. exists n1. right. split; [done|]. intros k m5 [H|[H|[H|[]]]]; congruence.
Qed.
Lemma cache_free j i K m h : ~ waits_at j i K LCache m h.
Proof.
  intros Hw. destruct (next _ _ _ _ _ _ Hw) as (j' & K' & l' & m' & h' & m'' & (t & _ & _ & _ & _ & Ha & _) & Hin).
  by apply (ask_in _ _ _ _ _ _ Ha Hin).
Qed.
Definition one_del (i : nat) : Prop := forall j j' t t', Ks !! j = Some KDel -> Ks !! j' = Some KDel -> ls_tasks y !! j = Some t -> ls_tasks y !! j' = Some t' ->
  lt_handle t = i -> lt_handle t' = i -> j = j'.
Definition some_self (i : nat) : Prop := exists j t, ls_tasks y !! j = Some t /\ lt_handle t = i /\ waits_for_itself y j /\ (Ks !! j = Some KStream \/ Ks !! j = Some KDel).
Lemma same_del j j' i K K' l m h l' m' h' : one_del i -> K = KDel -> K' = KDel -> waits_at j i K l m h -> waits_at j' i K' l' m' h' -> j' = j /\ l' = l /\ h' = h.
Proof.
  intros H1 -> -> Hw Hw'. assert (j' = j) as ->.
  { destruct Hw as (t & ? & ? & <- & ? & _), Hw' as (t' & ? & ? & ? & ? & _). by eapply H1. }
  by destruct (waits_same _ _ _ _ _ _ _ _ _ _ _ Hw Hw') as (-> & -> & _).
Qed.
Lemma waits_kind j i K l m h : waits_at j i K l m h -> may_ask K h l m /\ Ks !! j = Some K.
Proof. by intros (t & _ & _ & _ & ? & ? & _). Qed.
Lemma self_some j i K l m h m' : waits_at j i K l m h -> In (l, m') h -> K = KStream \/ K = KDel -> some_self i.
Proof.
  intros Hw Hin HK. pose proof Hw as (t & Ht & _ & Hi & HK' & _). exists j, t. split_and!; [done..|by eapply self|]. by destruct HK as [-> | ->]; [left|right].
Qed.
Lemma kids_self d i l m h n m0 : one_del i -> waits_at d i KDel l m h -> In (LKids n, m0) h -> some_self i.
Proof.
  intros H1 Hw Hin. destruct (waits_kind _ _ _ _ _ _ Hw) as [Ha HK]. pose proof (ask_in _ _ _ _ _ _ Ha Hin) as (_ & r & [(-> & (m2 & Hn) & Hk)|(-> & Hk)]).
  - destruct (next _ _ _ _ _ _ Hw) as (j2 & K2 & l2 & m3 & h2 & m4 & Hw2 & Hin2). destruct (waits_kind _ _ _ _ _ _ Hw2) as [Ha2 HK2].
    destruct (ask_in _ _ _ _ _ _ Ha2 Hin2) as [->|[->|[(-> & ->)|(-> & k & m5 & Hk2)]]].
    + destruct (next _ _ _ _ _ _ Hw2) as (j3 & K3 & l3 & m5 & h3 & m6 & Hw3 & Hin3). destruct (waits_kind _ _ _ _ _ _ Hw3) as [Ha3 HK3].
      destruct (ask_in _ _ _ _ _ _ Ha3 Hin3) as (-> & _). destruct (same_del _ _ _ _ _ _ _ _ _ _ _ H1 eq_refl eq_refl Hw Hw3) as (-> & -> & ->).
      rewrite (Hk _ _ Hin3) in *. eapply (self_some d); eauto.
    + by apply cache_free in Hw2.
    + eapply (self_some j2); eauto.
    + destruct (same_del _ _ _ _ _ _ _ _ _ _ _ H1 eq_refl eq_refl Hw Hw2) as (-> & -> & ->). eapply (self_some d); eauto.
  - destruct (next _ _ _ _ _ _ Hw) as (j2 & K2 & l2 & m3 & h2 & m4 & Hw2 & Hin2). destruct (waits_kind _ _ _ _ _ _ Hw2) as [Ha2 HK2].
    destruct (ask_in _ _ _ _ _ _ Ha2 Hin2) as (-> & _). destruct (same_del _ _ _ _ _ _ _ _ _ _ _ H1 eq_refl eq_refl Hw Hw2) as (-> & -> & ->).
    eapply (self_some d); eauto.
Qed.
Lemma stuck_self j t : ls_tasks y !! j = Some t -> l_over t = false -> one_del (lt_handle t) -> some_self (lt_handle t).
Proof.
  intros Ht Ho H1. destruct (stuck_task j t Ht Ho) as (K & l & m & h & Hw).
  assert (forall j K m h n, waits_at j (lt_handle t) K (LKids n) m h -> some_self (lt_handle t)) as Hkids.
  { clear -H1 Hok Hstuck. intros j K m h n Hw. destruct (next _ _ _ _ _ _ Hw) as (j2 & K2 & l2 & m3 & h2 & m4 & Hw2 & Hin2).
    destruct (waits_kind _ _ _ _ _ _ Hw2) as [Ha2 HK2]. destruct (ask_in _ _ _ _ _ _ Ha2 Hin2) as (-> & _). by eapply kids_self. }
  destruct l as [n|n|]; [|by eapply Hkids|by apply cache_free in Hw].
  destruct (next _ _ _ _ _ _ Hw) as (j2 & K2 & l2 & m3 & h2 & m4 & Hw2 & Hin2). destruct (waits_kind _ _ _ _ _ _ Hw2) as [Ha2 HK2].
  destruct (ask_in _ _ _ _ _ _ Ha2 Hin2) as [->|[->|[(-> & ->)|(-> & k & m5 & Hk2)]]].
  - by eapply Hkids.
  - by apply cache_free in Hw2.
  - eapply (self_some j2); eauto.
  - by eapply kids_self.
Qed.
(** Where nobody writes, nobody waits for a node. *)
Lemma stuck_writes j t : ls_tasks y !! j = Some t -> l_over t = false -> exists j' t' K, ls_tasks y !! j' = Some t' /\ lt_handle t' = lt_handle t /\ Ks !! j' = Some K /\ writes K = true.
Proof.
  intros Ht Ho. destruct (stuck_task j t Ht Ho) as (K & l & m & h & Hw). destruct (proj2 Hstuck j t Ht Ho) as (t0 & Ht0 & _ & Hg).
  pose proof Hw as (t1 & Ht1 & _ & _ & HK & Ha & Hm). unfold may_go in Hg. destruct (newest j q) as [[r b]|] eqn:En.
  2: { exfalso. clear -Hm En. cbn in Hm. induction q as [|x rs IH]; [done|]. cbn in En. rewrite mine_cons in Hm. destruct (rq_task x =? j)%nat; [done|auto]. }
  apply newest_split in En as (a & Hq & Hr & Hma). rewrite Hq, mine_app, Hma, mine_cons, Hr, Nat.eqb_refl in Hm. cbn in Hm. injection Hm as -> _.
  assert (exists o, In o b /\ same_lock o (to_req j (lt_handle t) (l, m)) = true /\ together o (to_req j (lt_handle t) (l, m)) = false) as (o & Hin & Hs & Hto).
  { clear -Hg. unfold granted in Hg. induction b as [|o b IH]; [done|]. cbn in Hg. apply andb_false_iff in Hg as [Hg|Hg].
    - apply orb_false_iff in Hg as [H1%negb_false_iff H2]. exists o. split_and!; [by left|done..].
    - destruct (IH Hg) as (o' & ? & ?). exists o'. split; [by right|done]. }
  assert (In o q) as Hoq by (rewrite Hq; apply in_or_app; right; by right).
  destruct (stuck_req o Hoq) as (K' & l' & m' & h' & t' & Ht' & Ho' & Hi' & HK' & _).
  apply same_lock_eq in Hs as [Hs1 Hs2]. cbn in Hs1, Hs2.
  pose proof (ok_modes _ _ Hok o K' Hoq HK') as Hmo. rewrite Hs2 in Hmo. destruct Ha as [Hmm _].
  destruct Hmo as [Hmo|[Hmo| ->]].
  - exists (rq_task o), t', K'. split_and!; [done|congruence|done..].
  - destruct Hmm as [Hmm|[Hmm| ->]].
    + exists j, t, K. done.
    + unfold together in Hto. rewrite Hmo in Hto. cbn in Hto. by rewrite Hmm in Hto.
    + by apply cache_free in Hw.
  - by apply cache_free in Hw.
Qed.
End stuck.

(** * Calls that never wait for ever *)
Lemma start_handles fuel xs w ms j t : ls_tasks (lsys_run ms (lsys_start fuel xs w)) !! j = Some t ->
  exists i c o, xs !! j = Some (i, c, o) /\ lt_handle t = i /\ (map (fun x => kind_of (snd (fst x))) xs) !! j = Some (kind_of c).
Proof.
  intros Ht. pose proof (run_handles ms (lsys_start fuel xs w)) as E. assert (map lt_handle (map (ltask_of fuel) xs) !! j = Some (lt_handle t)) as Hh.
  { change (map (ltask_of fuel) xs) with (ls_tasks (lsys_start fuel xs w)). rewrite <- E.
    change (map lt_handle ?l) with (lt_handle <$> l). by rewrite list_lookup_fmap, Ht. }
  rewrite map_map in Hh. change (map ?f xs) with (f <$> xs) in Hh |- *. rewrite list_lookup_fmap in Hh. destruct (xs !! j) as [[[i c] o]|] eqn:Ex; [|done].
  exists i, c, o. cbn in Hh. injection Hh as <-. split_and!; [done..|]. rewrite list_lookup_fmap, Ex. done.
Qed.
Lemma kind_del c : kind_of c = KDel <-> deletes c.
Proof. by destruct c. Qed.
Lemma kind_stream c : kind_of c = KStream <-> streams c.
Proof. by destruct c. Qed.
Lemma stuck_causes fuel xs w ms :
  (forall a b i c c' o o', xs !! a = Some (i, c, o) -> xs !! b = Some (i, c', o') -> deletes c -> deletes c' -> a = b) ->
  let y := lsys_run ms (lsys_start fuel xs w) in stuck y ->
  exists j i c o, xs !! j = Some (i, c, o) /\ (streams c \/ deletes c) /\ waits_for_itself y j.
Proof.
  intros H1 y Hs. pose proof (ok_run _ ms _ (ok_start fuel xs w)) as Hok. fold y in Hok. pose proof Hs as [(j & t & Ht & Ho) _].
  destruct (stuck_self _ y Hok Hs j t Ht Ho) as (j' & t' & Ht' & Hi & Hself & HK).
  - intros j1 j2 t1 t2 HK1 HK2 Ht1 Ht2 E1 E2. destruct (start_handles _ _ _ _ _ _ Ht1) as (i1 & c1 & o1 & Hx1 & Hi1 & Hk1).
    destruct (start_handles _ _ _ _ _ _ Ht2) as (i2 & c2 & o2 & Hx2 & Hi2 & Hk2). assert (i2 = i1) as -> by congruence.
    eapply H1; [exact Hx1|exact Hx2|apply kind_del; congruence..].
  - destruct (start_handles _ _ _ _ _ _ Ht') as (i1 & c1 & o1 & Hx1 & Hi1 & Hk1). exists j', i1, c1, o1. split_and!; [done| |done].
    destruct HK as [HK|HK]; [left; apply kind_stream|right; apply kind_del]; congruence.
Qed.
Definition calm (xs : list (nat * call * list fault)) : Prop := forall i,
  (forall c o, In (i, c, o) xs -> ~ streams c /\ ~ deletes c) \/ (forall c o, In (i, c, o) xs -> reads_only c).
Lemma lookup_In {A} (l : list A) j x : l !! j = Some x -> In x l.
Proof. intros H. apply elem_of_list_In. by eapply elem_of_list_lookup_2. Qed.
Lemma calm_runs fuel xs w ms : calm xs -> ~ stuck (lsys_run ms (lsys_start fuel xs w)).
Proof.
  intros Hc Hs. pose proof (ok_run _ ms _ (ok_start fuel xs w)) as Hok. set (y := lsys_run _ _) in *. pose proof Hs as [(j & t & Ht & Ho) _].
  destruct (Hc (lt_handle t)) as [H|H].
  - destruct (stuck_self _ y Hok Hs j t Ht Ho) as (j' & t' & Ht' & Hi & _ & HK).
    + intros j1 j2 t1 t2 HK1 HK2 Ht1 Ht2 E1 E2. destruct (start_handles _ _ _ _ _ _ Ht1) as (i1 & c1 & o1 & Hx1 & Hi1 & Hk1).
      exfalso. apply lookup_In in Hx1. assert (i1 = lt_handle t) as -> by congruence. destruct (H _ _ Hx1) as [HS HD]. apply HD, kind_del. congruence.
    + destruct (start_handles _ _ _ _ _ _ Ht') as (i1 & c1 & o1 & Hx1 & Hi1 & Hk1). apply lookup_In in Hx1. assert (i1 = lt_handle t) as -> by congruence.
      destruct (H _ _ Hx1) as [HS HD]. destruct HK as [HK|HK]; [apply HS, kind_stream|apply HD, kind_del]; congruence.
  - destruct (stuck_writes _ y Hok Hs j t Ht Ho) as (j' & t' & K & Ht' & Hi & HK & HW).
    destruct (start_handles _ _ _ _ _ _ Ht') as (i1 & c1 & o1 & Hx1 & Hi1 & Hk1). apply lookup_In in Hx1. assert (i1 = lt_handle t) as -> by congruence.
    assert (K = kind_of c1) as -> by congruence. specialize (H _ _ Hx1). by destruct c1.
Qed.

(** Each step that is not in vain brings a call nearer to its end. *)
Definition adv (t' t : ltask) : Prop := exists j q w, l_over t = false /\
  (lt_phase t = Waits -> may_go j q = true /\ exists l m k, lt_prog t = LAcq l m k) /\ t' = fst (fst (task_step j t q w)).
Lemma adv_ends p : forall i o ph, Acc adv (LTask i p o ph).
Proof.
  assert (forall i p o, Acc adv (LTask i p o Gone)) as Hgone by (intros i p' o; constructor; intros t' (j & q & w & H & _); done).
  assert (forall i a o ph, Acc adv (LTask i (LRet a) o ph)) as Hret by (intros i a o []; constructor; intros t' (j & q & w & H & _); done).
  assert (forall i x o ph, Acc adv (LTask i (LStop x) o ph)) as Hstop by (intros i x o []; constructor; intros t' (j & q & w & H & _); done).
  assert (forall i p o, (forall l m k, p <> LAcq l m k) -> Acc adv (LTask i p o Waits)) as Hwaits.
  { intros i p' o Hp. constructor. intros t' (j & q & w & Ho & Hw & _). destruct (Hw eq_refl) as (_ & l & m & k & E). by apply Hp in E. }
  assert (forall i p o, match p with LRet _ | LStop _ | LAcq _ _ _ | LRel _ _ _ => False | _ => True end ->
    (forall s o, Acc adv (LTask i (fst (lstep p s)) o Runs)) -> Acc adv (LTask i p o Runs)) as Hcmd.
  { intros i p' o Hp Hs. constructor. intros t' (j & q & w & Ho & Hw & ->). unfold task_step. cbn [lt_phase lt_prog lt_handle lt_faults].
    specialize (Hs (view w i o)). destruct p'; try (exfalso; exact Hp); destruct (lstep _ _) as [p1 s1]; apply Hs. }
  induction p; intros i o ph; (destruct ph; [|try (apply Hwaits; congruence)|apply Hgone]); try apply Hret; try apply Hstop.
  - apply Hcmd; [exact I|]. intros s o'. apply H.
  - apply Hcmd; [exact I|]. intros s o'. cbn [lstep]. destruct (exec_get seq s). apply H.
  - apply Hcmd; [exact I|]. intros s o'. cbn [lstep]. destruct (exec_append b s). apply H.
  - apply Hcmd; [exact I|]. intros s o'. apply H.
  - apply Hcmd; [exact I|]. intros s o'. apply IHp.
  - apply Hcmd; [exact I|]. intros s o'. apply H.
  - apply Hcmd; [exact I|]. intros s o'. cbn [lstep]. destruct (heap s !! n); [apply H|apply Hstop].
  - apply Hcmd; [exact I|]. intros s o'. cbn [lstep]. destruct (heap s !! n) as [nd|]; [destruct (f nd); [apply H|apply Hstop]|apply Hstop].
  - assert (forall o, Acc adv (LTask i (LAcq l m p) o Waits)) as Hwait.
    { clear o. intros o. constructor. intros t' (j & q' & w & Ho & Hw & ->). cbn in Hw. destruct (Hw eq_refl) as (Hg & _). unfold task_step. cbn [lt_phase lt_prog lt_handle lt_faults]. rewrite Hg. apply IHp. }
    constructor. intros t' (j & q' & w & Ho & Hw & ->). apply Hwait.
  - constructor. intros t' (j & q' & w & Ho & Hw & ->). cbn in Hw. destruct (Hw eq_refl) as (Hg & _). unfold task_step. cbn [lt_phase lt_prog lt_handle lt_faults]. rewrite Hg. apply IHp.
  - constructor. intros t' (j & q' & w & Ho & Hw & ->). apply IHp.
Qed.
Definition ladv (ts' ts : list ltask) : Prop := exists j t t', ts !! j = Some t /\ adv t' t /\ ts' = <[j := t']> ts.
Lemma ladv_ends ts : Acc ladv ts.
Proof.
  induction ts as [|t ts IH].
  - constructor. intros ts' (j & t & t' & Ht & _). done.
  - assert (Acc adv t) as Ht by (destruct t; apply adv_ends). revert ts IH. induction Ht as [t _ IHt]. intros ts Hts. induction Hts as [ts Hts IHts].
    constructor. intros ts' ([|j] & t1 & t' & Hl & Ha & ->); cbn in *.
    + injection Hl as ->. by apply IHt.
    + apply IHts. by exists j, t1, t'.
Qed.
Lemma run_app ms ms' : forall y, lsys_run (ms ++ ms') y = lsys_run ms' (lsys_run ms y).
Proof. induction ms as [|m ms IH]; intros y; [done|]. cbn. apply IH. Qed.
Definition blocked_b (y : lsys) (j : nat) : bool :=
  match ls_tasks y !! j with Some t => match lt_phase t with Waits => negb (may_go j (ls_reqs y)) | _ => false end | None => false end.
Lemma blocked_b_spec y j : blocked_b y j = true <-> blocked y j.
Proof.
  unfold blocked_b, blocked. destruct (ls_tasks y !! j) as [t|].
  - destruct (lt_phase t) eqn:E; [split; [done|intros (t' & [= <-] & ? & _); congruence]| |split; [done|intros (t' & [= <-] & ? & _); congruence]].
    rewrite negb_true_iff. split; [intros H; by exists t|]. by intros (t' & [= <-] & _ & H).
  - split; [done|]. by intros (t & ? & _).
Qed.
(** Polls that bring every call to an end. *)
Lemma run_to_end Ks y : lsys_ok Ks y -> (forall ms, ~ stuck (lsys_run ms y)) ->
  exists js, Forall (fun t => l_over t = true) (ls_tasks (lsys_run (map LPoll js) y)).
Proof.
  destruct y as [ts q w]. revert q w. induction (ladv_ends ts) as [ts _ IH]. intros q w Hok Hns. set (y := LSys ts q w) in *.
  destruct (decide (Forall (fun t => l_over t = true) ts)) as [Hall|Hall]; [by exists []|].
  assert (exists j t, ts !! j = Some t /\ l_over t = false) as Hsome.
  { apply not_Forall_Exists in Hall; [|apply _]. apply Exists_exists in Hall as (t & Hin & Ho). apply elem_of_list_lookup in Hin as (j & Hj).
    exists j, t. split; [done|]. by apply not_true_is_false. }
  destruct (decide (Forall (fun j => (match ts !! j with Some t => l_over t || blocked_b y j | None => true end) = true) (seq 0 (length ts)))) as [Hb|Hb].
  { exfalso. apply (Hns []). split; [exact Hsome|]. intros j t Ht Ho. rewrite Forall_forall in Hb. specialize (Hb j). cbn in Ht. rewrite Ht in Hb.
    rewrite Ho in Hb. apply blocked_b_spec, Hb, elem_of_seq. apply lookup_lt_Some in Ht. lia. }
  apply not_Forall_Exists in Hb; [|apply _]. apply Exists_exists in Hb as (j & _ & Hj). apply not_true_is_false in Hj. destruct (ts !! j) as [t|] eqn:Ht; [|done].
  assert (l_over t = false /\ blocked_b y j = false) as [Ho Hb] by by apply orb_false_iff.
  destruct (task_step j t q w) as [[t' q'] w'] eqn:E.
  assert (lsys_step (LPoll j) y = LSys (<[j := t']> ts) q' w') as Es by (unfold y; cbn [lsys_step ls_tasks ls_reqs ls_world]; by rewrite Ht, E).
  destruct (IH (<[j := t']> ts)) with (q := q') (w := w') as (js & Hjs).
  - exists j, t, t'. split_and!; [done| |done]. exists j, q, w. split_and!; [done| |by rewrite E].
    intros Hw. split.
    + unfold blocked_b in Hb. cbn in Hb. rewrite Ht, Hw in Hb. by apply negb_false_iff in Hb.
    + assert (exists K, Ks !! j = Some K) as (K & HK) by by eapply some_kind.
      pose proof (ok_task _ _ Hok j t K Ht HK) as Hk. unfold task_ok in Hk. rewrite Hw in Hk. destruct Hk as (l & m & k & h & Hp & _). eauto.
  - rewrite <- Es. by apply ok_step.
  - intros ms. rewrite <- Es. apply (Hns (LPoll j :: ms)).
  - exists (j :: js). cbn [map lsys_run]. by rewrite Es.
Qed.
Lemma calm_ends fuel xs w ms : calm xs ->
  exists js, Forall (fun t => l_over t = true) (ls_tasks (lsys_run (ms ++ map LPoll js) (lsys_start fuel xs w))).
Proof.
  intros Hc. setoid_rewrite run_app. eapply run_to_end; [apply ok_run, ok_start|]. intros ms'. rewrite <- run_app. by apply calm_runs.
Qed.

(** * Once waiting, always waiting *)
Lemma blocked_step y j : blocked y j -> lsys_step (LPoll j) y = y.
Proof.
  intros (t & Ht & Hw & Hg). destruct y as [ts q w]. cbn [ls_tasks ls_reqs] in *. cbn [lsys_step ls_tasks ls_reqs ls_world]. rewrite Ht.
  unfold task_step. rewrite Hw, Hg. destruct (lt_prog t); by rewrite list_insert_id.
Qed.
Lemma blocked_stays y j k : blocked y j -> lsys_run (repeat (LPoll j) k) y = y.
Proof. intros Hb. induction k as [|k IH]; [done|]. cbn [repeat lsys_run]. by rewrite blocked_step. Qed.
Lemma stuck_stays y js : stuck y -> lsys_run (map LPoll js) y = y.
Proof.
  intros [_ Hs]. induction js as [|j js IH]; [done|]. cbn [map lsys_run]. assert (lsys_step (LPoll j) y = y) as ->; [|done].
  destruct (ls_tasks y !! j) as [t|] eqn:Ht.
  - destruct (l_over t) eqn:Ho; [|by eapply blocked_step, Hs]. destruct y as [ts q w]. cbn [ls_tasks] in Ht. cbn [lsys_step ls_tasks ls_reqs ls_world]. rewrite Ht.
    unfold task_step, l_over in *. destruct (lt_phase t); destruct (lt_prog t); try done; by rewrite list_insert_id.
  - destruct y as [ts q w]. cbn [ls_tasks] in Ht. cbn [lsys_step ls_tasks]. by rewrite Ht.
Qed.
Definition stuck_b (y : lsys) : bool :=
  existsb (fun t => negb (l_over t)) (ls_tasks y) &&
  forallb (fun j => match ls_tasks y !! j with Some t => l_over t || blocked_b y j | None => true end) (seq 0 (length (ls_tasks y))).
Lemma stuck_b_spec y : stuck_b y = true -> stuck y.
Proof.
  unfold stuck_b. rewrite andb_true_iff. intros [H1 H2]. split.
  - apply existsb_exists in H1 as (t & Hin & Ho). apply elem_of_list_In, elem_of_list_lookup in Hin as (j & Hj). exists j, t. by apply negb_true_iff in Ho.
  - intros j t Ht Ho. rewrite forallb_forall in H2. specialize (H2 j). rewrite Ht, Ho in H2. apply blocked_b_spec, H2, in_seq. apply lookup_lt_Some in Ht. lia.
Qed.
