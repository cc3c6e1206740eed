(** What is written to the core comes from the calls. *)
From Coq.Strings Require Import Byte.
From Coq Require Import Lia.
From stdpp Require Import prelude gmap.
From Verif Require Import Bytes Codec CodecProofs Model Wire WireProofs Spec Client Threads.

Local Arguments decode_block : simpl never.
Local Arguments enc_header : simpl never.
Local Arguments encode_block : simpl never.

(** ** What a program may write *)
Fixpoint writes {A} (W : bytes -> Prop) (p : prog A) (Q : A -> Prop) : Prop :=
  match p with
  | Ret a => Q a
  | Stop _ => True
  | CoreLen k => forall v, writes W (k v) Q
  | CoreGet _ k => forall v, writes W (k v) Q
  | CoreAppend b k => W b /\ forall v, writes W (k v) Q
  | CacheGet _ k => forall v, writes W (k v) Q
  | CachePut _ _ k => writes W k Q
  | NodeNew _ k => forall v, writes W (k v) Q
  | NodeGet _ k => forall v, writes W (k v) Q
  | NodeUpd _ _ k => forall v, writes W (k v) Q
  end.
Lemma writes_bind {A B} W (p : prog A) (f : A -> prog B) Q : writes W p (fun a => writes W (f a) Q) -> writes W (pbind p f) Q.
Proof. induction p as [a|x|k IH|q k IH|b k IH|q k IH|q e k IH|nd k IH|n k IH|n g k IH]; intros H; cbn in *; eauto. destruct H. eauto. Qed.
Lemma writes_catch {A} W (p : prog A) (Q : A + err -> Prop) : writes W p (fun a => Q (Datatypes.inl a)) -> (forall e, Q (Datatypes.inr e)) -> writes W (catch p) Q.
Proof.
  induction p as [a|x|k IH|q k IH|b k IH|q k IH|q e k IH|nd k IH|n k IH|n g k IH]; intros H HQ; cbn in *; eauto.
  - destruct x; cbn; eauto.
  - destruct H. eauto.
Qed.
Lemma writes_mono {A} W (p : prog A) (Q Q' : A -> Prop) : writes W p Q -> (forall a, Q a -> Q' a) -> writes W p Q'.
Proof. intros H HQ. induction p as [a|x|k IH|q k IH|b k IH|q k IH|q e k IH|nd k IH|n k IH|n g k IH]; cbn in *; eauto. destruct H. eauto. Qed.

(** The same, not to be unfolded. *)
Record says {A} (W : bytes -> Prop) (p : prog A) (Q : A -> Prop) : Prop := Says { says_writes : writes W p Q }.
Definition any {A} (_ : A) : Prop := True.

Lemma says_bind {A B} W (p : prog A) (f : A -> prog B) P Q : says W p P -> (forall a, P a -> says W (f a) Q) -> says W (pbind p f) Q.
Proof. intros [H1] H2. split. apply writes_bind. eapply writes_mono; [done|]. intros a Ha. by apply H2. Qed.
Lemma says_then {A B} W (p : prog A) (f : A -> prog B) Q : says W p any -> (forall a, says W (f a) Q) -> says W (pbind p f) Q.
Proof. intros H1 H2. eapply says_bind; [done|]. intros. apply H2. Qed.
Lemma says_catch {A} W (p : prog A) : says W p any -> says W (catch p) any.
Proof. intros [H]. split. by apply writes_catch. Qed.
Lemma says_any {A} W (p : prog A) Q : says W p Q -> says W p any.
Proof. intros [H]. split. by eapply writes_mono. Qed.
Lemma says_ret {A} W (a : A) (Q : A -> Prop) : Q a -> says W (Ret a) Q.
Proof. done. Qed.
Lemma says_stop {A} W x (Q : A -> Prop) : says W (Stop x) Q.
Proof. done. Qed.
Lemma says_len W : says W core_len any.
Proof. done. Qed.
Lemma says_alloc W nds : says W (alloc_all nds) any.
Proof. split. induction nds as [|nd nds IH]; [done|]. cbn [alloc_all]. apply writes_bind. cbn. intros n. apply writes_bind. by eapply writes_mono. Qed.
Lemma says_get W q : says W (blocks_get q) any.
Proof.
  split. unfold blocks_get. cbn. intros [e|]; [done|]. cbn. intros r. destruct r as [|[raw|]]; cbn; [done| |done]. destruct (decode_block raw); [done..|].
  apply writes_bind. eapply writes_mono; [apply says_alloc|]. by cbn.
Qed.
Lemma says_append (W : bytes -> Prop) b : W b -> says W (blocks_append b) any.
Proof. intros H. split. unfold blocks_append. cbn. split; [done|]. by intros []. Qed.
Lemma says_new W nd : says W (node_new nd) any.
Proof. done. Qed.
Lemma says_node W n : says W (node_get n) any.
Proof. done. Qed.
Lemma says_mod {B} W n (f : node -> option (B * node)) : says W (node_mod n f) any.
Proof. split. unfold node_mod. cbn. intros nd. by destruct (f nd) as [[]|]. Qed.

Ltac sl := repeat first
  [ assumption | progress intros | progress cbv beta zeta
  | match goal with
    | |- says _ (Ret _) any => by apply says_ret
    | |- says _ (Stop _) _ => apply says_stop
    | |- says _ core_len any => apply says_len
    | |- says _ (blocks_get _) any => apply says_get
    | |- says _ (node_new _) any => apply says_new
    | |- says _ (node_get _) any => apply says_node
    | |- says _ (node_mod _ _) any => apply says_mod
    | |- says _ (catch _) any => apply says_catch
    | |- says _ (pbind _ _) _ => apply says_then
    | |- says _ (match ?x with _ => _ end) _ => destruct x
    end
  | solve [auto with says nocore] ].

Lemma says_unwrap {A} W (o : option A) : says W (unwrap o) any.
Proof. by destruct o. Qed.
Global Hint Resolve says_unwrap : says.
Lemma says_throw {A} W e Q : says W (@throw A e) Q.
Proof. done. Qed.
Lemma says_panic {A} W Q : says W (@panic A) Q.
Proof. done. Qed.
Global Hint Resolve says_throw says_panic : says.
Lemma says_tree_node W e o : says W (get_tree_node e o) any.
Proof. apply says_unwrap. Qed.
Global Hint Resolve says_tree_node : says.
Lemma says_gkv W n i : says W (get_key_value n i) any.
Proof. unfold get_key_value. sl. Qed.
Lemma says_num_keys W n : says W (num_keys n) any.
Proof. unfold num_keys. sl. Qed.
Lemma says_num_children W n : says W (num_children n) any.
Proof. unfold num_children. sl. Qed.
Global Hint Resolve says_gkv says_num_keys says_num_children : says.
Lemma says_is_leaf W n : says W (is_leaf n) any.
Proof. unfold is_leaf. sl. Qed.
Lemma says_get_child W n i : says W (get_child n i) any.
Proof. unfold get_child, get_tree_node. sl. Qed.
Global Hint Resolve says_is_leaf says_get_child : says.
Lemma says_search_loop W fuel n key : forall low high, says W (search_loop fuel n key low high) any.
Proof. induction fuel; intros; cbn [search_loop]; sl. Qed.
Global Hint Resolve says_search_loop : says.
Lemma says_index W n key : says W (get_index_of_key n key) any.
Proof. unfold get_index_of_key. sl. Qed.
Global Hint Resolve says_index : says.
Lemma says_nearest_loop W fuel key : forall n acc, says W (nearest_loop fuel n key acc) any.
Proof. induction fuel; intros; cbn [nearest_loop]; sl. Qed.
Global Hint Resolve says_nearest_loop : says.
Lemma says_nearest W fuel key n : says W (nearest_node fuel n key) any.
Proof. unfold nearest_node. sl. Qed.
Global Hint Resolve says_nearest : says.
Lemma says_take W n seq : says W (take_children_with_seq n seq) any.
Proof. unfold take_children_with_seq. sl. Qed.
Global Hint Resolve says_take : says.
Lemma says_reorder_loop W fuel seq nodes : forall stack out, says W (reorder_loop fuel seq nodes stack out) any.
Proof. induction fuel; intros [|[n ci] stack] out; cbn [reorder_loop]; sl. Qed.
Global Hint Resolve says_reorder_loop : says.
Lemma says_read_levels W ns : says W (read_levels ns) any.
Proof. induction ns; cbn [read_levels]; sl. Qed.
Global Hint Resolve says_read_levels : says.

(** ** Changes keep their key and their value *)
Definition keeps (ch ch' : changes) : Prop := ch_key ch' = ch_key ch /\ ch_value ch' = ch_value ch.
Lemma keeps_trans a b c : keeps a b -> keeps b c -> keeps a c.
Proof. intros [] []. split; congruence. Qed.
Lemma keeps_add n ch : keeps ch (snd (add_node n ch)).
Proof. done. Qed.
Lemma says_keeps_then {A} W (p : prog A) (ch ch' : changes) (g : A -> changes) : keeps ch ch' -> says W p (fun a => keeps ch' (g a)) -> says W p (fun a => keeps ch (g a)).
Proof. intros HK [H]. split. eapply writes_mono; [done|]. intros a. by apply keeps_trans. Qed.

Lemma says_add_changes (W : bytes -> Prop) ch : (forall ls, W (encode_block ls (ch_key ch) (ch_value ch))) -> says W (add_changes ch) any.
Proof. intros H. unfold add_changes, reorder_nodes. sl. by apply says_append. Qed.
Lemma says_propagate W p : forall ch child, says W (propagate ch p child) (keeps ch).
Proof. induction p as [|[n i] p IH]; intros ch child; cbn [propagate]; [by apply says_ret|]. apply says_then; [sl|]. intros _. cbn. exact (IH (snd (add_node n ch)) _). Qed.
Lemma says_put_loop W p : forall matched k cs ch, says W (put_loop matched k cs p ch)
  (fun r => keeps ch (match r with PutReady ch' | PutNewRoot _ _ ch' => ch' end)).
Proof.
  induction p as [|[n i] p IH]; intros matched k cs ch; cbn [put_loop]; [by apply says_ret|].
  apply says_then; [sl|]. intros nk. destruct (_ || _).
  - apply says_then; [sl|]. intros _. unfold add_node. eapply says_bind; [apply says_propagate|]. intros ch'' H. by apply says_ret.
  - apply says_then; [sl|]. intros _. apply says_then; [sl|]. intros [[lnd mid] rnd]. apply says_then; [sl|]. intros l. apply says_then; [sl|]. intros r. cbn.
    exact (IH matched mid _ (snd (add_node r (snd (add_node l ch))))).
Qed.
Definition keeps_opt (ch : changes) (o : option changes) : Prop := match o with Some ch' => keeps ch ch' | None => True end.
Lemma says_donor_index W sd f di : says W (get_donor_index sd f di) any.
Proof. unfold get_donor_index. sl. Qed.
Global Hint Resolve says_donor_index : says.
Lemma says_rotate W sd f di dc i d ch : says W (rotate sd f di dc i d ch) (keeps ch).
Proof.
  unfold rotate. apply says_then; [unfold get_donor_key; sl|]. intros dk. apply says_then; [unfold get_donor_child; sl|]. intros dch.
  apply says_then; [unfold swap_donor_key; sl|]. intros fk. apply says_then; [unfold insert_donations; sl|]. intros _. unfold add_node.
  apply says_then; [unfold set_child; sl|]. intros _. apply says_then; [unfold set_child; sl|]. intros _. by apply says_ret.
Qed.
Lemma says_maybe_rotate W sd f di dc order ch : says W (maybe_rotate sd f di dc order ch) (keeps_opt ch).
Proof.
  unfold maybe_rotate. apply says_then; [unfold can_rotate; sl|]. intros [[i d]|]; [|by apply says_ret].
  eapply says_bind; [apply says_rotate|]. intros ch' H. by apply says_ret.
Qed.
Lemma says_maybe_merge W sd f di dc ch : says W (maybe_merge sd f di dc ch) (keeps_opt ch).
Proof.
  unfold maybe_merge. apply says_then; [sl|]. intros [i|]; [|by apply says_ret]. apply says_then; [sl|]. intros d. destruct sd; unfold add_node; sl; by apply says_ret.
Qed.
Lemma says_repair_one W f di dc order ch : says W (repair_one f di dc order ch) (keeps ch).
Proof.
  unfold repair_one. eapply says_bind; [apply says_maybe_rotate|]. intros [c|] H; [by apply says_ret|].
  eapply says_bind; [apply says_maybe_rotate|]. intros [c|] H2; [by apply says_ret|].
  eapply says_bind; [apply says_maybe_merge|]. intros [c|] H3; [by apply says_ret|].
  eapply says_bind; [apply says_maybe_merge|]. intros [c|] H4; [by apply says_ret|]. apply says_panic.
Qed.
Lemma says_repair_loop W p : forall f di dc order ch, says W (repair_loop p f di dc order ch) (fun x => keeps ch (snd x)).
Proof.
  induction p as [|[n i] p IH]; intros f di dc order ch; cbn [repair_loop]; (eapply says_bind; [apply says_repair_one|]); intros ch' H;
    (apply says_then; [sl|]); intros nk; (apply says_then; [sl|]); intros nc.
  - destruct (_ && _); [sl; by apply says_ret|by apply says_ret].
  - destruct (_ <=? _)%nat; cbn; [by apply says_ret|]. eapply says_keeps_then; [done|apply IH].
Qed.
Lemma says_replace W fuel p n i : says W (replace_removed fuel p n i) any.
Proof. unfold replace_removed. sl. Qed.
Global Hint Resolve says_replace : says.

(** ** Calls *)
Lemma says_create_header (W : bytes -> Prop) md : W (enc_header (Header PROTOCOL md)) -> says W (create_header md) any.
Proof. intros H. unfold create_header. sl. by apply says_append. Qed.
Lemma says_get_root (W : bytes -> Prop) b : (b = true -> W (enc_header (Header PROTOCOL None))) -> says W (get_root b) any.
Proof.
  intros H. unfold get_root, version, ensure_header, get_tree_node. apply says_then; [sl|]. intros v. destruct (v <=? 1)%nat; [|sl].
  destruct b; [|rewrite andb_false_r; sl]. rewrite andb_true_r. destruct (v =? 0)%nat; [|sl]. apply says_then; [|sl].
  apply says_then; [apply says_catch, says_create_header; by apply H|sl].
Qed.
Lemma says_put_cas (W : bytes -> Prop) fuel key value cas : W (enc_header (Header PROTOCOL None)) -> (forall ls, W (encode_block ls key value)) ->
  says W (tree_put_cas fuel key value cas) any.
Proof.
  intros H1 H2. unfold tree_put_cas. apply says_then; [by apply says_get_root|]. intros r. apply says_then; [unfold version; sl|]. intros seq. cbv zeta.
  destruct r as [root|].
  - apply says_then; [sl|]. intros [m p]. apply says_then; [sl|]. intros old. destruct (cas old _); [|sl].
    eapply says_bind; [apply says_put_loop|]. cbv beta. intros r [K1 K2]. cbn in K1, K2. destruct r as [ch|k cs ch].
    + apply says_then; [|sl]. apply says_add_changes. by rewrite K1, K2.
    + apply says_then; [sl|]. intros n. unfold add_node. apply says_then; [|sl]. apply says_add_changes. cbn. by rewrite K1, K2.
  - destruct (cas None _); [|sl]. apply says_then; [sl|]. intros n. unfold add_node. apply says_then; [|sl]. by apply says_add_changes.
Qed.
Lemma says_del_cas (W : bytes -> Prop) fuel key cas : (forall ls, W (encode_block ls key None)) -> says W (tree_del_cas fuel key cas) any.
Proof.
  intros H. unfold tree_del_cas. apply says_then; [by apply says_get_root|]. intros [root|]; [|sl]. apply says_then; [sl|]. intros [[q|] p]; [|sl].
  apply says_then; [sl|]. intros [n i]. apply says_then; [sl|]. intros kv. destruct (cas kv); [|sl]. apply says_then; [unfold version; sl|]. intros v. cbv zeta.
  apply says_then; [sl|]. intros [cur ci]. apply says_then; [sl|]. intros _. apply says_then; [sl|]. intros leaf. apply says_then; [sl|]. intros p2.
  apply says_then; [sl|]. intros [bottom ?]. apply says_then; [sl|]. intros nk.
  apply says_bind with (P := fun x => keeps (Changes v key None []) (snd x)).
  - destruct (_ && _); [|by apply says_ret]. unfold repair. destruct (tail p2) as [|[f di] p']; [apply says_panic|]. apply says_then; [sl|]. intros dc. apply says_repair_loop.
  - intros [[child p4] ch'] K. cbn in K. eapply says_bind; [apply says_propagate|]. intros ch'' K'. destruct (keeps_trans _ _ _ K K') as [K1 K2]. cbn in K1, K2.
    apply says_then; [|sl]. apply says_add_changes. by rewrite K1, K2.
Qed.
Lemma says_trav_loop W rec conf n : (forall c, says W (rec c) any) -> forall l, says W (trav_loop rec conf n l) any.
Proof. intros H. induction l; cbn [trav_loop]; sl. Qed.
Lemma says_trav W fuel conf : forall n, says W (trav fuel conf n) any.
Proof. induction fuel as [|fuel IH]; intros; cbn [trav]; unfold make_iter; sl. by apply says_trav_loop. Qed.
Global Hint Resolve says_trav : says.

(** What [c] may write. *)
Definition written_by (c : call) (b : bytes) : Prop :=
  match c with
  | CPut k v | CPutCas k v _ => b = enc_header (Header PROTOCOL None) \/ exists ls, b = encode_block ls k v
  | CDel k | CDelCas k _ => exists ls, b = encode_block ls k None
  | CHeader md => b = enc_header (Header PROTOCOL md)
  | _ => False
  end.
Lemma api_says fuel c : says (written_by c) (api fuel c) any.
Proof.
  unfold api. apply says_then; [|sl]. apply says_catch. destruct c as [k|k v|k v f|k|k f| |md|conf]; cbn [call_prog].
  - apply says_then; [|sl]. unfold tree_get. apply says_then; [by apply says_get_root|]. sl.
  - apply says_then; [|sl]. unfold tree_put. apply says_then; [|sl]. apply says_put_cas; cbn; eauto.
  - apply says_then; [|sl]. apply says_put_cas; cbn; eauto.
  - apply says_then; [|sl]. unfold tree_del. apply says_then; [|sl]. apply says_del_cas; cbn; eauto.
  - apply says_then; [|sl]. apply says_del_cas; cbn; eauto.
  - unfold version. sl.
  - apply says_then; [|sl]. by apply says_create_header.
  - apply says_then; [|sl]. unfold tree_traverse. apply says_then; [by apply says_get_root|]. sl.
Qed.

(** ** Runs *)
Definition grows (W : bytes -> Prop) (C C' : list bytes) : Prop := exists D, C' = C ++ D /\ Forall W D.
Lemma grows_refl W C : grows W C C.
Proof. exists []. by rewrite app_nil_r. Qed.
Lemma grows_trans W C1 C2 C3 : grows W C1 C2 -> grows W C2 C3 -> grows W C1 C3.
Proof. intros (D1 & -> & H1) (D2 & -> & H2). exists (D1 ++ D2). rewrite (assoc_L (++)). split; [done|]. by apply Forall_app. Qed.
Lemma grows_weaken (W W' : bytes -> Prop) C C' : (forall b, W b -> W' b) -> grows W C C' -> grows W' C C'.
Proof. intros HW (D & -> & H). exists D. split; [done|]. by eapply Forall_impl. Qed.
Lemma writes_step {A} W (p : prog A) Q s : writes W p Q -> writes W (fst (step p s)) Q /\ grows W (core s) (core (snd (step p s))).
Proof.
  intros H. destruct p as [a|x|k|q k|b k|q k|q e k|nd k|n k|n f k]; cbn [step]; cbn in H; try (split; [first [exact H|apply H]|apply grows_refl]).
  - unfold exec_get. destruct (oracle s) as [|[] o]; cbn; (split; [apply H|apply grows_refl]).
  - destruct H as [H1 H2]. assert (grows W (core s) (core s ++ [b])) by (exists [b]; split; [done|by repeat constructor]).
    unfold exec_append. destruct (oracle s) as [|[] o]; cbn; (split; [apply H2|first [done|apply grows_refl]]).
  - destruct (heap s !! n) as [nd|]; (split; [first [apply H|done]|apply grows_refl]).
  - destruct (heap s !! n) as [nd|]; [|split; [done|apply grows_refl]]. destruct (f nd); (split; [first [apply H|done]|apply grows_refl]).
Qed.
Lemma writes_run {A} W (p : prog A) Q : forall s, writes W p Q -> grows W (core s) (core (snd (run p s))).
Proof.
  induction p as [a|x|k IH|q k IH|b k IH|q k IH|q e k IH|nd k IH|n k IH|n f k IH]; intros s H; pose proof (writes_step _ _ _ s H) as [H1 H2]; cbn [step run] in *.
  - apply grows_refl.
  - apply grows_refl.
  - by apply IH.
  - destruct (exec_get q s) as [r s']. cbn in *. eapply grows_trans; [done|by apply IH].
  - destruct (exec_append b s) as [r s']. cbn in *. eapply grows_trans; [done|by apply IH].
  - by apply IH.
  - eapply grows_trans; [done|by apply IH].
  - eapply grows_trans; [done|by apply IH].
  - destruct (heap s !! n) as [nd|]; [by apply IH|apply grows_refl].
  - destruct (heap s !! n) as [nd|]; [|apply grows_refl]. destruct (f nd) as [nd'|]; [|apply grows_refl]. eapply grows_trans; [done|by apply IH].
Qed.
Lemma writes_upto {A} W Q k : forall (p : prog A) s, writes W p Q -> grows W (core s) (core (snd (run_upto k p s))).
Proof.
  induction k as [|k IH]; intros p s H; cbn [run_upto]; [apply grows_refl|]. pose proof (writes_step _ _ _ s H) as [H1 H2].
  destruct (step p s) as [p' s']. cbn in *. eapply grows_trans; [done|by apply IH].
Qed.
Lemma writes_tasks W sched : forall ts w, Forall (fun t => writes W (th_prog t) any) ts ->
  grows W (w_core w) (w_core (snd (tasks_run sched ts w))) /\ Forall (fun t => writes W (th_prog t) any) (fst (tasks_run sched ts w)).
Proof.
  induction sched as [|j sched IH]; intros ts w Ht; cbn [tasks_run]; [split; [apply grows_refl|done]|].
  destruct (ts !! j) as [t|] eqn:Et; [|by apply IH]. unfold thread_step.
  pose proof (Forall_lookup_1 _ _ _ _ Ht Et) as H. pose proof (writes_step _ _ _ (view w (th_handle t) (th_faults t)) H) as [H1 H2].
  destruct (step (th_prog t) (view w (th_handle t) (th_faults t))) as [p s] eqn:Es. cbn in H1, H2.
  edestruct (IH (<[j := Thread (th_handle t) p (oracle s)]> ts) (commit_view w (th_handle t) s)) as [I1 I2].
  - by apply Forall_insert.
  - split; [|done]. by eapply grows_trans.
Qed.

Definition by_some (cs : list call) (b : bytes) : Prop := exists c, c ∈ cs /\ written_by c b.
Lemma by_some_app_l cs cs' b : by_some cs b -> by_some (cs ++ cs') b.
Proof. intros (c & H1 & H2). exists c. split; [|done]. apply elem_of_app. by left. Qed.
Lemma by_some_app_r cs cs' b : by_some cs' b -> by_some (cs ++ cs') b.
Proof. intros (c & H1 & H2). exists c. split; [|done]. apply elem_of_app. by right. Qed.
Lemma api_writes fuel c cs : c ∈ cs -> writes (by_some cs) (api fuel c) any.
Proof.
  intros Hc. pose proof (says_writes _ _ _ (api_says fuel c)) as H. revert H. generalize (api fuel c). intros p.
  induction p as [a|x|k IH|q k IH|b k IH|q k IH|q e k IH|nd k IH|n k IH|n g k IH]; intros H; cbn in *; eauto.
  destruct H as [H1 H2]. split; [by exists c|eauto].
Qed.
Lemma tasks_writes fuel xs cs : map (fun x => snd (fst x)) xs ⊆ cs -> Forall (fun t => writes (by_some cs) (th_prog t) any) (map (task fuel) xs).
Proof.
  intros Hs. apply Forall_fmap, Forall_forall. intros [[i c] o] Hx. cbn. apply api_writes, Hs. apply elem_of_list_fmap. by exists (i, c, o).
Qed.
Lemma tasks_grow fuel xs sched w : grows (by_some (map (fun x => snd (fst x)) xs)) (w_core w) (w_core (snd (tasks_run sched (map (task fuel) xs) w))).
Proof. by apply writes_tasks, tasks_writes. Qed.
Lemma call_grows fuel i c o w : grows (by_some [c]) (w_core w) (w_core (snd (do_call fuel i c o w))).
Proof.
  unfold do_call. pose proof (writes_run (by_some [c]) (api fuel c) any (view w i o) (api_writes _ _ _ (elem_of_list_here _ _))) as H.
  by destruct (run (api fuel c) (view w i o)).
Qed.
Lemma busy_grows fuel i c o xs sched w : grows (by_some (c :: map (fun x => snd (fst x)) xs)) (w_core w) (w_core (snd (do_busy fuel i c o xs sched w))).
Proof.
  unfold do_busy. pose proof (writes_tasks _ sched (map (task fuel) ((i, c, o) :: xs)) w (tasks_writes fuel ((i, c, o) :: xs) _ (reflexivity _))) as [H1 H2].
  destruct (tasks_run sched _ w) as [ts w1]. cbn [fst snd] in H1, H2. cbn in H1. destruct (ts !! 0) as [th|] eqn:Et; [|done].
  pose proof (Forall_lookup_1 _ _ _ _ H2 Et) as H3. cbn in H3.
  pose proof (writes_run _ _ _ (view w1 i (th_faults th)) H3) as H4. destruct (run (th_prog th) (view w1 i (th_faults th))) as [r s]. cbn in *. by eapply grows_trans.
Qed.
Lemma play_grows fuel l : forall w, grows (by_some (concat (map all_calls l))) (w_core w) (w_core (snd (play fuel l w))).
Proof.
  induction l as [|e l IH]; intros w; cbn [play]; [apply grows_refl|].
  assert (HT : forall w1, grows (by_some (all_calls e)) (w_core w) (w_core w1) ->
    grows (by_some (concat (map all_calls (e :: l)))) (w_core w) (w_core (snd (play fuel l w1)))).
  { intros w1 H. cbn. eapply grows_trans; [eapply grows_weaken; [|done]; intros; by apply by_some_app_l|].
    eapply grows_weaken; [|apply IH]. intros. by apply by_some_app_r. }
  destruct e as [i c o|i|i c o k|xs sched|i c o xs sched].
  - pose proof (call_grows fuel i c o w) as H. destruct (do_call fuel i c o w) as [r w1]. specialize (HT w1 H). by destruct (play fuel l w1).
  - apply HT. cbn. apply grows_refl.
  - apply HT. cbn. eapply (writes_upto _ any k _ (view w i o)). apply api_writes, elem_of_list_here.
  - apply HT. apply tasks_grow.
  - pose proof (busy_grows fuel i c o xs sched w) as H. destruct (do_busy fuel i c o xs sched w) as [r w1]. specialize (HT w1 H). by destruct (play fuel l w1).
Qed.

(** ** What the blocks say *)
Lemma u64_part a b : (length a <= length b)%nat -> u64 (blen b) -> u64 (blen a).
Proof. unfold u64, blen. lia. Qed.
Lemma field_length t b : (length b <= length (enc_bytes_field t b))%nat.
Proof. unfold enc_bytes_field. rewrite !app_length. lia. Qed.
Lemma schema_short n : u64 (blen (enc_node_schema n)) -> schema_ok n.
Proof.
  intros H. destruct n as [ix k v]. unfold enc_node_schema, schema_ok in *. cbn [ns_index ns_key ns_value] in *.
  pose proof (field_length 1 ix). pose proof (field_length 2 k).
  split_and!; [..|destruct v as [v|]; [pose proof (field_length 3 v)|done]]; (eapply u64_part; [|exact H]; rewrite !app_length; lia).
Qed.
Lemma block_says ls k v b : u64 (blen (encode_block ls k v)) -> decode_block (encode_block ls k v) = DOk b -> b_key b = k /\ b_value b = v.
Proof.
  unfold decode_block, encode_block. intros H. rewrite dec_enc_node_schema by (by apply schema_short). cbn [ns_index ns_key ns_value].
  destruct (dec_yolo _) as [ls'|]; [|done]. destruct (mapM _ ls') as [nds|]; [|done]. by intros [= <-].
Qed.
Lemma header_says md b : u64 (blen (enc_header (Header PROTOCOL md))) -> decode_block (enc_header (Header PROTOCOL md)) <> DOk b.
Proof.
  destruct md as [m|]; [|intros _; by vm_compute].
  assert (E : enc_header (Header PROTOCOL (Some m)) = enc_node_schema (NodeSchema PROTOCOL (enc_metadata m) None)).
  { unfold enc_header, enc_node_schema. cbn [h_protocol h_metadata ns_index ns_key ns_value]. by rewrite app_nil_r. }
  rewrite E. intros H. unfold decode_block. rewrite dec_enc_node_schema by (by apply schema_short). cbn [ns_index].
  assert (EY : dec_yolo PROTOCOL = None) by (by vm_compute). by rewrite EY.
Qed.
Lemma written_brings c raw nds k v : written_by c raw -> u64 (blen raw) -> decode_block raw = DOk (Block nds k v) -> brings c k v.
Proof.
  intros H Hu HD. destruct c as [k'|k' v'|k' v' f|k'|k' f| |md|conf]; cbn in H; try done.
  - destruct H as [->|[ls ->]]; [by apply header_says in HD|]. by destruct (block_says _ _ _ _ Hu HD) as [<- <-].
  - destruct H as [->|[ls ->]]; [by apply header_says in HD|]. by destruct (block_says _ _ _ _ Hu HD) as [<- <-].
  - destruct H as [ls ->]. by destruct (block_says _ _ _ _ Hu HD) as [<- ?].
  - destruct H as [ls ->]. by destruct (block_says _ _ _ _ Hu HD) as [<- ?].
  - subst raw. by apply header_says in HD.
Qed.
Lemma nothing_invented fuel C l xs sched ts w : tasks_run sched (map (task fuel) xs) (snd (play fuel l (new_world C))) = (ts, w) ->
  Forall (fun raw => u64 (blen raw)) (w_core w) -> forall q k v, block_holds (w_core w) q k v ->
  block_holds C q k v \/ exists c, c ∈ concat (map all_calls l) ++ map (fun x => snd (fst x)) xs /\ brings c k v.
Proof.
  intros E Hu q k v (raw & nds & Hq & HD). pose proof (tasks_grow fuel xs sched (snd (play fuel l (new_world C)))) as H. rewrite E in H. cbn in H.
  assert (HG : grows (by_some (concat (map all_calls l) ++ map (fun x => snd (fst x)) xs)) C (w_core w)).
  { eapply grows_trans; [eapply grows_weaken; [|apply (play_grows fuel l (new_world C))]; intros; by apply by_some_app_l|].
    eapply grows_weaken; [|done]. intros. by apply by_some_app_r. }
  destruct HG as (D & EC & HD'). rewrite Forall_forall in Hu. specialize (Hu raw (elem_of_list_lookup_2 _ _ _ Hq)).
  rewrite EC in Hq. apply lookup_app_Some in Hq as [Hq|[_ Hq]]; [left; by exists raw, nds|]. right.
  rewrite Forall_forall in HD'. destruct (HD' raw (elem_of_list_lookup_2 _ _ _ Hq)) as (c & H1 & H2). exists c. split; [done|]. by eapply written_brings.
Qed.
Lemma short_check C : forallb (fun raw => (blen raw <? 2 ^ 64)%N) C = true -> Forall (fun raw => u64 (blen raw)) C.
Proof. rewrite forallb_forall. intros H. apply Forall_forall. intros raw Hr. apply N.ltb_lt, H. by apply elem_of_list_In. Qed.
