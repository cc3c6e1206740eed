(** A put, or a call that finds all it needs in the cache, and reading calls that run at the same
    time, on the same handle or on others. *)
From Coq.Strings Require Import Byte.
From Coq Require Import Lia Sorting.Sorted.
From stdpp Require Import prelude gmap.
From Verif Require Import Bytes Codec Model CodecProofs Order Wp Store Tree Iter Read Zip Pure Seq Mut MutDel MutTop Commit Spec OrderProofs Client Abs Api Call Det Reader Hist.

Local Arguments decode_block : simpl never.
Local Arguments blocks_get : simpl never.
Local Arguments api : simpl never.

(** ** What a task knows *)

(** The nodes it has made and not yet put into the cache, with their contents; those it
    has come to know; the blocks it has not found in the cache; what it has read from
    the core. *)
Record know := Know { k_own : list (nid * node); k_seen : list nid; k_missed : list nat; k_facts : list (nat * bytes) }.
Definition none_known : know := Know [] [] [] [].
Definition learn_get (q : nat) (r : ioget) (K : know) : know :=
  match r with
  | GOk (Some raw) => Know (k_own K) (k_seen K) (k_missed K) ((q, raw) :: k_facts K)
  | _ => K
  end.
Definition learn_cache (q : nat) (e : option entry) (K : know) : know :=
  match e with
  | Some e => Know (k_own K) (e_nodes e ++ k_seen K) (k_missed K) (k_facts K)
  | None => Know (k_own K) (k_seen K) (q :: k_missed K) (k_facts K)
  end.
Definition learn_new (n : nid) (nd : node) (K : know) : know := Know ((n, nd) :: k_own K) (n :: k_seen K) (k_missed K) (k_facts K).
Definition give_up (K : know) : know := Know [] (k_seen K) (k_missed K) (k_facts K).

(** An entry made from what the task has read, of nodes it has made. *)
Definition made (K : know) (q : nat) (e : entry) : Prop :=
  NoDup (e_nodes e) /\ q ∈ k_missed K /\ exists raw b, (q, raw) ∈ k_facts K /\ decode_block raw = DOk b /\
    e_key e = b_key b /\ e_value e = b_value b /\ Forall2 (fun n nd => (n, nd) ∈ k_own K) (e_nodes e) (b_nodes b).

(** [p] puts into the cache only such entries; it changes nodes and appends only if [w],
    and then only nodes it has come to know. *)
Fixpoint decent {A} (w : bool) (K : know) (p : prog A) (Q : know -> A -> Prop) : Prop :=
  match p with
  | Ret a => Q K a
  | Stop _ => True
  | CoreLen k => forall n, decent w K (k n) Q
  | CoreGet q k => forall r, decent w (learn_get q r K) (k r) Q
  | CoreAppend b k => w = true /\ forall r, decent w K (k r) Q
  | CacheGet q k => forall e, decent w (learn_cache q e K) (k e) Q
  | CachePut q e k => made K q e /\ decent w (give_up K) k Q
  | NodeNew nd k => forall n, n ∉ map fst (k_own K) -> decent w (learn_new n nd K) (k n) Q
  | NodeGet n k => forall nd, decent w K (k nd) Q
  | NodeUpd n f k => w = true /\ n ∈ k_seen K /\ forall nd, decent w (give_up K) (k nd) Q
  end.

Lemma decent_bind {A B} w (p : prog A) (f : A -> prog B) Q : forall K,
  decent w K p (fun K' a => decent w K' (f a) Q) -> decent w K (pbind p f) Q.
Proof.
  induction p as [a|x|k IH|q k IH|b k IH|q k IH|q e k IH|nd k IH|n k IH|n g k IH]; intros K H; simpl in *; eauto.
  - destruct H. eauto.
  - destruct H. eauto.
  - destruct H as (? & ? & ?). eauto.
Qed.
Lemma decent_catch {A} w (p : prog A) (Q : know -> A + err -> Prop) : forall K,
  decent w K p (fun K' a => Q K' (Datatypes.inl a)) -> (forall K' e, k_seen K ⊆ k_seen K' -> Q K' (Datatypes.inr e)) -> decent w K (catch p) Q.
Proof.
  induction p as [a|x|k IH|q k IH|b k IH|q k IH|q e k IH|nd k IH|n k IH|n g k IH]; intros K H HQ; simpl in *; eauto.
  - destruct x; simpl; eauto.
  - intros r. apply IH; [done|]. intros K' e He. apply HQ. by destruct r as [|[raw|]].
  - destruct H. eauto.
  - intros e. apply IH; [done|]. intros K' x Hx. apply HQ. destruct e as [e|]; [|done]. intros n Hn. apply Hx, elem_of_app. by right.
  - destruct H. eauto.
  - intros n Hn. apply IH; [auto|]. intros K' x Hx. apply HQ. intros y Hy. apply Hx. by right.
  - destruct H as (? & ? & ?). eauto.
Qed.

(** Whatever it has learnt before, provided it knows [S]; then it knows [P]. *)
Record fine {A} (w : bool) (S : list nid) (p : prog A) (P : list nid -> A -> Prop) : Prop := Fine {
  fine_decent : forall K (Q : know -> A -> Prop), S ⊆ k_seen K ->
    (forall K' a, k_seen K ⊆ k_seen K' -> P (k_seen K') a -> Q K' a) -> decent w K p Q }.
Definition anything {A} (_ : list nid) (_ : A) : Prop := True.

Lemma fine_bind {A B} w S (p : prog A) (f : A -> prog B) P P' :
  fine w S p P -> (forall S' a, S ⊆ S' -> P S' a -> fine w S' (f a) P') -> fine w S (pbind p f) P'.
Proof.
  intros Hp Hf. split. intros K Q HS HQ. apply decent_bind, Hp; [done|]. intros K' a HK HP.
  apply (Hf (k_seen K') a); [by etrans|done|done|]. intros K2 b HK2 HP2. apply HQ; [by etrans|done].
Qed.
Lemma fine_catch {A} w S (p : prog A) (P : list nid -> A -> Prop) (P' : list nid -> A + err -> Prop) : fine w S p P ->
  (forall S' a, S ⊆ S' -> P S' a -> P' S' (Datatypes.inl a)) -> (forall S' e, S ⊆ S' -> P' S' (Datatypes.inr e)) -> fine w S (catch p) P'.
Proof.
  intros Hp H1 H2. split. intros K Q HS HQ. apply decent_catch.
  - apply Hp; [done|]. intros K' a HK HP. apply HQ; [done|]. apply H1; [by etrans|done].
  - intros K' e HK. apply HQ; [done|]. apply H2. by etrans.
Qed.
Lemma fine_ret {A} w S (a : A) (P : list nid -> A -> Prop) : (forall S', S ⊆ S' -> P S' a) -> fine w S (Ret a) P.
Proof. intros H. split. intros K Q HS HQ. apply HQ; [done|]. by apply H. Qed.
Lemma fine_stop {A} w S x (P : list nid -> A -> Prop) : fine w S (Stop x) P.
Proof. by split. Qed.
Lemma fine_weaken {A} w S (p : prog A) (P P' : list nid -> A -> Prop) : fine w S p P -> (forall S' a, S ⊆ S' -> P S' a -> P' S' a) -> fine w S p P'.
Proof. intros Hp H. split. intros K Q HS HQ. apply Hp; [done|]. intros K' a HK HP. apply HQ; [done|]. apply H; [by etrans|done]. Qed.
Lemma fine_any {A} w S (p : prog A) P : fine w S p P -> fine w S p anything.
Proof. intros H. by eapply fine_weaken. Qed.

Lemma fine_node_get w S n : fine w S (node_get n) anything.
Proof. split. intros K Q HS HQ nd. by apply HQ. Qed.
Lemma fine_core_len w S : fine w S core_len anything.
Proof. split. intros K Q HS HQ n. by apply HQ. Qed.
Lemma fine_unwrap {A} w S (o : option A) (P : list nid -> A -> Prop) : (forall a S', o = Some a -> S ⊆ S' -> P S' a) -> fine w S (unwrap o) P.
Proof. intros H. destruct o; [apply fine_ret; intros; by apply H|apply fine_stop]. Qed.
Lemma fine_node_new w S nd : fine w S (node_new nd) (fun S' n => n ∈ S').
Proof. split. intros K Q HS HQ n Hn. apply HQ; simpl; [set_solver|by left]. Qed.
Lemma fine_node_mod {B} S n (f : node -> option (B * node)) : n ∈ S -> fine true S (node_mod n f) anything.
Proof.
  intros Hn. split. intros K Q HS HQ. unfold node_mod. simpl. split_and!; [done|by apply HS|]. intros nd.
  destruct (f nd) as [[b nd']|]; [|done]. by apply HQ.
Qed.

Lemma decent_alloc_all w nds : forall K (Q : know -> list nid -> Prop),
  (forall K' ns, NoDup ns -> k_own K ⊆ k_own K' -> k_seen K ⊆ k_seen K' -> k_missed K' = k_missed K -> k_facts K' = k_facts K -> ns ⊆ k_seen K' ->
     Forall2 (fun n nd => (n, nd) ∈ k_own K') ns nds -> (forall n, n ∈ ns -> n ∉ map fst (k_own K)) -> Q K' ns) -> decent w K (alloc_all nds) Q.
Proof.
  induction nds as [|nd nds IH]; intros K Q HQ; cbn [alloc_all].
  - apply HQ; (done || constructor || set_solver).
  - apply decent_bind. cbn. intros n Hn. apply decent_bind, IH. intros K' ns H1 H2 H3 H4 H5 H6 H7 H8. cbn. apply HQ; try done.
    + constructor; [|done]. intros Hin. apply (H8 n Hin). by left.
    + intros x Hx. apply H2. by right.
    + intros x Hx. apply H3. by right.
    + intros x [->|Hx]%elem_of_cons; [apply H3; by left|by apply H6].
    + constructor; [|done]. apply H2. by left.
    + intros x [->|Hx]%elem_of_cons; [done|]. intros Ho. apply (H8 x Hx). by right.
Qed.
Lemma fine_blocks_get w S q : fine w S (blocks_get q) (fun S' e => e_nodes e ⊆ S').
Proof.
  split. intros K Q HS HQ. unfold blocks_get. cbn. intros [e|]; cbn.
  { apply HQ; cbn; set_solver. }
  intros [|[raw|]]; cbn; [done| |done].
  destruct (decode_block raw) as [| |b] eqn:Ed; [done|done|]. apply decent_bind, decent_alloc_all.
  intros K' ns H1 H2 H3 H4 H5 H6 H7 H8. cbn. cbn in *. split.
  - split; [done|]. split; [rewrite H4; by left|]. exists raw, b. split_and!; try done. rewrite H5. by left.
  - apply HQ; cbn; done.
Qed.

(** Reading functions, for readers and for puts. *)
Section fine.
  Context (w : bool).
  Lemma fine_get_key_value S n i : fine w S (get_key_value n i) anything.
  Proof.
    unfold get_key_value. eapply fine_bind; [apply fine_node_get|intros S1 nd H1 _]. eapply fine_bind; [by apply (fine_unwrap _ _ _ anything)|intros S2 seq H2 _].
    eapply fine_bind; [apply fine_blocks_get|intros S3 e1 H3 _]. eapply fine_bind; [apply fine_blocks_get|intros S4 e2 H4 _]. by apply fine_ret.
  Qed.
  Lemma fine_tree_node S e off : e_nodes e ⊆ S -> fine w S (get_tree_node e off) (fun S' n => n ∈ S').
  Proof. intros He. apply fine_unwrap. intros n S' Hn HS. apply HS, He. by eapply elem_of_list_lookup_2. Qed.
  Lemma fine_get_child S n i : fine w S (get_child n i) (fun S' c => c ∈ S').
  Proof.
    unfold get_child. eapply fine_bind; [apply fine_node_get|intros S1 nd H1 _]. eapply fine_bind; [by apply (fine_unwrap _ _ _ anything)|intros S2 r H2 _].
    eapply fine_bind; [apply fine_blocks_get|intros S3 e H3 He]. by apply fine_tree_node.
  Qed.
  Lemma fine_num_keys S n : fine w S (num_keys n) anything.
  Proof. unfold num_keys. eapply fine_bind; [apply fine_node_get|intros S1 nd H1 _]. by apply fine_ret. Qed.
  Lemma fine_num_children S n : fine w S (num_children n) anything.
  Proof. unfold num_children. eapply fine_bind; [apply fine_node_get|intros S1 nd H1 _]. by apply fine_ret. Qed.
  Lemma fine_is_leaf S n : fine w S (is_leaf n) anything.
  Proof. unfold is_leaf. eapply fine_bind; [apply fine_num_children|intros S1 nd H1 _]. by apply fine_ret. Qed.
  Lemma fine_search_loop n key fuel : forall S low high, fine w S (search_loop fuel n key low high) anything.
  Proof.
    induction fuel as [|fuel IH]; intros S low high; cbn [search_loop]; [apply fine_stop|].
    repeat (apply IH || (by apply fine_ret) || (eapply fine_bind; [apply fine_get_key_value|intros ? ? ? _]) || (lazymatch goal with |- context [match ?x with _ => _ end] => destruct x end)).
  Qed.
  Lemma fine_index S n key : fine w S (get_index_of_key n key) anything.
  Proof.
    unfold get_index_of_key. eapply fine_bind; [apply fine_num_keys|intros S1 nk H1 _].
    destruct (nk =? 0)%nat; [by apply fine_ret|apply fine_search_loop].
  Qed.
  Lemma fine_nearest key fuel : forall S n acc, n ∈ S -> map fst acc ⊆ S -> fine w S (nearest_loop fuel n key acc) (fun S' r => map fst (snd r) ⊆ S').
  Proof.
    induction fuel as [|fuel IH]; intros S n acc Hn Ha; cbn [nearest_loop]; [apply fine_stop|].
    eapply fine_bind; [apply fine_index|intros S1 [mt i] H1 _].
    assert (forall S', S1 ⊆ S' -> map fst ((n, i) :: acc) ⊆ S') as HS.
    { intros S' HS' x [->|Hx]%elem_of_cons; apply HS', H1; [done|by apply Ha]. }
    destruct mt as [q|]; [apply fine_ret; exact HS|]. eapply fine_bind; [apply fine_is_leaf|intros S2 lf H2 _].
    destruct lf; [apply fine_ret; intros S' HS'; apply HS; by etrans|]. eapply fine_bind; [apply fine_get_child|intros S3 c H3 Hc].
    apply IH; [done|]. apply HS. by etrans.
  Qed.
  Lemma fine_root_false S : fine w S (get_root false) (fun S' r => forall n, r = Some n -> n ∈ S').
  Proof.
    unfold get_root, version. eapply fine_bind; [apply fine_core_len|intros S1 v H1 _]. rewrite andb_false_r.
    destruct (v <=? 1)%nat; [by apply fine_ret|]. eapply fine_bind; [apply fine_blocks_get|intros S2 e H2 He].
    eapply fine_bind; [by apply fine_tree_node|intros S3 n H3 Hn]. apply fine_ret. intros S' HS' ? [= <-]. by apply HS'.
  Qed.
  Lemma fine_tree_get S fuel key : fine w S (tree_get fuel key) anything.
  Proof.
    unfold tree_get, nearest_node. eapply fine_bind; [apply fine_root_false|intros S1 [n|] H1 Hn]; [|by apply fine_ret].
    eapply fine_bind; [apply fine_nearest; [by apply Hn|by intros x ?%elem_of_nil]|intros S2 [mt p] H2 Hp].
    destruct mt; [|by apply fine_ret]. eapply fine_bind; [by apply (fine_unwrap _ _ _ anything)|intros S3 [n' i] H3 _].
    eapply fine_bind; [apply fine_get_key_value|intros S4 kv H4 _]. by apply fine_ret.
  Qed.
  Ltac fine_step := lazymatch goal with
    | |- fine _ _ (pbind _ _) _ => eapply fine_bind; [|intros ? ? ? _]
    | |- fine _ _ (catch _) _ => apply (fine_catch _ _ _ anything anything); [|done|done]
    | |- fine _ _ (Ret _) _ => by apply fine_ret
    | |- fine _ _ (Stop _) _ => apply fine_stop
    | |- fine _ _ (throw _) _ => apply fine_stop
    | |- fine _ _ (get_child _ _) _ => eapply fine_any, fine_get_child
    | |- fine _ _ (get_key_value _ _) _ => apply fine_get_key_value
    | |- fine _ _ (num_keys _) _ => apply fine_num_keys
    | |- fine _ _ (num_children _) _ => apply fine_num_children
    | |- fine _ _ (get_index_of_key _ _) _ => apply fine_index
    | |- fine _ _ (match ?x with _ => _ end) _ => destruct x
    end.
  Lemma fine_trav_loop (rec : nid -> prog stream_result) conf n idxs : (forall S c, fine w S (rec c) anything) -> forall S, fine w S (trav_loop rec conf n idxs) anything.
  Proof.
    intros Hr. induction idxs as [|i idxs IH]; intros S; cbn [trav_loop]; [by apply fine_ret|].
    repeat first [apply IH | apply Hr | fine_step].
  Qed.
  Lemma fine_trav conf fuel : forall S n, fine w S (trav fuel conf n) anything.
  Proof.
    induction fuel as [|fuel IH]; intros S n; cbn [trav]; [apply fine_stop|]. unfold make_iter.
    repeat first [apply fine_trav_loop, IH | fine_step].
  Qed.
  Lemma fine_reader fuel c : reads_only c -> fine w [] (api fuel c) anything.
  Proof.
    intros Hc. unfold api. eapply fine_bind; [apply (fine_catch _ _ _ anything anything); [|done|done]|intros ? [] ? _; by apply fine_ret]. destruct c; try done; cbn [call_prog].
    - eapply fine_bind; [apply fine_tree_get|intros ? ? ? _]. by apply fine_ret.
    - unfold version. eapply fine_bind; [apply fine_core_len|intros ? ? ? _]. by apply fine_ret.
    - unfold tree_traverse. eapply (fine_bind _ _ _ _ anything); [|intros ? [] ? _; by apply fine_ret].
      eapply fine_bind; [apply fine_root_false|intros ? [] ? ?]; [|apply fine_stop].
      eapply fine_bind; [apply fine_trav|intros ? [] ? _; by apply fine_ret].
  Qed.
End fine.

(** ** The put *)
Definition path_in (S : list nid) (p : path) : Prop := map fst p ⊆ S.
Lemma fine_take_children S n seq : n ∈ S -> fine true S (take_children_with_seq n seq) (fun S' l => map fst l ⊆ S').
Proof.
  intros Hn. unfold take_children_with_seq. eapply fine_bind; [apply fine_node_get|intros S1 nd H1 _]. apply fine_ret.
  intros S' HS' x Hx. rewrite map_map in Hx. apply elem_of_list_fmap in Hx as (y & -> & _). cbn. by apply HS', H1.
Qed.
Lemma fine_reorder_loop seq nodes fuel : forall S stack out, nodes ⊆ S -> map fst stack ⊆ S -> fine true S (reorder_loop fuel seq nodes stack out) anything.
Proof.
  induction fuel as [|fuel IH]; intros S [|[n ci] stack] out Hn Hs; cbn [reorder_loop]; try (by apply fine_ret); [apply fine_stop|].
  eapply fine_bind; [apply fine_node_get|intros S1 nd H1 _]. eapply fine_bind; [by apply (fine_unwrap _ _ _ anything)|intros S2 c H2 _].
  eapply fine_bind; [apply fine_node_mod; apply H2, H1, Hs; by left|intros S3 [] H3 _].
  eapply fine_bind; [apply (fine_unwrap _ _ _ (fun S' x => x ∈ S'))|intros S4 ch H4 Hch].
  { intros x S' Hx HS'. apply HS', H3, H2, H1, Hn. by eapply elem_of_list_lookup_2. }
  eapply fine_bind; [by apply fine_take_children|intros S5 more H5 Hmore]. apply IH.
  - intros x Hx. by apply H5, H4, H3, H2, H1, Hn.
  - intros x. rewrite map_app, elem_of_app. intros [Hx|Hx]; [by apply Hmore|]. apply H5, H4, H3, H2, H1, Hs. by right.
Qed.
Lemma fine_read_levels S ns : fine true S (read_levels ns) anything.
Proof.
  revert S. induction ns as [|n ns IH]; intros S; cbn [read_levels]; [by apply fine_ret|].
  eapply fine_bind; [apply fine_node_get|intros S1 nd H1 _]. eapply fine_bind; [apply IH|intros S2 ls H2 _]. by apply fine_ret.
Qed.
Lemma fine_blocks_append S b : fine true S (blocks_append b) anything.
Proof. split. intros K Q HS HQ. unfold blocks_append. cbn. split; [done|]. intros [|]; [by apply HQ|done]. Qed.
Lemma fine_add_changes S ch : ch_nodes ch ⊆ S -> fine true S (add_changes ch) anything.
Proof.
  intros Hn. unfold add_changes, reorder_nodes. eapply fine_bind; [|intros S1 out H1 _; eapply fine_bind; [apply fine_read_levels|intros S2 ls H2 _; apply fine_blocks_append]].
  eapply fine_bind; [apply (fine_unwrap _ _ _ (fun S' x => x ∈ S'))|intros S1 root H1 Hr].
  { intros x S' Hx HS'. apply HS', Hn. apply last_Some in Hx as [l ->]. apply elem_of_app. right. by left. }
  eapply fine_bind; [by apply fine_take_children|intros S2 st H2 Hst]. apply fine_reorder_loop; [|done].
  intros x Hx. by apply H2, H1, Hn.
Qed.
Lemma add_node_in S n ch : n ∈ S -> ch_nodes ch ⊆ S -> ch_nodes (snd (add_node n ch)) ⊆ S.
Proof. intros H1 H2 x. cbn. rewrite elem_of_app, elem_of_list_singleton. intros [?| ->]; [by apply H2|done]. Qed.
Lemma fine_propagate p : forall S ch child, path_in S p -> ch_nodes ch ⊆ S -> fine true S (propagate ch p child) (fun S' ch' => ch_nodes ch' ⊆ S').
Proof.
  induction p as [|[n i] p IH]; intros S ch child Hp Hc; cbn [propagate]; [apply fine_ret; intros; by etrans|].
  eapply fine_bind; [apply fine_node_mod, Hp; by left|intros S1 [] H1 _]. destruct (add_node n ch) as [r ch'] eqn:E. apply IH.
  - intros x Hx. apply H1, Hp. by right.
  - pose proof (add_node_in S1 n ch) as H. rewrite E in H. apply H; [apply H1, Hp; by left|by etrans].
Qed.
Lemma fine_put_loop matched p : forall S cur cs ch, path_in S p -> ch_nodes ch ⊆ S ->
  fine true S (put_loop matched cur cs p ch) (fun S' r => match r with PutReady ch' | PutNewRoot _ _ ch' => ch_nodes ch' ⊆ S' end).
Proof.
  induction p as [|[n i] p IH]; intros S cur cs ch Hp Hc; cbn [put_loop]; [apply fine_ret; intros; by etrans|].
  eapply fine_bind; [apply fine_num_keys|intros S1 nk H1 _].
  assert (n ∈ S) as Hn by (apply Hp; by left). assert (path_in S p) as Hp' by (intros x Hx; apply Hp; by right).
  destruct (matched || (nk <? MAX_KEYS)%nat).
  - eapply fine_bind; [apply fine_node_mod; by apply H1|intros S2 [] H2 _]. destruct (add_node n ch) as [r ch'] eqn:E.
    eapply fine_bind; [apply fine_propagate|intros S3 ch2 H3 Hc2; apply fine_ret; intros S' HS' x Hx; by apply HS', Hc2].
    + intros x Hx. by apply H2, H1, Hp'.
    + pose proof (add_node_in S2 n ch) as H. rewrite E in H. apply H; [by apply H2, H1|]. by repeat (etrans; [eassumption|]).
  - eapply fine_bind; [apply fine_node_mod; by apply H1|intros S2 [] H2 _].
    eapply fine_bind; [apply fine_node_mod; by apply H2, H1|intros S3 [[lnd mid] rnd] H3 _].
    eapply fine_bind; [apply fine_node_new|intros S4 l H4 Hl]. eapply fine_bind; [apply fine_node_new|intros S5 r H5 Hr].
    destruct (add_node l ch) as [lr ch1] eqn:E1. destruct (add_node r ch1) as [rr ch2] eqn:E2. apply IH.
    + intros x Hx. by apply H5, H4, H3, H2, H1, Hp'.
    + pose proof (add_node_in S5 l ch) as Ha. rewrite E1 in Ha. pose proof (add_node_in S5 r ch1) as Hb. rewrite E2 in Hb. apply Hb; [done|]. apply Ha; [by apply H5|].
      intros x Hx. by apply H5, H4, H3, H2, H1, Hc.
Qed.
Lemma fine_root_true S : fine true S (get_root true) (fun S' r => forall n, r = Some n -> n ∈ S').
Proof.
  unfold get_root, version. eapply fine_bind; [apply fine_core_len|intros S1 v H1 _]. rewrite andb_true_r.
  destruct (v <=? 1)%nat.
  - destruct (v =? 0)%nat; [|by apply fine_ret]. eapply fine_bind; [|intros S2 b H2 _; by apply fine_ret].
    unfold ensure_header. eapply fine_bind; [apply (fine_catch _ _ _ anything anything); [|done|done]|].
    + unfold create_header. eapply fine_bind; [apply fine_core_len|intros S2 l H2 _]. destruct (l =? 0)%nat; [apply fine_blocks_append|apply fine_stop].
    + intros S2 [[]|e] H2 _; [by apply (fine_ret _ _ _ anything)|]. destruct e; try apply fine_stop. by apply fine_ret.
  - eapply fine_bind; [apply fine_blocks_get|intros S2 e H2 He].
    eapply fine_bind; [by apply fine_tree_node|intros S3 n H3 Hn]. apply fine_ret. intros S' HS' ? [= <-]. by apply HS'.
Qed.
Lemma fine_put_cas S fuel key value cas : fine true S (tree_put_cas fuel key value cas) anything.
Proof.
  unfold tree_put_cas, nearest_node. eapply fine_bind; [apply fine_root_true|intros S1 mr H1 Hmr].
  eapply fine_bind; [apply fine_core_len|intros S2 seq H2 _]. destruct mr as [root|].
  - eapply fine_bind; [apply fine_nearest; [by apply H2, Hmr|by intros x ?%elem_of_nil]|intros S3 [mt p] H3 Hp].
    eapply (fine_bind _ _ _ _ anything).
    { destruct mt as [q|]; [|by apply fine_ret]. eapply fine_bind; [by apply (fine_unwrap _ _ _ anything)|intros S4 [n i] H4 _].
      eapply fine_bind; [apply fine_get_key_value|intros S5 kv H5 _]. by apply fine_ret. }
    intros S4 old H4 _. destruct (cas old _); [|by apply fine_ret].
    eapply fine_bind; [apply fine_put_loop|intros S5 r H5 Hr].
    { intros x Hx. by apply H4, Hp. }
    { by intros x ?%elem_of_nil. }
    destruct r as [ch'|k cs ch'].
    + eapply fine_bind; [by apply fine_add_changes|intros S6 [] H6 _]. by apply fine_ret.
    + eapply fine_bind; [apply fine_node_new|intros S6 n H6 Hn]. destruct (add_node n ch') as [r ch2] eqn:E.
      eapply fine_bind; [apply fine_add_changes|intros S7 [] H7 _; by apply fine_ret].
      pose proof (add_node_in S6 n ch') as H. rewrite E in H. apply H; [done|by etrans].
  - destruct (cas None _); [|by apply fine_ret]. eapply fine_bind; [apply fine_node_new|intros S3 n H3 Hn].
    destruct (add_node n _) as [r ch2] eqn:E. eapply fine_bind; [apply fine_add_changes|intros S4 [] H4 _; by apply fine_ret].
    injection E as _ <-. intros x. cbn. by intros ->%elem_of_list_singleton.
Qed.

(** *** The del *)
Ltac inn := lazymatch goal with
  | |- ?x ∈ ?S => first [assumption | multimatch goal with H : _ ⊆ S |- _ => apply H; inn end | apply elem_of_list_here | apply elem_of_list_further; inn]
  end.
Ltac inl := let x := fresh in let Hx := fresh in intros x Hx; inn.
Lemma fine_donor_index S sd f di : fine true S (get_donor_index sd f di) anything.
Proof.
  destruct sd; cbn [get_donor_index]; [by apply fine_ret|]. eapply fine_bind; [apply fine_num_children|intros S1 nc H1 _]. by apply fine_ret.
Qed.
Lemma fine_donor_key S sd d : d ∈ S -> fine true S (get_donor_key sd d) anything.
Proof. intros Hd. destruct sd; by apply fine_node_mod. Qed.
Lemma fine_donor_child S sd d : d ∈ S -> fine true S (get_donor_child sd d) anything.
Proof.
  intros Hd. unfold get_donor_child. eapply fine_bind; [apply fine_is_leaf|intros S1 lf H1 _]. destruct lf; [by apply fine_ret|].
  eapply (fine_bind _ _ _ _ anything); [destruct sd; apply fine_node_mod; inn|intros S2 c H2 _]. by apply fine_ret.
Qed.
Lemma fine_insert_donations S sd dc key child : dc ∈ S -> fine true S (insert_donations sd dc key child) anything.
Proof.
  intros Hd. destruct sd; cbn [insert_donations]; (eapply fine_bind; [by apply fine_node_mod|intros S1 ? H1 _]);
    (destruct child; [apply fine_node_mod; inn|by apply fine_ret]).
Qed.
Lemma fine_can_rotate S sd f di order : fine true S (can_rotate sd f di order) (fun S' r => forall x d, r = Some (x, d) -> d ∈ S').
Proof.
  unfold can_rotate. eapply fine_bind; [apply fine_donor_index|intros S1 [x|] H1 _]; [|by apply fine_ret].
  eapply fine_bind; [apply fine_get_child|intros S2 d H2 Hd]. eapply fine_bind; [apply fine_num_keys|intros S3 nk H3 _].
  apply fine_ret. intros S' HS' x' d'. destruct (_ <? _)%nat; [|done]. intros [= <- <-]. inn.
Qed.
Definition nodes_in (S : list nid) (ch : changes) : Prop := ch_nodes ch ⊆ S.
Lemma nodes_in_add S n ch r ch' : add_node n ch = (r, ch') -> n ∈ S -> nodes_in S ch -> nodes_in S ch'.
Proof. intros E Hn Hc. pose proof (add_node_in S n ch Hn Hc) as H. by rewrite E in H. Qed.
Lemma nodes_in_mono S S' ch : nodes_in S ch -> S ⊆ S' -> nodes_in S' ch.
Proof. intros H1 H2 x Hx. by apply H2, H1. Qed.
Ltac nin := first [assumption | multimatch goal with H : ?S0 ⊆ ?S |- nodes_in ?S _ => apply (nodes_in_mono S0); [nin|exact H] end | eapply nodes_in_add; [eassumption|inn|nin]].
Lemma path_in_mono S S' p : path_in S p -> S ⊆ S' -> path_in S' p.
Proof. intros H1 H2 x Hx. by apply H2, H1. Qed.
Ltac pin := first [assumption | multimatch goal with H : ?S0 ⊆ ?S |- path_in ?S _ => apply (path_in_mono S0); [pin|exact H] end].
Lemma path_in_cons S n i p : path_in S ((n, i) :: p) <-> n ∈ S /\ path_in S p.
Proof.
  unfold path_in. cbn. split.
  - intros H. split; [apply H; by left|]. intros x Hx. apply H. by right.
  - intros [H1 H2] x [->|Hx]%elem_of_cons; [done|by apply H2].
Qed.
Lemma fine_rotate S sd f di dc dx d ch : f ∈ S -> dc ∈ S -> d ∈ S -> nodes_in S ch -> fine true S (rotate sd f di dc dx d ch) nodes_in.
Proof.
  intros Hf Hdc Hd Hc. unfold rotate. eapply fine_bind; [by apply fine_donor_key|intros S1 dk H1 _].
  eapply fine_bind; [apply fine_donor_child; inn|intros S2 dch H2 _].
  eapply fine_bind; [apply fine_node_mod; inn|intros S3 fk H3 _].
  eapply fine_bind; [apply fine_insert_donations; inn|intros S4 ? H4 _]. destruct (add_node d ch) as [r1 ch1] eqn:E1.
  eapply fine_bind; [apply fine_node_mod; inn|intros S5 ? H5 _]. destruct (add_node dc ch1) as [r2 ch2] eqn:E2.
  eapply fine_bind; [apply fine_node_mod; inn|intros S6 ? H6 _]. apply fine_ret. intros S' HS'.
  eapply nodes_in_add; [exact E2|inn|]. eapply nodes_in_add; [exact E1|inn|]. nin.
Qed.
Definition maybe_in (S : list nid) (r : option changes) : Prop := forall ch, r = Some ch -> nodes_in S ch.
Lemma fine_maybe_rotate S sd f di dc order ch : f ∈ S -> dc ∈ S -> nodes_in S ch -> fine true S (maybe_rotate sd f di dc order ch) maybe_in.
Proof.
  intros Hf Hdc Hc. unfold maybe_rotate. eapply fine_bind; [apply fine_can_rotate|intros S1 [[dx d]|] H1 Hd]; [|by apply fine_ret].
  specialize (Hd _ _ eq_refl). eapply fine_bind; [apply fine_rotate; [inn|inn|inn|nin]|intros S2 ch' H2 Hc']. apply fine_ret.
  intros S' HS' ? [= <-]. nin.
Qed.
Lemma fine_maybe_merge S sd f di dc ch : f ∈ S -> dc ∈ S -> nodes_in S ch -> fine true S (maybe_merge sd f di dc ch) maybe_in.
Proof.
  intros Hf Hdc Hc. unfold maybe_merge. eapply fine_bind; [apply fine_donor_index|intros S1 [x|] H1 _]; [|by apply fine_ret].
  eapply fine_bind; [apply fine_get_child|intros S2 d H2 Hd].
  destruct (match sd with SRight => (dc, d) | SLeft => (d, dc) end) as [l r] eqn:El.
  assert (l ∈ S2 /\ r ∈ S2) as [Hl Hr]. { destruct sd; injection El as <- <-; split; inn. }
  eapply fine_bind; [apply fine_node_mod; inn|intros S3 fk H3 _]. eapply fine_bind; [apply fine_node_mod; inn|intros S4 ? H4 _].
  eapply fine_bind; [apply fine_num_keys|intros S5 nl H5 _]. eapply fine_bind; [apply fine_node_mod; inn|intros S6 rk H6 _].
  eapply fine_bind; [apply fine_node_mod; inn|intros S7 ? H7 _]. eapply fine_bind; [apply fine_num_children|intros S8 nlc H8 _].
  eapply fine_bind; [apply fine_node_mod; inn|intros S9 rc H9 _]. eapply fine_bind; [apply fine_node_mod; inn|intros S10 ? H10 _].
  destruct (add_node l ch) as [lr ch'] eqn:E1. eapply fine_bind; [apply fine_node_mod; inn|intros S11 ? H11 _]. apply fine_ret.
  intros S' HS' ? [= <-]. eapply nodes_in_add; [exact E1|inn|]. nin.
Qed.
Lemma fine_repair_one S f di dc order ch : f ∈ S -> dc ∈ S -> nodes_in S ch -> fine true S (repair_one f di dc order ch) nodes_in.
Proof.
  intros Hf Hdc Hc. unfold repair_one.
  eapply fine_bind; [by apply fine_maybe_rotate|intros S1 [r|] H1 Hr]; [specialize (Hr _ eq_refl); apply fine_ret; intros S' HS'; nin|clear Hr].
  eapply fine_bind; [apply fine_maybe_rotate; [inn|inn|nin]|intros S2 [r|] H2 Hr]; [specialize (Hr _ eq_refl); apply fine_ret; intros S' HS'; nin|clear Hr].
  eapply fine_bind; [apply fine_maybe_merge; [inn|inn|nin]|intros S3 [r|] H3 Hr]; [specialize (Hr _ eq_refl); apply fine_ret; intros S' HS'; nin|clear Hr].
  eapply fine_bind; [apply fine_maybe_merge; [inn|inn|nin]|intros S4 [r|] H4 Hr]; [specialize (Hr _ eq_refl); apply fine_ret; intros S' HS'; nin|apply fine_stop].
Qed.
Definition repaired_in (S : list nid) (x : ref * path * changes) : Prop := path_in S (snd (fst x)) /\ nodes_in S (snd x).
Lemma fine_repair_loop order p : forall S f di dc ch, path_in S p -> f ∈ S -> dc ∈ S -> nodes_in S ch -> fine true S (repair_loop p f di dc order ch) repaired_in.
Proof.
  induction p as [|[n i] p IH]; intros S f di dc ch Hp Hf Hdc Hc; cbn [repair_loop];
    (eapply fine_bind; [by apply fine_repair_one|intros S1 ch' H1 Hc']); (eapply fine_bind; [apply fine_num_keys|intros S2 nk H2 _]);
    (eapply fine_bind; [apply fine_num_children|intros S3 nc H3 _]).
  - destruct (_ && _).
    + eapply fine_bind; [apply fine_node_get|intros S4 nd H4 _]. eapply fine_bind; [by apply (fine_unwrap _ _ _ anything)|intros S5 r H5 _].
      apply fine_ret. intros S' HS'. split; [by intros x ?%elem_of_nil|cbn; nin].
    + destruct (add_node f ch') as [r ch2] eqn:E. apply fine_ret. intros S' HS'. split; [by intros x ?%elem_of_nil|cbn]. eapply nodes_in_add; [exact E|inn|nin].
  - pose proof (proj1 (path_in_cons _ _ _ _) Hp) as [Hn Hp']. destruct (_ <=? _)%nat.
    + destruct (add_node f ch') as [r ch2] eqn:E. apply fine_ret. intros S' HS'. split; cbn [fst snd]; [pin|]. eapply nodes_in_add; [exact E|inn|nin].
    + apply IH; [pin|inn|inn|nin].
Qed.
Lemma fine_repair S p order ch : path_in S p -> nodes_in S ch -> fine true S (repair p order ch) repaired_in.
Proof.
  intros Hp Hc. destruct p as [|[f di] p]; cbn [repair]; [apply fine_stop|]. apply path_in_cons in Hp as [Hf Hp].
  eapply fine_bind; [apply fine_get_child|intros S1 dc H1 Hdc]. apply fine_repair_loop; [pin|inn|inn|nin].
Qed.
Lemma path_in_head S p n i : path_in S p -> head p = Some (n, i) -> n ∈ S.
Proof. destruct p as [|[n' i'] p]; [done|]. intros [H _]%path_in_cons [= <- <-]. done. Qed.
Lemma path_in_tail S p : path_in S p -> path_in S (tail p).
Proof. destruct p as [|[n i] p]; [done|]. by intros [_ H]%path_in_cons. Qed.
Lemma path_in_app S p1 p2 : path_in S p1 -> path_in S p2 -> path_in S (p1 ++ p2).
Proof. intros H1 H2 x. rewrite map_app, elem_of_app. intros [Hx|Hx]; [by apply H1|by apply H2]. Qed.
Lemma fine_head S (p : path) : path_in S p -> fine true S (unwrap (head p)) (fun S' x => fst x ∈ S').
Proof. intros Hp. apply fine_unwrap. intros [n i] S' Hh HS'. apply HS'. by eapply path_in_head. Qed.
Lemma fine_replace_removed S fuel p n ki : path_in S p -> n ∈ S -> fine true S (replace_removed fuel p n ki) path_in.
Proof.
  intros Hp Hn. unfold replace_removed, nearest_node. eapply fine_bind; [apply fine_get_child|intros S1 lc H1 Hlc].
  eapply fine_bind; [apply fine_nearest; [inn|by intros x ?%elem_of_nil]|intros S2 [? lp] H2 Hlp]. change (path_in S2 lp) in Hlp.
  eapply fine_bind; [by apply fine_head|intros S3 [ln ?] H3 Hln]. cbn [fst] in Hln. eapply fine_bind; [apply fine_num_keys|intros S4 nl H4 _].
  eapply fine_bind; [apply fine_get_child|intros S5 rc H5 Hrc].
  eapply fine_bind; [apply fine_nearest; [inn|by intros x ?%elem_of_nil]|intros S6 [? rp] H6 Hrp]. change (path_in S6 rp) in Hrp.
  eapply fine_bind; [by apply fine_head|intros S7 [rn ?] H7 Hrn]. cbn [fst] in Hrn. eapply fine_bind; [apply fine_num_keys|intros S8 nr H8 _].
  eapply (fine_bind _ _ _ _ (fun S' x => path_in S' (snd x))).
  { destruct (_ <? _)%nat; (eapply fine_bind; [apply fine_node_mod; inn|intros S9 dn H9 _]); apply fine_ret; intros S' HS'; cbn [snd]; pin. }
  intros S9 [[ci key] bottom] H9 Hb. cbn [snd] in Hb. eapply fine_bind; [apply fine_node_mod; inn|intros S10 ? H10 _]. apply fine_ret. intros S' HS'.
  apply path_in_app; [pin|]. apply path_in_cons. split; [inn|pin].
Qed.
Lemma fine_del_cas S fuel key cas : fine true S (tree_del_cas fuel key cas) anything.
Proof.
  unfold tree_del_cas, nearest_node, version. eapply fine_bind; [apply fine_root_false|intros S1 [root|] H1 Hr]; [|by apply fine_ret]. specialize (Hr _ eq_refl).
  eapply fine_bind; [apply fine_nearest; [inn|by intros x ?%elem_of_nil]|intros S2 [mt p] H2 Hp]. change (path_in S2 p) in Hp.
  destruct mt as [seq|]; [|by apply fine_ret]. eapply fine_bind; [by apply fine_head|intros S3 [n i] H3 Hn].
  eapply fine_bind; [apply fine_get_key_value|intros S4 kv H4 _]. destruct (cas kv); [|by apply fine_ret].
  eapply fine_bind; [apply fine_core_len|intros S5 v H5 _]. eapply fine_bind; [apply fine_head; pin|intros S6 [cur ci] H6 Hcur]. cbn [fst] in Hcur.
  eapply fine_bind; [apply fine_node_mod; inn|intros S7 ? H7 _]. eapply fine_bind; [apply fine_is_leaf|intros S8 lf H8 _].
  assert (path_in S2 (tail p)) as Ht by (by apply path_in_tail).
  eapply (fine_bind _ _ _ _ path_in).
  { destruct lf; [apply fine_ret; intros S' HS'; apply path_in_cons; split; [inn|pin]|]. apply fine_replace_removed; [pin|inn]. }
  intros S9 p2 H9 Hp2. eapply fine_bind; [by apply fine_head|intros S10 [bottom ?] H10 Hb]. cbn [fst] in Hb.
  eapply fine_bind; [apply fine_num_keys|intros S11 nk H11 _]. assert (path_in S9 (tail p2)) as Ht2 by (by apply path_in_tail).
  assert (forall S', nodes_in S' (Changes v key None [])) as Hnil by (intros S' x Hx; by apply elem_of_nil in Hx).
  eapply (fine_bind _ _ _ _ repaired_in).
  { destruct (_ && _); [apply fine_repair; [pin|done]|]. destruct (add_node bottom _) as [r ch1] eqn:E. apply fine_ret. intros S' HS'.
    split; cbn [fst snd]; [pin|]. eapply nodes_in_add; [exact E|inn|done]. }
  intros S12 [[child p4] ch'] H12 [Hp4 Hc']. cbn [fst snd] in *. eapply fine_bind; [by apply fine_propagate|intros S13 ch2 H13 Hc2].
  eapply fine_bind; [by apply fine_add_changes|intros S14 ? H14 _]. by apply fine_ret.
Qed.
Lemma fine_call fuel c : fine true [] (api fuel c) anything.
Proof.
  unfold api. eapply fine_bind; [apply (fine_catch _ _ _ anything anything); [|done|done]|intros ? [] ? _; by apply fine_ret]. destruct c; cbn [call_prog].
  - eapply fine_bind; [apply fine_tree_get|intros ? ? ? _]. by apply fine_ret.
  - eapply (fine_bind _ _ _ _ anything); [|intros ? [] ? _; by apply fine_ret].
    eapply fine_bind; [apply fine_put_cas|intros S1 [old new] H1 _]. eapply fine_bind; [by apply (fine_unwrap _ _ _ anything)|intros S2 n H2 _]. by apply fine_ret.
  - eapply fine_bind; [apply fine_put_cas|intros S1 [old new] H1 _]. by apply fine_ret.
  - eapply (fine_bind _ _ _ _ anything); [|intros ? ? ? _; by apply fine_ret].
    eapply fine_bind; [apply fine_del_cas|intros S1 [[[] ?]|] H1 _]; [by apply fine_ret|apply fine_stop|by apply fine_ret].
  - eapply fine_bind; [apply fine_del_cas|intros S1 r H1 _]. by apply fine_ret.
  - unfold version. eapply fine_bind; [apply fine_core_len|intros ? ? ? _]. by apply fine_ret.
  - unfold create_header. eapply (fine_bind _ _ _ _ anything); [|intros ? ? ? _; by apply fine_ret].
    eapply fine_bind; [apply fine_core_len|intros S2 l H2 _]. destruct (l =? 0)%nat; [apply fine_blocks_append|apply fine_stop].
  - unfold tree_traverse. eapply (fine_bind _ _ _ _ anything); [|intros ? [] ? _; by apply fine_ret].
    eapply fine_bind; [apply fine_root_false|intros ? [] ? ?]; [|apply fine_stop].
    eapply fine_bind; [apply fine_trav|intros ? [] ? _; by apply fine_ret].
Qed.

(** Programs that leave the cache and the blocks of the core alone. *)
Fixpoint quiet {A} (p : prog A) : Prop :=
  match p with
  | Ret _ | Stop _ => True
  | CoreLen k => forall n, quiet (k n)
  | CoreAppend b k => forall r, quiet (k r)
  | CoreGet _ _ | CacheGet _ _ | CachePut _ _ _ => False
  | NodeNew nd k => forall n, quiet (k n)
  | NodeGet n k => forall nd, quiet (k nd)
  | NodeUpd n f k => forall nd, quiet (k nd)
  end.
Lemma quiet_bind {A B} (p : prog A) (f : A -> prog B) : quiet p -> (forall a, quiet (f a)) -> quiet (pbind p f).
Proof. intros Hp Hf. induction p; simpl in *; auto. Qed.
Lemma quiet_catch {A} (p : prog A) : quiet p -> quiet (catch p).
Proof. intros Hp. induction p; simpl in *; auto. by destruct x. Qed.
Lemma quiet_unwrap {A} (o : option A) : quiet (unwrap o).
Proof. by destruct o. Qed.
Ltac quiet_step := lazymatch goal with
  | |- quiet (pbind _ _) => apply quiet_bind; [|intros ?]
  | |- quiet (catch _) => apply quiet_catch
  | |- quiet (Ret _) => exact I
  | |- quiet (Stop _) => exact I
  | |- quiet (throw _) => exact I
  | |- quiet (node_get _) => intros ?; exact I
  | |- quiet (node_new _) => intros ?; exact I
  | |- quiet core_len => intros ?; exact I
  | |- quiet (unwrap _) => apply quiet_unwrap
  | |- quiet (match ?x with _ => _ end) => destruct x
  end.
Lemma quiet_node_mod {B} n (f : node -> option (B * node)) : quiet (node_mod n f).
Proof. unfold node_mod. simpl. intros nd. by destruct (f nd) as [[]|]. Qed.
Lemma quiet_blocks_append b : quiet (blocks_append b).
Proof. unfold blocks_append. cbn. by intros []. Qed.
Lemma quiet_take_children n seq : quiet (take_children_with_seq n seq).
Proof. unfold take_children_with_seq. repeat quiet_step. Qed.
Lemma quiet_reorder_loop seq nodes fuel : forall stack out, quiet (reorder_loop fuel seq nodes stack out).
Proof.
  induction fuel as [|fuel IH]; intros [|[n ci] stack] out; cbn [reorder_loop]; try done.
  repeat first [apply IH | apply quiet_node_mod | apply quiet_take_children | quiet_step].
Qed.
Lemma quiet_read_levels ns : quiet (read_levels ns).
Proof. induction ns; cbn [read_levels]; [done|]. repeat first [assumption | quiet_step]. Qed.
Lemma quiet_add_changes ch : quiet (add_changes ch).
Proof. unfold add_changes, reorder_nodes. repeat first [apply quiet_reorder_loop | apply quiet_take_children | apply quiet_read_levels | apply quiet_blocks_append | quiet_step]. Qed.
Lemma quiet_propagate p : forall ch child, quiet (propagate ch p child).
Proof. induction p as [|[n i] p IH]; intros ch child; cbn [propagate]; [done|]. repeat first [apply IH | apply quiet_node_mod | quiet_step]. Qed.
Lemma quiet_put_loop matched p : forall cur cs ch, quiet (put_loop matched cur cs p ch).
Proof.
  induction p as [|[n i] p IH]; intros cur cs ch; cbn [put_loop]; [done|]. unfold num_keys.
  repeat first [apply IH | apply quiet_node_mod | apply quiet_propagate | quiet_step | progress cbn [add_node]].
Qed.
Lemma quiet_ensure_header : quiet ensure_header.
Proof. unfold ensure_header, create_header. repeat first [apply quiet_blocks_append | quiet_step]. Qed.

(** ** The reading half of a put, next to readers *)

(** Until it is left with a program and in a state for which [Sw] holds, [p] makes only
    [G]-steps, with [R]-steps of others in between. *)
Fixpoint uwp {A} (R G : st -> st -> Prop) (Sw : prog A -> st -> Prop) (p : prog A) (s : st) : Prop :=
  forall s1, R s s1 -> Sw p s1 \/
  match p with
  | Ret _ | Stop _ => False
  | CoreLen k => uwp R G Sw (k (length (core s1))) s1
  | CoreGet q k => G s1 (snd (exec_get q s1)) /\ uwp R G Sw (k (fst (exec_get q s1))) (snd (exec_get q s1))
  | CoreAppend b k => G s1 (snd (exec_append b s1)) /\ uwp R G Sw (k (fst (exec_append b s1))) (snd (exec_append b s1))
  | CacheGet q k => uwp R G Sw (k (cache s1 !! q)) s1
  | CachePut q e k => let s2 := set_cache s1 (<[q := e]> (cache s1)) in G s1 s2 /\ uwp R G Sw k s2
  | NodeNew nd k => let s2 := set_heap s1 (heap s1 ++ [nd]) in G s1 s2 /\ uwp R G Sw (k (length (heap s1))) s2
  | NodeGet n k => match heap s1 !! n with Some nd => uwp R G Sw (k nd) s1 | None => Sw (Stop SPanic) s1 end
  | NodeUpd n f k =>
      match heap s1 !! n with
      | Some nd =>
          match f nd with
          | Some nd' => let s2 := set_heap s1 (<[n := nd']> (heap s1)) in G s1 s2 /\ uwp R G Sw (k nd) s2
          | None => Sw (Stop SPanic) s1
          end
      | None => Sw (Stop SPanic) s1
      end
  end.

Lemma uwp_bind {A B} (R G : st -> st -> Prop) (Sw : prog B -> st -> Prop) (p : prog A) (f : A -> prog B) : (forall s, R s s) -> forall s,
  rwp R G p (fun a s' => uwp R G Sw (f a) s') (fun x s' => Sw (Stop x) s') s -> uwp R G Sw (pbind p f) s.
Proof.
  intros Rr. induction p as [a|x|k IH|q k IH|b k IH|q k IH|q e k IH|nd k IH|n k IH|n g k IH]; intros s H.
  - simpl in *. exact (H s (Rr s)).
  - intros s1 H1. left. by apply H.
  - intros s1 H1. right. apply IH. by apply H.
  - intros s1 H1. right. destruct (H s1 H1). split; [done|]. by apply IH.
  - intros s1 H1. right. destruct (H s1 H1). split; [done|]. by apply IH.
  - intros s1 H1. right. apply IH. by apply H.
  - intros s1 H1. right. destruct (H s1 H1). split; [done|]. by apply IH.
  - intros s1 H1. right. destruct (H s1 H1 []) as [H2 H3].
    assert (set_heap s1 (heap s1 ++ []) = s1) as Es by (rewrite app_nil_r; by destruct s1).
    rewrite Es in *. split; [done|]. by apply IH.
  - intros s1 H1. right. specialize (H s1 H1). simpl in H. simpl. destruct (heap s1 !! n); [by apply IH|done].
  - intros s1 H1. right. specialize (H s1 H1). simpl in H. simpl. destruct (heap s1 !! n) as [nd|]; [|done].
    destruct (g nd); [|done]. destruct H. split; [done|]. by apply IH.
Qed.

Lemma uwp_in_bind {A B} (R G : st -> st -> Prop) (Sw : prog A -> st -> Prop) (Sw' : prog B -> st -> Prop) (f : A -> prog B) (p : prog A) :
  (forall X s, Sw X s -> Sw' (pbind X f) s) -> forall s, uwp R G Sw p s -> uwp R G Sw' (pbind p f) s.
Proof.
  intros HS. induction p as [a|x|k IH|q k IH|b k IH|q k IH|q e k IH|nd k IH|n k IH|n g k IH]; intros s H.
  - assert (forall s1, R s s1 -> Sw' (f a) s1) as H'.
    { intros s1 H1. destruct (H s1 H1) as [H2|[]]. exact (HS _ _ H2). }
    simpl. destruct (f a); intros s1 H1; left; by apply H'.
  - intros s1 H1. destruct (H s1 H1) as [H2|[]]. left. exact (HS _ _ H2).
  - intros s1 H1. destruct (H s1 H1) as [H2|H2]; [left; exact (HS _ _ H2)|right]. by apply IH.
  - intros s1 H1. destruct (H s1 H1) as [H2|[H2 H3]]; [left; exact (HS _ _ H2)|right]. split; [done|]. by apply IH.
  - intros s1 H1. destruct (H s1 H1) as [H2|[H2 H3]]; [left; exact (HS _ _ H2)|right]. split; [done|]. by apply IH.
  - intros s1 H1. destruct (H s1 H1) as [H2|H2]; [left; exact (HS _ _ H2)|right]. by apply IH.
  - intros s1 H1. destruct (H s1 H1) as [H2|[H2 H3]]; [left; exact (HS _ _ H2)|right]. split; [done|]. by apply IH.
  - intros s1 H1. destruct (H s1 H1) as [H2|[H2 H3]]; [left; exact (HS _ _ H2)|right]. split; [done|]. by apply IH.
  - intros s1 H1. destruct (H s1 H1) as [H2|H2]; [left; exact (HS _ _ H2)|right]. simpl in *.
    destruct (heap s1 !! n); [by apply IH|exact (HS _ _ H2)].
  - intros s1 H1. destruct (H s1 H1) as [H2|H2]; [left; exact (HS _ _ H2)|right]. simpl in *.
    destruct (heap s1 !! n) as [nd|]; [|exact (HS _ _ H2)]. destruct (g nd); [|exact (HS _ _ H2)]. destruct H2. split; [done|]. by apply IH.
Qed.
Lemma uwp_in_catch {A} (R G : st -> st -> Prop) (Sw : prog A -> st -> Prop) (Sw' : prog (A + err) -> st -> Prop) (p : prog A) :
  (forall X s, Sw X s -> Sw' (catch X) s) -> forall s, uwp R G Sw p s -> uwp R G Sw' (catch p) s.
Proof.
  intros HS. induction p as [a|x|k IH|q k IH|b k IH|q k IH|q e k IH|nd k IH|n k IH|n g k IH]; intros s H.
  - intros s1 H1. destruct (H s1 H1) as [H2|[]]. left. exact (HS _ _ H2).
  - assert (forall s1, R s s1 -> Sw' (catch (Stop x)) s1) as H'.
    { intros s1 H1. destruct (H s1 H1) as [H2|[]]. exact (HS _ _ H2). }
    destruct x; intros s1 H1; left; by apply (H' s1).
  - intros s1 H1. destruct (H s1 H1) as [H2|H2]; [left; exact (HS _ _ H2)|right]. by apply IH.
  - intros s1 H1. destruct (H s1 H1) as [H2|[H2 H3]]; [left; exact (HS _ _ H2)|right]. split; [done|]. by apply IH.
  - intros s1 H1. destruct (H s1 H1) as [H2|[H2 H3]]; [left; exact (HS _ _ H2)|right]. split; [done|]. by apply IH.
  - intros s1 H1. destruct (H s1 H1) as [H2|H2]; [left; exact (HS _ _ H2)|right]. by apply IH.
  - intros s1 H1. destruct (H s1 H1) as [H2|[H2 H3]]; [left; exact (HS _ _ H2)|right]. split; [done|]. by apply IH.
  - intros s1 H1. destruct (H s1 H1) as [H2|[H2 H3]]; [left; exact (HS _ _ H2)|right]. split; [done|]. by apply IH.
  - intros s1 H1. destruct (H s1 H1) as [H2|H2]; [left; exact (HS _ _ H2)|right]. simpl in *.
    destruct (heap s1 !! n); [by apply IH|exact (HS _ _ H2)].
  - intros s1 H1. destruct (H s1 H1) as [H2|H2]; [left; exact (HS _ _ H2)|right]. simpl in *.
    destruct (heap s1 !! n) as [nd|]; [|exact (HS _ _ H2)]. destruct (g nd); [|exact (HS _ _ H2)]. destruct H2. split; [done|]. by apply IH.
Qed.

(** Steps of others, and a step of its own. *)
Lemma uwp_env {A} (R G : st -> st -> Prop) Sw (p : prog A) s s' : (forall s1 s2 s3, R s1 s2 -> R s2 s3 -> R s1 s3) -> R s s' -> uwp R G Sw p s -> uwp R G Sw p s'.
Proof. intros Rt Hs H. destruct p; intros s1 H1; apply H; by eapply Rt. Qed.
Lemma uwp_step {A} (R G : st -> st -> Prop) Sw (p : prog A) s : (forall s, R s s) -> (forall s, G s s) -> uwp R G Sw p s ->
  Sw p s \/ (G s (snd (step p s)) /\ (uwp R G Sw (fst (step p s)) (snd (step p s)) \/ Sw (fst (step p s)) (snd (step p s)))).
Proof.
  intros Rr Gr H. destruct p as [a|x|k|q k|b k|q k|q e k|nd k|n k|n g k]; destruct (H s (Rr s)) as [H1|H1]; (by left) || (try done); right; simpl in *; auto.
  - destruct (exec_get q s). cbn in *. destruct H1; auto.
  - destruct (exec_append b s). cbn in *. destruct H1; auto.
  - destruct H1; auto.
  - destruct H1; auto.
  - destruct (heap s !! n); cbn; auto.
  - destruct (heap s !! n) as [nd|]; cbn; auto. destruct (g nd); cbn; [|auto]. destruct H1; auto.
Qed.

(** *** What others may do then, and what the put itself does *)
Lemma cown_refl s : cown s s.
Proof. split; [apply cext_refl|done]. Qed.
Lemma cown_trans s1 s2 s3 : cown s1 s2 -> cown s2 s3 -> cown s1 s3.
Proof. intros [H1 E1] [H2 E2]. split; [by eapply cext_trans|by rewrite E2]. Qed.
Lemma cown_cwf s s' : cown s s' -> cwf s -> cwf s'.
Proof. intros [H _]. apply (cx_cwf _ _ H). Qed.
Lemma cown_heap s s' n nd : cown s s' -> heap s !! n = Some nd -> heap s' !! n = Some nd.
Proof. intros [H _]. by apply cext_heap. Qed.
Lemma cown_blk s s' q b : cown s s' -> blk (core s) q = Some b -> blk (core s') q = Some b.
Proof. intros [H _]. by apply cext_blk. Qed.
Lemma cown_hnode s s' r nd : cown s s' -> cwf s -> hnode s r = Some nd -> hnode s' r = Some nd.
Proof. intros [H _]. by apply cext_hnode. Qed.
Lemma cown_oracle s s' : cown s s' -> oracle s' `suffix_of` oracle s.
Proof. intros [H _]. apply H. Qed.
Lemma rwp_own {A} (p : prog A) (Q : A -> st -> Prop) (E : stop -> st -> Prop) s0 : forall s, core s = core s0 -> rwp cext cown p Q E s ->
  rwp cown cown p (fun a s' => core s' = core s0 /\ Q a s') (fun x s' => core s' = core s0 /\ E x s') s.
Proof.
  induction p as [a|x|k IH|q k IH|b k IH|q k IH|q e k IH|nd k IH|n k IH|n g k IH]; intros s Hc H s1 [H1 Hc1];
    specialize (H s1 H1); simpl in H; (assert (core s1 = core s0) as Hc' by (by rewrite Hc1)); try done.
  - by apply IH.
  - destruct H as [H2 H3]. split; [done|]. apply IH; [|done]. rewrite (proj2 H2). done.
  - destruct H as [H2 H3]. split; [done|]. apply IH; [|done]. rewrite (proj2 H2). done.
  - by apply IH.
  - destruct H as [H2 H3]. split; [done|]. by apply IH.
  - intros js. destruct (H js) as [H2 H3]. split; [done|]. by apply IH.
  - destruct (heap s1 !! n); [by apply IH|done].
  - destruct (heap s1 !! n) as [nd|]; [|done]. destruct (g nd); [|done]. destruct H as [H2 H3]. split; [done|]. by apply IH.
Qed.
Lemma blocks_get_own q b s (Q : entry -> st -> Prop) (E : stop -> st -> Prop) :
  cwf s -> blk (core s) q = Some b ->
  (forall e s', cown s s' -> cwf s' -> e_key e = b_key b -> e_value e = b_value b ->
     (forall off nd, hnode s (q, off) = Some nd ->
        exists n, e_nodes e !! off = Some n /\ heap s' !! n = Some nd /\ True) ->
     Q e s') ->
  (forall e s', cown s s' -> cwf s' -> hit e (oracle s) (oracle s') -> E (SErr e) s') ->
  rwp cown cown (blocks_get q) Q E s.
Proof.
  intros Hw Hb HQ HE. eapply rwp_mono; [| |apply (rwp_own _ (fun e s' => core s' = core s -> Q e s') (fun x s' => core s' = core s -> E x s') s s eq_refl)].
  - intros e s' [H1 H2]. by apply H2.
  - intros x s' [H1 H2]. by apply H2.
  - eapply blocks_get_conc; [done|exact Hb| |].
    + intros e s' Hx Hw' H1 H2 H3 Hc. by apply HQ.
    + intros e s' Hx Hw' Hh Hc. by apply HE.
Qed.

Lemma coh_own s s' v h T : wft (core s) v h T -> cwf s -> cown s s' -> coh s T -> coh s' T.
Proof.
  intros HW Hw [Hx Hc] Hco r Hr. destruct (wft_in_core _ _ _ _ _ HW Hr) as [_ [nd Hnd]]. rewrite Hc, Hnd.
  apply (cx_hnode _ _ Hx Hw). by rewrite (Hco r Hr).
Qed.
Lemma rdy_own s s' m t : rep (core s) m t -> cown s s' -> rdy s t -> rdy s' t.
Proof.
  intros Hr Hx [Hw Hc]. split; [by apply (cx_cwf _ _ (proj1 Hx))|]. destruct t as [T|]; [|done].
  destruct Hr as (_ & h & HW & _). by eapply coh_own.
Qed.

(** From then on the put leaves cache and blocks alone and does what it is to do. *)
Definition set_out {BB : Base} (key : bytes) (value : option bytes) (cas : option kvdata -> kvdata -> bool) (s : st) (m : list kvdata) (t : option tree)
    (X : prog (option nat * option nat)) (s1 : st) : Prop :=
  quiet X /\ core s1 = core s /\ (hwf s1 -> put_triple key value cas s m t X s1).

Lemma put_uwp {BB : Base} fuel key value cas s m t : valid (core s) -> rep (core s) m t -> rdy s t -> chain_small (core s) -> (length (core s) <= fuel)%nat ->
  u64 (blen key) -> match value with None => True | Some x => u64 (blen x) end ->
  uwp cown cown (set_out key value cas s m t) (tree_put_cas fuel key value cas) s.
Proof.
  intros HV Hr Hrd Hsm Hfuel Hku Hvu. unfold tree_put_cas. destruct t as [T|].
  - pose proof Hr as (Hl2 & h & HW & Hm). pose proof (wft_height _ _ _ _ HW) as Hhv. pose proof (wf_shape _ _ _ _ HW) as Hsh. pose proof (wf_sort _ _ _ _ HW) as Hso.
    assert (headed (core s) = core s) as HH by (apply headed_some; lia).
    assert (forall e s', cown s s' -> cwf s' -> hit e (oracle s) (oracle s') -> set_out key value cas s m (Some T) (Stop (SErr e)) s') as HE.
    { intros e s' Hx Hw' Hh%hit_failing. split_and!; [done|apply Hx|]. intros Hwf Q E HQ0 HQ1 HE0 HE1 HE2 s2 <-. apply HE0; [done|].
      split; [left; apply Hx|]. split; [done|]. by apply (rdy_own _ _ _ _ Hr Hx Hrd). }
    apply uwp_bind; [apply cown_refl|].
    assert (rwp cown cown (get_root false) (fun r s' => exists n, r = Some n /\ cown s s' /\ cwf s' /\ heap s' !! n = Some (node_of T))
      (fun x s' => set_out key value cas s m (Some T) (Stop x) s') s) as Hroot.
    { apply (wp_get_root cown cown cown cwf (fun _ _ _ => True));
        eauto using cown_refl, cown_trans, blocks_get_own, cown_cwf, cown_heap, cown_blk, cown_hnode, cown_oracle.
      - apply Hrd.
      - intros s1 s2 H1 H2 _ Hl. rewrite (proj2 H1) in Hl. lia.
      - intros s1 H1 Hw1 Hl. exists T, (kd (core s)). split.
        + split; [rewrite (proj2 H1); apply HW|]. rewrite <-(proj2 H1). eapply rdy_ready; [by rewrite (proj2 H1)|]. by eapply rdy_own.
        + intros n s2 H2 Hw2 Hn _. exists n. split_and!; [done|by eapply cown_trans|done|done]. }
    assert (rwp cown cown (get_root true) (fun r s' => exists n, r = Some n /\ cown s s' /\ cwf s' /\ heap s' !! n = Some (node_of T))
      (fun x s' => set_out key value cas s m (Some T) (Stop x) s') s) as Hroot'.
    { unfold get_root, version in *. cbn [pbind core_len] in *. intros s1 H1. specialize (Hroot s1 H1). lazy beta iota in Hroot |- *.
      rewrite (proj2 H1) in *. destruct (Nat.leb_spec (length (core s)) 1); [lia|exact Hroot]. }
    eapply rwp_mono; [| |exact Hroot']; [|done]. intros r s1 (n & -> & H1 & Hw1 & Hn). clear Hroot Hroot'.
    unfold version, core_len. intros s2 H2. right. cbn [pbind].
    assert (cown s s2) as H02 by (by eapply cown_trans). rewrite (proj2 H02).
    apply uwp_bind; [apply cown_refl|].
    assert (cwf s2) as Hw2 by (by apply (cx_cwf _ _ (proj1 H2))).
    assert (ready (kd (core s)) s2 T) as Hrd2. { rewrite <-(proj2 H02). eapply rdy_ready; [by rewrite (proj2 H02)|]. by eapply rdy_own. }
    eapply (wp_nearest_node cown cown cown cwf (fun _ _ _ => True));
      eauto using cown_refl, cown_trans, blocks_get_own, cown_cwf, cown_heap, cown_blk, cown_hnode, cown_oracle.
    { apply Hsh. }
    { lia. }
    2: { intros e s3 H3 Hw3 Hh. apply HE; [by eapply cown_trans|done|]. eapply hit_l; [apply H02|done]. }
    intros mt p tp s3 H3 Hw3 Hd Hp. assert (cown s s3) as H03 by (by eapply cown_trans).
    pose proof (desc_lookup _ _ _ _ _ _ Hd Hsh Hso) as Hlk. rewrite <-Hm in Hlk.
    destruct (desc_split _ _ _ _ _ _ Hd Hsh Hso) as (L0 & R0 & HF & HL0 & HR0 & Hm0).
    assert (cpath s3 p tp) as Hcp.
    { eapply Forall2_impl; [exact Hp|]. intros [n1 i1] [u1 j1] (K1 & K2 & _). done. }
    assert (forall s4, cown s3 s4 -> uwp cown cown (set_out key value cas s m (Some T)) (put_tail key value cas s m mt p) s4) as Hmain.
    { intros s4 H4. assert (forall s5, cown s4 s5 -> set_out key value cas s m (Some T) (put_tail key value cas s m mt p) s5) as Hs5.
      { intros s5 H5. assert (cown s3 s5) as H35 by (by eapply cown_trans). assert (cown s s5) as H05 by (by eapply cown_trans). split_and!.
        - unfold put_tail, put_done. destruct (cas _ _); [|done]. repeat first [apply quiet_put_loop | apply quiet_add_changes | quiet_step | progress cbn [add_node]].
        - apply H05.
        - intros Hwf Q E HQ0 HQ1 HE0 HE1 HE2. rewrite HH in *.
          eapply (swp_put_tail key value cas s m T mt tp); try done; [apply H05| |apply H05|].
          + split; [done|]. by apply (rdy_own _ _ _ _ Hr H05 Hrd).
          + eapply Forall2_impl; [exact Hcp|]. intros [n1 i1] [u1 j1] [K1 K2]. split; [done|]. by eapply cext_heap; [apply H35|]. }
      destruct (put_tail key value cas s m mt p); intros s5 H5; left; by apply Hs5. }
    apply uwp_bind; [apply cown_refl|]. destruct mt as [q0|].
    + assert (exists u i tp', tp = (u, i) :: tp' /\ tkeys u !! i = Some q0 /\ u ∈ subs T) as (u & i & tp' & -> & Hi & Hu).
      { destruct (desc_zip _ _ _ _ _ _ 0 Hd (proj1 Hsh)) as (b & i & tp' & g & -> & Hch & _ & _ & _ & _ & Hf); [right; lia|done|].
        exists b, i, tp'. split_and!; [done|apply Hf|by eapply chain_subs]. }
      destruct p as [|[n' i'] p]; [by inversion Hp|]. pose proof Hp as Hp'. apply Forall2_cons in Hp as [(Hi' & Hn' & _) _].
      cbn [fst snd] in *. subst i'. cbn [head]. apply rwp_bind; [apply cown_refl|]. cbn [unwrap]. intros s4 H4.
      assert (cown s s4) as H04 by (by eapply cown_trans).
      apply rwp_bind; [apply cown_refl|].
      eapply (wp_get_key_value cown cown cown cwf (fun _ _ _ => True)) with (D := kd (core s)) (nd := node_of u) (q := q0); 
        eauto using cown_refl, cown_trans, blocks_get_own, cown_cwf, cown_heap, cown_blk, cown_hnode, cown_oracle.
      * eapply wft_kok; [exact HW|apply H04|]. rewrite HF. set_solver.
      * intros s5 H5 Hw5. intros s6 H6. change (Some (kd (core s) q0)) with (kd (core s) <$> Some q0). rewrite <-Hlk. apply Hmain.
        repeat (eapply cown_trans; [eassumption|]). apply cown_refl.
      * intros e s5 H5 Hw5 Hh. apply HE; [by eapply cown_trans|done|]. eapply hit_l; [apply H04|done].
    + intros s4 H4. change None with (kd (core s) <$> None) at 1. rewrite <-Hlk. by apply Hmain.
  - unfold get_root, version, core_len. cbn [pbind]. intros s1 H1. right. destruct Hr as [Hl ->].
    match goal with |- uwp _ _ _ ?X s1 => set (Y := X) end.
    assert (forall s2, cown s1 s2 -> set_out key value cas s [] None Y s2) as HS.
    { intros s2 H2. assert (cown s s2) as H02 by (by eapply cown_trans). split_and!; [|apply H02|].
      - subst Y. rewrite (proj2 H1). destruct (Nat.leb_spec (length (core s)) 1); [|lia].
        assert (forall n, quiet (if cas None (KV n key value) then n0 <- node_new (Node [n] []) ;; (let '(_, ch') := add_node n0 (Changes n key value []) in add_changes ch' ;; Ret (@None nat, Some n)) else Ret (None, None))) as Hq.
        { intros n. destruct (cas _ _); [|done]. repeat first [apply quiet_add_changes | quiet_step | progress cbn [add_node]]. }
        destruct (_ && true).
        + unfold ensure_header, create_header, core_len, blocks_append. cbn [pbind catch quiet]. intros l. destruct (l =? 0)%nat; cbn [pbind catch quiet throw]; [|exact Hq].
          intros [|]; cbn [pbind catch quiet throw]; [exact Hq|done].
        + cbn [pbind quiet]. exact Hq.
      - intros Hwf Q E HQ0 HQ1 HE0 HE1 HE2. pose proof (proj2 H02) as Hc2. pose proof (cx_oracle _ _ (proj1 H02)) as Ho2.
        assert (swp (tree_put_cas fuel key value cas) Q E s2) as Hall.
        { apply (swp_put_cas fuel key value cas s2 [] None); rewrite ?Hc2; try done.
          - intros Hc s' K1 K2 K3. apply HQ0; try done. by etrans.
          - intros Hc s' T' K1 K2. apply (HQ1 Hc s' T'); try done. by etrans.
          - intros x s' K1 [K2 K3]. apply HE0; [by eapply failing_suffix|]. split; [|done]. rewrite Hc2 in K2.
            destruct K2 as [K2|[K2 K4]]; [by left|right]. split; [by eapply losing_suffix|done].
          - intros Hc s' K1 K2 K3. apply HE1; try done. by eapply losing_suffix.
          - intros Hc s' T' K1 K2. apply (HE2 Hc s' T'); [by eapply losing_suffix|done]. }
        unfold tree_put_cas, get_root, version, core_len in Hall. cbn [pbind] in Hall. specialize (Hall s2 eq_refl).
        rewrite Hc2, <-(proj2 H1) in Hall. exact Hall. }
    destruct Y; intros s2 H2; left; by apply HS.
Qed.

(** From then on the whole call does what it is to do. *)
Definition off {BB : Base} (c : call) (s : st) (m : list kvdata) (t : option tree) (P : prog reply) (s1 : st) : Prop :=
  quiet P /\ core s1 = core s /\ (hwf s1 -> swp P (outcome c s m t) (fun _ _ => False) s1).
Lemma put_api_uwp {BB : Base} fuel c s m t : valid (core s) -> rep (core s) m t -> rdy s t -> chain_small (core s) -> (length (core s) <= fuel)%nat ->
  call_ok c -> is_Some (put_args c) -> uwp cown cown (off c s m t) (api fuel c) s.
Proof.
  intros HV Hr Hrd Hsm Hf Hok [[[k v] f] Ha]. rewrite (put_api_eq _ _ _ _ _ Ha).
  assert (u64 (blen k) /\ match v with None => True | Some x => u64 (blen x) end) as [Hk Hv].
  { destruct c; try done; injection Ha as <- <- <-; apply Hok. }
  pose proof (put_uwp fuel k v f s m t HV Hr Hrd Hsm Hf Hk Hv) as H.
  set (in_call := fun (P : prog reply) s1 => exists X, P = put_call c X /\ set_out k v f s m t X s1).
  set (in_catch := fun (P : prog (reply + err)) s1 => exists X, P = catch (put_call c X) /\ set_out k v f s m t X s1).
  assert (uwp cown cown in_call (put_call c (tree_put_cas fuel k v f)) s) as H1.
  { destruct c; try done; cbn [put_call].
    - apply (uwp_in_bind _ _ (fun P s1 => exists X, P = pbind X (fun '(old, new) => n <- unwrap new ;; Ret (old, n)) /\ set_out k v f s m t X s1)).
      + intros ? s1 (X & -> & HX). by exists X.
      + eapply uwp_in_bind; [|exact H]. intros X s1 HX. by exists X.
    - eapply uwp_in_bind; [|exact H]. intros X s1 HX. by exists X. }
  assert (uwp cown cown in_catch (catch (put_call c (tree_put_cas fuel k v f))) s) as H2.
  { eapply uwp_in_catch; [|exact H1]. intros ? s1 (X & -> & HX). by exists X. }
  unfold put_api. eapply uwp_in_bind; [|exact H2]. intros ? s1 (X & -> & HX1 & HX2 & HX3). split_and!; [|done|].
  - assert (quiet (put_call c X)). { destruct c; try done; cbn [put_call]; repeat first [done | quiet_step]. }
    repeat first [done | quiet_step].
  - intros Hw. eapply put_wrap; [done|done|done|exact Ha|by apply HX3].
Qed.

(** ** A handle with several tasks *)

(** What task [K] knows is so; [ca] is the cache the handle had at first. *)
Record fit (ca : gmap nat entry) (s : st) (K : know) : Prop := {
  ft_facts : forall q raw, (q, raw) ∈ k_facts K -> core s !! q = Some raw;
  ft_own : forall n nd, (n, nd) ∈ k_own K -> heap s !! n = Some nd /\ forall r, ~ loc s r n;
  ft_sub : map fst (k_own K) ⊆ k_seen K;
  ft_seen : forall n, n ∈ k_seen K -> (n < length (heap s))%nat;
  ft_missed : forall q, q ∈ k_missed K -> ca !! q = None }.

(** What a step may change. *)
Record change (w : bool) (K K' : know) (s s' : st) : Prop := {
  cg_core : core s `prefix_of` core s';
  cg_core_r : w = false -> core s' = core s;
  cg_len : (length (heap s) <= length (heap s'))%nat;
  cg_heap : forall n, (n < length (heap s))%nat -> heap s' !! n = heap s !! n \/ (w = true /\ n ∈ k_seen K);
  cg_loc : forall r n, loc s' r n -> loc s r n \/ (n ∈ map fst (k_own K) /\ exists nd, heap s' !! n = Some nd /\ cnode (core s') r = Some nd);
  cg_dom : forall q e, q ∉ k_missed K -> cache s !! q = Some e -> cache s' !! q = Some e;
  cg_seen : forall n, n ∈ k_seen K' -> n ∈ k_seen K \/ (exists r, loc s r n) \/ (length (heap s) <= n)%nat;
  cg_mono : k_seen K ⊆ k_seen K';
  cg_own : forall n, n ∈ map fst (k_own K') -> n ∈ map fst (k_own K) \/ (length (heap s) <= n)%nat }.

Lemma change_same w K s s' : core s' = core s -> heap s' = heap s -> cache s' = cache s -> change w K K s s'.
Proof.
  intros Hc Hh Hca. split; rewrite ?Hc, ?Hh, ?Hca; auto. intros r n. unfold loc. rewrite Hca. auto.
Qed.
Lemma fit_same ca s s' K : core s' = core s -> heap s' = heap s -> cache s' = cache s -> fit ca s K -> fit ca s' K.
Proof. intros Hc Hh Hca []. split; unfold loc in *; rewrite ?Hc, ?Hh, ?Hca; auto. Qed.
Lemma hwf_same s s' : core s' = core s -> heap s' = heap s -> cache s' = cache s -> hwf s -> hwf s'.
Proof. intros Hc Hh Hca. unfold hwf, cwf, entry_ok, loc. rewrite Hc, Hh, Hca. done. Qed.

(** What it has come to know in this step. *)
Definition seen_by {A} (p : prog A) (K K' : know) (s : st) : Prop := forall n, n ∈ k_seen K' ->
  n ∈ k_seen K \/ (length (heap s) <= n)%nat \/ exists q k e, p = CacheGet q k /\ cache s !! q = Some e /\ n ∈ e_nodes e.

Lemma decent_step {A} w K (p : prog A) Q ca s : decent w K p Q -> fit ca s K -> hwf s -> ca ⊆ cache s ->
  let '(p', s') := step p s in exists K', decent w K' p' Q /\ fit ca s' K' /\ hwf s' /\ change w K K' s s' /\
    (quiet p -> quiet p' /\ cache s' = cache s) /\ seen_by p K K' s.
Proof.
  intros H HF Hw Hca. pose proof HF as [F1 F2 F3 F4 F5].
  assert (forall (p' : prog A) s', decent w K p' Q -> (quiet p -> quiet p') -> core s' = core s -> heap s' = heap s -> cache s' = cache s ->
    exists K', decent w K' p' Q /\ fit ca s' K' /\ hwf s' /\ change w K K' s s' /\
    (quiet p -> quiet p' /\ cache s' = cache s) /\ seen_by p K K' s) as Hsame.
  { intros p' s' H1 H2 H3 H4 H5. exists K. split_and!; [done|by eapply fit_same|by eapply hwf_same|by apply change_same|auto|]. intros n Hn. auto. }
  destruct p as [a|x|k|q k|b k|q k|q e k|nd k|n k|n g k]; cbn [step]; cbn [decent] in H.
  - by apply Hsame.
  - by apply Hsame.
  - by apply Hsame.
  - pose proof (exec_get_state q s) as E. destruct (exec_get q s) as [r s'] eqn:Eg. cbn in E. subst s'. exists (learn_get q r K).
    assert (k_seen (learn_get q r K) = k_seen K /\ k_own (learn_get q r K) = k_own K /\ k_missed (learn_get q r K) = k_missed K) as (E1 & E2 & E3).
    { by destruct r as [|[raw|]]. }
    split_and!; [apply H| |by eapply hwf_same| |done|intros n; rewrite E1; auto].
    + split; rewrite ?E1, ?E2, ?E3; auto. intros q' raw Hin. cbn [core set_oracle]. destruct r as [|[raw'|]]; auto.
      cbn in Hin. apply elem_of_cons in Hin as [[= -> ->]|Hin]; [|auto]. unfold exec_get in Eg. destruct (oracle s) as [|[] o]; congruence.
    + split; rewrite ?E1, ?E2; auto.
  - destruct H as [-> H]. destruct (exec_append b s) as [r s'] eqn:Eg.
    assert (core s `prefix_of` core s' /\ heap s' = heap s /\ cache s' = cache s) as (E1 & E2 & E3).
    { unfold exec_append in Eg. destruct (oracle s) as [|[] o]; injection Eg as <- <-; cbn; split_and!; try done; by apply prefix_app_r. }
    exists K. split_and!; [apply H| | | |by split|intros n; auto].
    + split; unfold loc in *; rewrite ?E2, ?E3; auto. intros q raw Hin. eapply prefix_lookup; [by apply F1|done].
    + destruct Hw as [W1 W2]. split; [|unfold loc in *; rewrite E3; exact W2]. intros q e He. rewrite E3 in He. eapply entry_ok_mono; [exact E1|by rewrite E2|by apply W1].
    + split; unfold loc in *; rewrite ?E2, ?E3; auto; done.
  - exists (learn_cache q (cache s !! q) K). split_and!; [apply H| |done| |done|].
    + destruct (cache s !! q) as [e|] eqn:E; split; cbn; auto.
      * intros n Hn. apply elem_of_app. right. by apply F3.
      * intros n [Hn|Hn]%elem_of_app; [|auto]. apply elem_of_list_lookup in Hn as [j Hn]. eapply (loc_lt s (q, j)); [apply Hw|]. by exists e.
      * intros q' [->|Hq]%elem_of_cons; auto. destruct (ca !! q) as [e|] eqn:Ea; [|done]. by rewrite (lookup_weaken _ _ _ _ Ea Hca) in E.
    + destruct (cache s !! q) as [e|] eqn:E; split; cbn; auto.
      * intros n [Hn|Hn]%elem_of_app; [|auto]. right. left. apply elem_of_list_lookup in Hn as [j Hn]. exists (q, j), e. done.
      * intros n Hn. apply elem_of_app. by right.
    + destruct (cache s !! q) as [e|] eqn:E; intros n; cbn; [|auto]. intros [Hn|Hn]%elem_of_app; [|auto]. right. right. by exists q, k, e.
  - destruct H as [(Hnd & Hmiss & raw & b & Hraw & Hdec & Hk & Hv & Hfor) H]. set (s' := set_cache s (<[q := e]> (cache s))).
    assert (blk (core s) q = Some b) as Hb. { unfold blk. by rewrite (F1 _ _ Hraw), Hdec. }
    assert (forall j n, e_nodes e !! j = Some n -> n ∈ map fst (k_own K) /\ exists nd, heap s !! n = Some nd /\ cnode (core s) (q, j) = Some nd /\ forall r, ~ loc s r n) as Hen.
    { intros j n Hn. destruct (Forall2_lookup_l _ _ _ _ _ Hfor Hn) as (nd & Hnd' & Hin). destruct (F2 _ _ Hin) as [G1 G2].
      split; [by apply (elem_of_list_fmap_1 fst _ (n, nd))|]. exists nd. split_and!; [done| |done]. unfold cnode. cbn. by rewrite Hb. }
    assert (forall r n, loc s' r n -> (fst r <> q /\ loc s r n) \/ (fst r = q /\ e_nodes e !! snd r = Some n)) as Hloc.
    { intros r n (e' & He' & Hn). cbn in He'. apply lookup_insert_Some in He' as [[<- <-]|[Hne He']]; [by right|left]. split; [done|]. by exists e'. }
    exists (give_up K). split_and!; [done| | | |done|intros n; auto].
    + split; cbn; auto.
      * intros n nd Hn. by apply elem_of_nil in Hn.
      * by intros n ?%elem_of_nil.
    + destruct Hw as [W1 W2]. split.
      * intros q' e' He'. cbn in He'. apply lookup_insert_Some in He' as [[<- <-]|[Hne He']]; [|by apply W1].
        exists b. split_and!; [done|done|done|by eapply Forall2_length|]. apply Forall_forall. intros n Hn. apply elem_of_list_lookup in Hn as [j Hn].
        destruct (Hen j n Hn) as (_ & nd & Hh & _). by eapply lookup_lt_Some.
      * intros r1 r2 n L1 L2. destruct (Hloc _ _ L1) as [[N1 K1]|[N1 K1]], (Hloc _ _ L2) as [[N2 K2]|[N2 K2]].
        -- by eapply W2.
        -- destruct (Hen _ _ K2) as (_ & nd & _ & _ & Hno). exfalso. by eapply Hno.
        -- destruct (Hen _ _ K1) as (_ & nd & _ & _ & Hno). exfalso. by eapply Hno.
        -- destruct r1 as [q1 j1], r2 as [q2 j2]. cbn in *. subst. f_equal. by eapply NoDup_lookup.
    + split; cbn [core heap set_cache s' k_seen give_up k_own map]; auto.
      * intros r n L. destruct (Hloc r n L) as [[_ L1]|[E1 E2]]; [by left|right]. destruct (Hen _ _ E2) as (G1 & nd & G2 & G3 & _). split; [done|]. exists nd.
        rewrite <-E1, <-surjective_pairing in G3. done.
      * intros q' e' Hq' He'. cbn. rewrite lookup_insert_ne; [done|]. by intros ->.
      * intros n Hn. by apply elem_of_nil in Hn.
  - set (s' := set_heap s (heap s ++ [nd])). exists (learn_new (length (heap s)) nd K).
    assert (length (heap s) ∉ map fst (k_own K)) as Hnew. { intros Hin%F3%F4. lia. }
    assert (length (heap s') = S (length (heap s))) as HL. { cbn. rewrite app_length. cbn. lia. }
    split_and!; [by apply H| | | |by split|].
    + split; cbn [k_facts k_own k_seen k_missed learn_new core set_heap s']; auto.
      * intros n nd' [[= -> ->]|Hin]%elem_of_cons.
        -- split; [cbn; by rewrite lookup_app_r, Nat.sub_diag by lia|]. intros r L. assert (loc s r (length (heap s))) as L' by exact L.
           apply (loc_lt _ _ _ (proj1 Hw)) in L'. lia.
        -- destruct (F2 _ _ Hin) as [G1 G2]. split; [cbn; by apply lookup_app_l_Some|done].
      * cbn. intros n [->|Hn]%elem_of_cons; [by left|right; by apply F3].
      * fold s'. intros n. rewrite HL. intros [->|Hn]%elem_of_cons; [lia|]. apply F4 in Hn. lia.
    + destruct Hw as [W1 W2]. split; [|exact W2]. intros q e He. apply (entry_ok_mono s); [done|rewrite HL; lia|by apply W1].
    + split; cbn [core cache set_heap k_seen k_own learn_new s']; auto.
      * fold s'. lia.
      * intros n Hn. left. cbn. by rewrite lookup_app_l.
      * intros n [->|Hn]%elem_of_cons; auto.
      * intros n Hn. by right.
      * intros n. cbn. intros [->|Hn]%elem_of_cons; auto.
    + intros n. cbn. intros [->|Hn]%elem_of_cons; auto.
  - destruct (heap s !! n) as [nd|]; by apply Hsame.
  - destruct H as (-> & Hn & H). destruct (heap s !! n) as [nd|]; [|by apply Hsame]. destruct (g nd) as [nd'|]; [|by apply Hsame].
    set (s' := set_heap s (<[n := nd']> (heap s))). exists (give_up K).
    assert (length (heap s') = length (heap s)) as HL by (cbn; apply insert_length).
    split_and!; [by apply H| | | |by split|intros n'; auto].
    + split; cbn [k_facts k_own k_seen k_missed give_up core set_heap s']; auto.
      * intros ? ? Hin. by apply elem_of_nil in Hin.
      * by intros ? ?%elem_of_nil.
      * fold s'. intros n'. rewrite HL. auto.
    + destruct Hw as [W1 W2]. split; [|exact W2]. intros q e He. apply (entry_ok_mono s); [done|by rewrite HL|by apply W1].
    + split; cbn [core cache set_heap k_seen k_own give_up s' map]; auto; try done.
      * fold s'. lia.
      * intros n' Hn'. destruct (decide (n' = n)) as [->|Hne]; [by right|left]. cbn. by rewrite list_lookup_insert_ne.
      * intros ? Hin. by apply elem_of_nil in Hin.
Qed.

(** What the other tasks of the handle know stays so. *)
Definition strangers (K1 K2 : know) : Prop := (forall n, n ∈ map fst (k_own K1) -> n ∉ k_seen K2) /\ (forall n, n ∈ map fst (k_own K2) -> n ∉ k_seen K1).
Lemma fit_other ca w K K' K2 s s' : fit ca s K -> change w K K' s s' -> strangers K K2 -> fit ca s K2 -> fit ca s' K2.
Proof.
  intros HF HC [S1 S2] HF2. pose proof HF2 as [F1 F2 F3 F4 F5]. split; auto.
  - intros q raw Hin. eapply prefix_lookup; [by apply F1|apply HC].
  - intros n nd Hin. destruct (F2 _ _ Hin) as [G1 G2]. assert (n ∈ map fst (k_own K2)) as Hn by (by apply (elem_of_list_fmap_1 fst _ (n, nd))). split.
    + destruct (cg_heap _ _ _ _ _ HC n) as [->|[_ Hs]]; [by eapply lookup_lt_Some|done|]. by destruct (S2 n Hn).
    + intros r L. destruct (cg_loc _ _ _ _ _ HC r n L) as [L'|[Ho _]]; [by apply (G2 r)|]. apply (S1 n Ho). by apply F3.
  - intros n Hn. pose proof (F4 n Hn). pose proof (cg_len _ _ _ _ _ HC). lia.
Qed.
Lemma strangers_step ca w K K' K2 s s' : fit ca s K -> fit ca s K2 -> change w K K' s s' -> strangers K K2 -> strangers K' K2.
Proof.
  intros HF HF2 HC [S1 S2]. split.
  - intros n Hn. destruct (cg_own _ _ _ _ _ HC n Hn) as [Ho|Hl]; [by apply S1|]. intros Hs%(ft_seen _ _ _ HF2). lia.
  - intros n Hn Hs. destruct (cg_seen _ _ _ _ _ HC n Hs) as [Hs'|[[r L]|Hl]]; [by apply (S2 n)| |].
    + apply elem_of_list_fmap in Hn as ([n' nd] & -> & Hin). by apply (proj2 (ft_own _ _ _ HF2 _ _ Hin) r).
    + apply (ft_sub _ _ _ HF2) in Hn. apply (ft_seen _ _ _ HF2) in Hn. lia.
Qed.
Lemma fit_core ca s s' K : core s `prefix_of` core s' -> heap s' = heap s -> cache s' = cache s -> fit ca s K -> fit ca s' K.
Proof.
  intros Hc Hh Hca []. split; unfold loc in *; rewrite ?Hh, ?Hca; auto. intros q raw Hin. eapply prefix_lookup; [|done]. auto.
Qed.

(** ** What the cache has become *)

(** Everything in the cache was there before or is as in the core. *)
Record kept (b s : st) : Prop := {
  kp_heap : heap b `prefix_of` heap s;
  kp_loc : forall r n, loc s r n -> loc b r n \/ exists nd, heap s !! n = Some nd /\ cnode (core s) r = Some nd }.
Lemma kept_refl s : kept s s.
Proof. split; [done|]. auto. Qed.
Lemma kept_step b w K K' s s' : kept b s -> change w K K' s s' -> heap s `prefix_of` heap s' -> kept b s'.
Proof.
  intros [H1 H2] HC Hp. split; [by etrans|]. intros r n L. destruct (cg_loc _ _ _ _ _ HC r n L) as [L'|[_ ?]]; [|by right].
  destruct (H2 r n L') as [?|(nd & G1 & G2)]; [by left|right]. exists nd. split; [by eapply prefix_lookup|]. eapply cnode_prefix; [apply HC|done].
Qed.
Lemma kept_core b s s' : kept b s -> core s `prefix_of` core s' -> heap s' = heap s -> cache s' = cache s -> kept b s'.
Proof.
  intros [H1 H2] Hc Hh Hca. split; [by rewrite Hh|]. intros r n L. assert (loc s r n) as L' by (unfold loc in *; by rewrite Hca in L).
  destruct (H2 r n L') as [?|(nd & G1 & G2)]; [by left|right]. exists nd. rewrite Hh. split; [done|]. by eapply cnode_prefix.
Qed.
Lemma reader_heap K K' s s' : change false K K' s s' -> heap s `prefix_of` heap s'.
Proof.
  intros HC. exists (drop (length (heap s)) (heap s')). rewrite <-(take_drop (length (heap s)) (heap s')) at 1. f_equal.
  apply list_eq. intros n. destruct (decide (n < length (heap s))%nat) as [Hlt|Hge].
  - rewrite lookup_take by done. by destruct (cg_heap _ _ _ _ _ HC n Hlt) as [->|[? _]].
  - rewrite !lookup_ge_None_2; [done|lia|]. rewrite take_length. lia.
Qed.

Lemma kept_okh b s m t o : rep (core s) m t -> hwf s -> kept b s -> okh (St (core s) (cache b) (heap b) o) t -> okh s t.
Proof.
  intros Hr Hw [H1 H2] [_ Hc]. split; [done|]. destruct t as [T|]; [|done]. intros r Hin. specialize (Hc r Hin).
  destruct Hr as (_ & h & HW & _). destruct (wft_in_core _ _ _ _ _ HW Hin) as [_ [nd Hnd]]. cbn [core] in Hc. rewrite Hnd in Hc |- *.
  unfold hnode. destruct (cache s !! fst r) as [e|] eqn:Es; [|done].
  destruct (proj1 Hw _ _ Es) as (bl & Hb & _ & _ & Hlen & _).
  assert (is_Some (e_nodes e !! snd r)) as [n Hn].
  { apply lookup_lt_is_Some. rewrite Hlen. apply lookup_lt_is_Some. unfold cnode in Hnd. rewrite Hb in Hnd. by exists nd. }
  rewrite Hn. destruct (H2 r n) as [L|(nd' & G1 & G2)]; [by exists e| |congruence].
  rewrite (loc_hnode _ r n) in Hc by exact L. cbn [heap] in Hc. by eapply prefix_lookup.
Qed.

(** A reader's step is one that others may make. *)
Lemma reader_own {A} K (p : prog A) Q b s : decent false K p Q -> fit (cache b) s K -> kept b s -> cown s (snd (step p s)).
Proof.
  intros H HF HK. destruct p as [a|x|k|q k|bb k|q k|q e k|nd k|n k|n g k]; cbn [step decent snd] in *; try (by apply cown_refl); try (by destruct H).
  - pose proof (exec_get_state q s) as E. destruct (exec_get q s) as [r s'] eqn:Eg. cbn in *. subst s'. split; [|done]. apply cext_grow; try done. apply suffix_tail.
  - destruct H as [(Hnd & Hmiss & raw & bl & Hraw & Hdec & Hk & Hv & Hfor) H]. split; [|done].
    assert (blk (core s) q = Some bl) as Hb. { unfold blk. by rewrite (ft_facts _ _ _ HF _ _ Hraw), Hdec. }
    eapply cext_put; [exact Hb| |done|done|].
    + intros e0 off0 n He Hn. destruct (kp_loc _ _ HK (q, off0) n) as [(e1 & He1 & _)|?]; [by exists e0| |done].
      cbn in He1. by rewrite (ft_missed _ _ _ HF q Hmiss) in He1.
    + eapply Forall2_impl; [exact Hfor|]. intros n nd Hin. by apply (ft_own _ _ _ HF).
  - split; [|done]. apply cext_grow; try done. by apply prefix_app_r.
  - destruct (heap s !! n); apply cown_refl.
Qed.

(** ** The writing half of a put, next to readers *)

(** The put runs as if alone, from a state [s0] that lacks only what the readers have added. *)
Record like (s s0 : st) : Prop := {
  lk_core : core s0 = core s;
  lk_oracle : oracle s0 = oracle s;
  lk_heap : heap s0 `prefix_of` heap s }.
Lemma like_step {A} (p : prog A) (Q : A -> st -> Prop) s s0 : quiet p -> swp p Q (fun _ _ => False) s0 -> like s s0 ->
  exists s0', swp (fst (step p s)) Q (fun _ _ => False) s0' /\ like (snd (step p s)) s0' /\ cache s0' = cache s0.
Proof.
  intros Hq H HL. pose proof HL as [L1 L2 [js L3]]. unfold swp in H |- *.
  destruct p as [a|x|k|q k|b k|q k|q e k|nd k|n k|n g k]; cbn [rwp] in H; pose proof (H s0 eq_refl) as H1; cbn [step fst snd quiet] in *; try done.
  - by exists s0.
  - exists s0. rewrite <-L1. done.
  - destruct H1 as [_ H1]. exists (snd (exec_append b s0)). unfold exec_append in *. rewrite L2 in H1 |- *.
    destruct (oracle s) as [|[] o] eqn:Eo; cbn in *; (split_and!; [exact H1| |done]); split; cbn; rewrite ?L1; try congruence; by exists js.
  - destruct (H1 js) as [_ H2]. exists (set_heap (set_heap s0 (heap s0 ++ js)) ((heap s0 ++ js) ++ [nd])). split_and!; [|split; cbn; [done|done|]|done].
    + rewrite L3. exact H2.
    + by rewrite L3.
  - destruct (heap s0 !! n) as [nd|] eqn:En; [|done]. rewrite L3, (lookup_app_l_Some _ _ _ _ En). cbn. by exists s0.
  - destruct (heap s0 !! n) as [nd|] eqn:En; [|done]. destruct (g nd) as [nd'|] eqn:Eg; [|done]. destruct H1 as [_ H1].
    rewrite L3, (lookup_app_l_Some _ _ _ _ En), Eg. cbn. eexists. split_and!; [exact H1| |done]. split; cbn; [done|done|].
    rewrite insert_app_l by (by eapply lookup_lt_Some). by exists js.
Qed.

(** *** Calls that find all they need in the cache *)

(** From [s], [p] looks up in the cache only what [ca] holds, and makes no nodes. *)
Fixpoint dry {A} (ca : gmap nat entry) (p : prog A) (s : st) : Prop :=
  match p with
  | Ret _ | Stop _ => True
  | CoreLen k => dry ca (k (length (core s))) s
  | CoreGet _ _ | CachePut _ _ _ | NodeNew _ _ => False
  | CoreAppend b k => dry ca (k (fst (exec_append b s))) (snd (exec_append b s))
  | CacheGet q k => match ca !! q with Some e => dry ca (k (Some e)) s | None => False end
  | NodeGet n k => match heap s !! n with Some nd => dry ca (k nd) s | None => True end
  | NodeUpd n f k =>
      match heap s !! n with
      | Some nd => match f nd with Some nd' => dry ca (k nd) (set_heap s (<[n := nd']> (heap s))) | None => True end
      | None => True
      end
  end.
Lemma dry_step {A} ca (p : prog A) (Q : A -> st -> Prop) s s0 : dry ca p s0 -> swp p Q (fun _ _ => False) s0 -> like s s0 -> ca ⊆ cache s -> ca ⊆ cache s0 ->
  exists s0', dry ca (fst (step p s)) s0' /\ swp (fst (step p s)) Q (fun _ _ => False) s0' /\ like (snd (step p s)) s0' /\ cache s0' = cache s0 /\
    cache (snd (step p s)) = cache s.
Proof.
  intros Hd H HL Hs Hs0. pose proof HL as [L1 L2 [js L3]]. unfold swp in H |- *.
  destruct p as [a|x|k|q k|b k|q k|q e k|nd k|n k|n g k]; cbn [rwp] in H; pose proof (H s0 eq_refl) as H1; cbn [step fst snd dry] in *; try done.
  - by exists s0.
  - exists s0. rewrite <-L1. done.
  - destruct H1 as [_ H1]. exists (snd (exec_append b s0)). unfold exec_append in *. rewrite L2 in H1, Hd |- *.
    destruct (oracle s) as [|[] o] eqn:Eo; cbn in *; (split_and!; [exact Hd|exact H1| |done|done]); split; cbn; rewrite ?L1; try congruence; by exists js.
  - destruct (ca !! q) as [e|] eqn:E; [|done]. rewrite (lookup_weaken _ _ _ _ E Hs). rewrite (lookup_weaken _ _ _ _ E Hs0) in H1. by exists s0.
  - destruct (heap s0 !! n) as [nd|] eqn:En; [|done]. rewrite L3, (lookup_app_l_Some _ _ _ _ En). cbn. by exists s0.
  - destruct (heap s0 !! n) as [nd|] eqn:En; [|done]. destruct (g nd) as [nd'|] eqn:Eg; [|done]. destruct H1 as [_ H1].
    rewrite L3, (lookup_app_l_Some _ _ _ _ En), Eg. cbn. eexists. split_and!; [exact Hd|exact H1| |done|done]. split; cbn; [done|done|].
    rewrite insert_app_l by (by eapply lookup_lt_Some). by exists js.
Qed.

(** ** One writer and any number of readers *)
Record common (g : nat -> Prop) (w0 : world) (K : nat -> know) (ts : list thread) (w : world) : Prop := {
  cm_task : forall j th, ts !! j = Some th -> g (th_handle th) /\ decent (j =? 0)%nat (K j) (th_prog th) (fun _ _ => True) /\
    fit (h_cache (w_handles w0 (th_handle th))) (view w (th_handle th) []) (K j);
  cm_apart : forall j j' th th', j <> j' -> ts !! j = Some th -> ts !! j' = Some th' -> th_handle th = th_handle th' -> strangers (K j) (K j');
  cm_hwf : forall h, g h -> hwf (view w h []) /\ h_cache (w_handles w0 h) ⊆ h_cache (w_handles w h) }.

Definition learn (K : nat -> know) (j : nat) (k : know) : nat -> know := fun j' => if (j' =? j)%nat then k else K j'.

Lemma strangers_sym K1 K2 : strangers K1 K2 -> strangers K2 K1.
Proof. intros [H1 H2]. by split. Qed.

Lemma common_step g w0 K ts w j th p s : common g w0 K ts w -> ts !! j = Some th ->
  step (th_prog th) (view w (th_handle th) (th_faults th)) = (p, s) ->
  exists k, common g w0 (learn K j k) (<[j := Thread (th_handle th) p (oracle s)]> ts) (commit_view w (th_handle th) s) /\
    change (j =? 0)%nat (K j) k (view w (th_handle th) (th_faults th)) s /\
    (quiet (th_prog th) -> quiet p /\ cache s = h_cache (w_handles w (th_handle th))) /\
    seen_by (th_prog th) (K j) k (view w (th_handle th) (th_faults th)).
Proof.
  intros [C1 C2 C3] Hj Hs. set (h := th_handle th) in *. set (s1 := view w h (th_faults th)) in *.
  destruct (C1 j th Hj) as (Hg & Hd & HF). fold h in Hg, HF. destruct (C3 h Hg) as [Hw Hdom].
  assert (fit (h_cache (w_handles w0 h)) s1 (K j)) as HF1 by (by apply (fit_same _ (view w h []))).
  pose proof (decent_step _ _ _ _ (h_cache (w_handles w0 h)) s1 Hd HF1) as H. rewrite Hs in H.
  destruct H as (k & Hd' & HF' & Hw' & HC & Hq & Hsn); [by apply (hwf_same (view w h []))|exact Hdom|].
  exists k. split_and!; [|done|exact Hq|exact Hsn].
  assert (forall o, view (commit_view w h s) h o = set_oracle s o) as Eh. { intros o. by rewrite view_commit, Nat.eqb_refl. }
  assert (forall h' o, h' <> h -> view (commit_view w h s) h' o = set_core (view w h' o) (core s)) as Eo.
  { intros h' o Hne. rewrite view_commit. by apply Nat.eqb_neq in Hne as ->. }
  split.
  - intros j' th' Hj'. apply list_lookup_insert_Some in Hj' as [(<- & <- & _)|[Hne Hj']]; cbn [th_handle th_prog].
    + unfold learn. rewrite Nat.eqb_refl, Eh. split_and!; [done|done|by apply (fit_same _ s)].
    + unfold learn. assert (j' <> j) as Hne' by done. apply Nat.eqb_neq in Hne' as ->. destruct (C1 j' th' Hj') as (Hg' & Hd2 & HF2).
      split_and!; [done|done|]. destruct (decide (th_handle th' = h)) as [E|E].
      * rewrite E in *. rewrite Eh. apply (fit_same _ s); [done..|]. eapply fit_other; [exact HF1|exact HC| |].
        -- by eapply (C2 j j' th th').
        -- by apply (fit_same _ (view w h [])).
      * rewrite Eo by done. apply (fit_core _ (view w (th_handle th') [])); [apply HC|done|done|done].
  - assert (forall j' th', j <> j' -> ts !! j' = Some th' -> h = th_handle th' -> strangers k (K j')) as Hst.
    { intros j' th' Hne Hj' E. destruct (C1 j' th' Hj') as (_ & _ & HF2). rewrite <-E in HF2.
      eapply strangers_step; [exact HF1| |exact HC|by eapply (C2 j j' th th')]. by apply (fit_same _ (view w h [])). }
    intros j1 j2 th1 th2 Hne H1 H2 E.
    apply list_lookup_insert_Some in H1 as [(<- & <- & _)|[Hn1 H1]]; apply list_lookup_insert_Some in H2 as [(<- & <- & _)|[Hn2 H2]]; unfold learn; try done; cbn [th_handle] in E.
    + rewrite Nat.eqb_refl. apply not_eq_sym, Nat.eqb_neq in Hne as ->. apply (Hst j2 th2); [done|done|done].
    + rewrite Nat.eqb_refl. apply Nat.eqb_neq in Hne as ->. apply strangers_sym. apply (Hst j1 th1); [done|done|done].
    + apply not_eq_sym, Nat.eqb_neq in Hn1 as ->. apply not_eq_sym, Nat.eqb_neq in Hn2 as ->. by eapply (C2 j1 j2 th1 th2).
  - intros h' Hg'. destruct (decide (h' = h)) as [->|Hne].
    + rewrite Eh. split; [by apply (hwf_same s)|]. cbn. unfold set_handle. rewrite Nat.eqb_refl. cbn.
      apply map_subseteq_spec. intros q e He. apply (cg_dom _ _ _ _ _ HC).
      * intros Hm. apply (ft_missed _ _ _ HF1) in Hm. congruence.
      * by eapply lookup_weaken.
    + destruct (C3 h' Hg') as [G1 G2]. rewrite Eo by done. split.
      * eapply hwf_grow; [apply HC|exact G1].
      * cbn. unfold set_handle. apply Nat.eqb_neq in Hne as ->. apply G2.
Qed.

Section busy.
  Context (g : nat -> Prop) (w0 : world) (m : list kvdata) (t : option tree) (i : nat) (c : call) (o : list fault).

  (** The put has not begun to write; it has. *)
  Definition early {BB : Base} (th : thread) (w : world) : Prop :=
    w_core w = w_core w0 /\ kept (view w0 i []) (view w i []) /\
    uwp cown cown (off c (view w0 i o) m t) (th_prog th) (view w i (th_faults th)).
  Definition late {BB : Base} (K : know) (th : thread) (w : world) : Prop :=
    exists s0, (quiet (th_prog th) \/ dry (h_cache (w_handles w0 i)) (th_prog th) s0) /\ h_cache (w_handles w0 i) ⊆ cache s0 /\ swp (th_prog th) (outcome c (view w0 i o) m t) (fun _ _ => False) s0 /\ like (view w i (th_faults th)) s0 /\
      forall r n, loc (view w i []) r n -> loc s0 r n \/ (n ∉ k_seen K /\ exists nd, h_heap (w_handles w i) !! n = Some nd /\ cnode (w_core w) r = Some nd).

  Record busy {BB : Base} (K : nat -> know) (ts : list thread) (w : world) : Prop := {
    by_common : common g w0 K ts w;
    by_rest : forall h, g h -> h <> i -> kept (view w0 h []) (view w h []);
    by_put : exists th, ts !! 0 = Some th /\ th_handle th = i /\ (early th w \/ late (K 0) th w) }.

  Lemma off_late {BB : Base} k th w : w_core w = w_core w0 -> hwf (view w i []) -> h_cache (w_handles w0 i) ⊆ h_cache (w_handles w i) ->
    off c (view w0 i o) m t (th_prog th) (view w i (th_faults th)) -> late k th w.
  Proof.
    intros Hc Hw Hca (H1 & H2 & H3). exists (view w i (th_faults th)). split_and!; [by left|done| |by split|].
    - apply H3. by apply (hwf_same (view w i [])).
    - intros r n L. by left.
  Qed.

  Lemma late_step {BB : Base} K k k' th w p s : late k th w -> th_handle th = i -> common g w0 K [th] w -> 
    step (th_prog th) (view w i (th_faults th)) = (p, s) -> hwf (view w i []) ->
    change true k k' (view w i (th_faults th)) s -> h_cache (w_handles w0 i) ⊆ h_cache (w_handles w i) ->
    (quiet (th_prog th) -> quiet p /\ cache s = h_cache (w_handles w i)) -> seen_by (th_prog th) k k' (view w i (th_faults th)) ->
    late k' (Thread i p (oracle s)) (commit_view w i s).
  Proof.
    intros (s0 & Hq & Hs0 & HS & HL & Hloc) Hi _ Hs Hw HC Hin Hquiet Hseen.
    assert (exists s0', (quiet p \/ dry (h_cache (w_handles w0 i)) p s0') /\ swp p (outcome c (view w0 i o) m t) (fun _ _ => False) s0' /\ like s s0' /\
      cache s0' = cache s0 /\ cache s = h_cache (w_handles w i)) as (s0' & Hq' & HS' & HL' & Hca' & Hca).
    { destruct Hq as [Hq|Hd].
      - destruct (Hquiet Hq) as (Hq' & Hca). destruct (like_step _ _ _ _ Hq HS HL) as (s0' & HS' & HL' & Hca'). rewrite Hs in HS', HL'. exists s0'. split_and!; auto.
      - destruct (dry_step _ _ _ _ _ Hd HS HL Hin Hs0) as (s0' & Hd' & HS' & HL' & Hca' & Hca). rewrite Hs in Hd', HS', HL', Hca. exists s0'. split_and!; auto. }
    assert (forall o, view (commit_view w i s) i o = set_oracle s o) as Eh. { intros o'. by rewrite view_commit, Nat.eqb_refl. }
    exists s0'. cbn [th_prog th_faults]. rewrite !Eh. split_and!; [done|by rewrite Hca'|done|by destruct s|].
    intros r n L. assert (loc (view w i []) r n) as L0. { destruct L as (e & He & Hn). exists e. split; [|done]. cbn in *. by rewrite Hca in He. }
    destruct (Hloc r n L0) as [(e & He & Hn)|(Hns & nd & Hnd & Hcn)].
    - left. exists e. by rewrite Hca'.
    - pose proof (lookup_lt_Some _ _ _ Hnd) as Hlt.
      assert (loc s0 r n \/ n ∉ k_seen k') as [(e & He & Hn)|Hns'].
      { destruct (decide (n ∈ k_seen k')) as [Hk|Hk]; [|by right]. left.
        destruct (Hseen n Hk) as [?|[?|(q & k0 & e & Ep & He & Hn)]]; [done|cbn in *; lia|]. rewrite Ep in Hq.
        destruct Hq as [[]|Hd]. cbn [dry] in Hd. destruct (h_cache (w_handles w0 i) !! q) as [e'|] eqn:E; [|done].
        pose proof (lookup_weaken _ _ _ _ E Hin) as E'. cbn in He. rewrite E' in He. injection He as ->.
        apply elem_of_list_lookup in Hn as [j Hn]. assert (r = (q, j)) as -> by (eapply (proj2 Hw); [exact L0|by exists e]).
        exists e. split; [|done]. exact (lookup_weaken _ _ _ _ E Hs0). }
      { left. exists e. by rewrite Hca'. }
      right. split.
      + done.
      + exists nd. cbn. unfold set_handle. rewrite Nat.eqb_refl. cbn. split.
        * destruct (cg_heap _ _ _ _ _ HC n) as [E|[_ ?]]; [done|by rewrite E|done].
        * eapply cnode_prefix; [apply HC|done].
  Qed.

  Lemma busy_step {BB : Base} K ts w j th p s : g i -> busy K ts w -> ts !! j = Some th -> step (th_prog th) (view w (th_handle th) (th_faults th)) = (p, s) ->
    exists K', busy K' (<[j := Thread (th_handle th) p (oracle s)]> ts) (commit_view w (th_handle th) s).
  Proof.
    intros Hgi [HC HR (th0 & H0 & Hi & Hph)] Hj Hs. destruct (common_step _ _ _ _ _ _ _ _ _ HC Hj Hs) as (k & HC' & Hch & Hq & Hsn).
    exists (learn K j k). split; [done| |].
    - intros h Hg Hne. specialize (HR h Hg Hne). rewrite view_commit. destruct (Nat.eqb_spec h (th_handle th)) as [E|E].
      + assert (j <> 0) as Hj0. { intros ->. rewrite H0 in Hj. injection Hj as ->. congruence. }
        apply Nat.eqb_neq in Hj0. rewrite Hj0 in Hch. rewrite <-E in *. apply (kept_core _ s); try done.
        apply (kept_step _ false (K j) k (view w h (th_faults th))); [by apply (kept_core _ (view w h []))|done|by eapply reader_heap].
      + apply (kept_core _ (view w h [])); try done. apply Hch.
    - destruct (decide (j = 0)) as [->|Hj0].
      + rewrite H0 in Hj. injection Hj as <-. exists (Thread (th_handle th0) p (oracle s)). rewrite Hi in *. cbn in Hch.
        split_and!; [apply list_lookup_insert; by eapply lookup_lt_Some|done|]. unfold learn. cbn [Nat.eqb].
        destruct (cm_hwf _ _ _ _ _ HC i Hgi) as [Hw Hin].
        assert (late (K 0) th0 w -> late k (Thread i p (oracle s)) (commit_view w i s)) as Hlate.
        { intros HL. eapply late_step; [exact HL|done| |exact Hs|done|exact Hch|exact Hin|exact Hq|exact Hsn].
         
          split; [|intros [|?] [|?] ? ? ? ? ?; done|apply HC].
          intros [|?] th' [= <-]. by apply (cm_task _ _ _ _ _ HC 0). }
        destruct Hph as [(E1 & E2 & E3)|HL]; [|right; by apply Hlate].
        destruct (uwp_step _ _ _ _ _ cown_refl cown_refl E3) as [HS|[HG Hnx]].
        * right. apply Hlate. by apply off_late.
        * rewrite Hs in HG, Hnx. cbn [fst snd] in HG, Hnx. 
          assert (forall o, view (commit_view w i s) i o = set_oracle s o) as Eh. { intros o'. by rewrite view_commit, Nat.eqb_refl. }
          assert (core s = w_core w0) as Ec. { rewrite <-E1. apply HG. }
          assert (view (commit_view w i s) i (oracle s) = s) as Es. { rewrite Eh. by destruct s. }
          destruct Hnx as [Hu|HS].
          -- left. split_and!; [done| |cbn [th_prog th_faults]; by rewrite Es].
             rewrite Eh. apply (kept_core _ s); try done. apply (kept_step _ true (K 0) k (view w i (th_faults th0))); [by apply (kept_core _ (view w i []))|done|].
             apply (cx_heap _ _ (proj1 HG)).
          -- right. apply off_late; [done|apply (cm_hwf _ _ _ _ _ HC' i Hgi)|apply (cm_hwf _ _ _ _ _ HC' i Hgi)|cbn [th_prog th_faults]; by rewrite Es].
      + apply Nat.eqb_neq in Hj0 as Hjb. rewrite Hjb in Hch. exists th0. split_and!; [by rewrite list_lookup_insert_ne|done|].
        assert (learn K j k 0 = K 0) as -> . { unfold learn. destruct j; done. }
        pose proof (cg_core_r _ _ _ _ _ Hch eq_refl) as Ecr. cbn [core view] in Ecr.
        destruct (cm_task _ _ _ _ _ HC j th Hj) as (Hgj & Hd & HF). rewrite Hjb in Hd.
        destruct (decide (th_handle th = i)) as [Eh|Eh].
        * rewrite Eh in *. assert (forall o, view (commit_view w i s) i o = set_oracle s o) as Ev. { intros o'. by rewrite view_commit, Nat.eqb_refl. }
          destruct Hph as [(E1 & E2 & E3)|(s0 & L1 & L0 & L2 & L3 & L4)].
          -- left. split_and!.
             ++ cbn. by rewrite Ecr.
             ++ rewrite Ev. apply (kept_core _ s); try done. apply (kept_step _ false (K j) k (view w i (th_faults th))); [by apply (kept_core _ (view w i []))|done|by eapply reader_heap].
             ++ eapply uwp_env; [apply cown_trans| |exact E3]. rewrite Ev.
                assert (cown (view w i (th_faults th)) s) as [X1 X2].
                { pose proof (reader_own (K j) (th_prog th) (fun _ _ => True) (view w0 i []) (view w i (th_faults th)) Hd) as X. rewrite Hs in X. apply X.
                  - by apply (fit_same _ (view w i [])).
                  - by apply (kept_core _ (view w i [])). }
                split; [|done]. apply (cext_set_oracle _ _ (th_faults th0)) in X1. exact X1.
          -- right. exists s0. rewrite !Ev. split_and!; [done|done|done| |].
             ++ destruct L3 as [M1 M2 M3]. split; cbn [core oracle heap set_oracle]; [by rewrite Ecr|done|]. etrans; [exact M3|]. by eapply reader_heap in Hch.
             ++ intros r n L. destruct (cg_loc _ _ _ _ _ Hch r n) as [L'|[Ho (nd & G1 & G2)]]; [exact L| |].
                ** destruct (L4 r n L') as [?|(Hns & nd & G1 & G2)]; [by left|right]. split; [done|]. exists nd. cbn. unfold set_handle. rewrite Nat.eqb_refl, Ecr. cbn.
                   split; [|done]. eapply prefix_lookup; [exact G1|]. by eapply reader_heap in Hch.
                ** right. split.
                   --- apply (proj1 (cm_apart _ _ _ _ _ HC j 0 th th0 Hj0 Hj H0 ltac:(congruence)) n Ho).
                   --- exists nd. cbn. unfold set_handle. rewrite Nat.eqb_refl. done.
        * assert (forall o, view (commit_view w (th_handle th) s) i o = view w i o) as Ev.
          { intros o'. rewrite view_commit. apply not_eq_sym, Nat.eqb_neq in Eh as ->. unfold set_core, view. cbn. by rewrite Ecr. }
          assert (w_core (commit_view w (th_handle th) s) = w_core w) as Ew by exact Ecr.
          destruct Hph as [(E1 & E2 & E3)|(s0 & L1 & L0 & L2 & L3 & L4)].
          -- left. unfold early. rewrite !Ev, Ew. done.
          -- right. exists s0. rewrite !Ev, Ew. split_and!; [done..|]. intros r n L. destruct (L4 r n L) as [?|(? & nd & ?)]; [by left|right]. split; [done|].
             exists nd. cbn. unfold set_handle. by apply not_eq_sym, Nat.eqb_neq in Eh as ->.
  Qed.

  Lemma busy_run {BB : Base} sched : forall K ts w, g i -> busy K ts w -> exists K', busy K' (fst (tasks_run sched ts w)) (snd (tasks_run sched ts w)).
  Proof.
    induction sched as [|j sched IH]; intros K ts w Hg HB; cbn [tasks_run]; [by exists K|].
    destruct (ts !! j) as [th|] eqn:Ej; [|by eapply IH]. unfold thread_step.
    destruct (step (th_prog th) (view w (th_handle th) (th_faults th))) as [p s] eqn:Es.
    destruct (busy_step _ _ _ _ _ _ _ Hg HB Ej Es) as [K' HB']. by apply (IH K').
  Qed.

  Lemma busy_start {BB : Base} fuel xs : WInv g w0 m t -> g i -> chain_small (w_core w0) -> (length (w_core w0) <= fuel)%nat -> call_ok c ->
    is_Some (put_args c) \/ dry (h_cache (w_handles w0 i)) (api fuel c) (view w0 i o) ->
    Forall (fun x => reads_only (snd (fst x)) /\ g (fst (fst x))) xs ->
    busy (fun _ => none_known) (map (task fuel) ((i, c, o) :: xs)) w0.
  Proof.
    intros HI Hg Hsm Hf Hok Hpa Hxs. split.
    - split.
      + intros j th Hj. rewrite list_lookup_fmap in Hj. apply fmap_Some in Hj as ([[i' c'] o'] & Hj & ->). cbn [task th_handle th_prog].
        assert (g i' /\ fine (j =? 0)%nat [] (api fuel c') anything) as [Hg' Hfine].
        { destruct j as [|j]; cbn in Hj.
          - injection Hj as <- <- <-. split; [done|]. apply fine_call.
          - rewrite Forall_forall in Hxs. destruct (Hxs (i', c', o')) as [Hro Hg']; [by eapply elem_of_list_lookup_2|]. split; [done|]. by apply fine_reader. }
        split_and!; [done| |].
        * apply Hfine; [apply list_subseteq_nil|done].
        * split; cbn; try (by intros ? ? ?%elem_of_nil); try (by intros ? ?%elem_of_nil).
      + intros j j' th th' _ _ _ _. split; cbn; by intros ? ?%elem_of_nil.
      + intros h Hh. split; [|done]. apply (wi_ok _ _ _ _ HI h Hh).
    - intros h _ _. apply kept_refl.
    - exists (task fuel (i, c, o)). split_and!; [done|done|]. destruct Hpa as [Hpa|Hd].
      2: { right. exists (view w0 i o). split_and!; [by right|done| |by split|intros r n L; by left].
        cbn [task th_prog]. exact (call_spec (view w0 i o) m t fuel c (wi_valid _ _ _ _ HI) (wi_rep _ _ _ _ HI) (wi_ok _ _ _ _ HI i Hg) Hsm Hf Hok). }
      left. split_and!; [done|apply kept_refl|].
      cbn [task th_prog th_faults]. apply put_api_uwp; try done; try apply HI. by apply okh_rdy, (wi_ok _ _ _ _ HI i Hg).
  Qed.

  (** When the put is done. *)
  Lemma busy_done {BB : Base} K ts w r o' : WInv g w0 m t -> g i -> busy K ts w -> ts !! 0 = Some (Thread i (Ret r) o') ->
    (r = fst (spec_call c (Store (length (w_core w0)) m)) /\ took g c w0 w m t) \/
    (has_fault o /\ failed_reply (parts (w_core w0) t) c o m r /\ (append_fault o \/ w_core w = w_core w0) /\ (took g c w0 w m t \/ stopped g i c o w0 w m t)).
  Proof.
    intros HI Hg [HC HR (th & Hth & _ & Hph)] Hr. rewrite Hr in Hth. injection Hth as <-.
    destruct (cm_hwf _ _ _ _ _ HC i Hg) as [Hw Hin].
    assert (late (K 0) (Thread i (Ret r) o') w) as (s0 & _ & _ & HS & [M1 M2 M3] & Hloc).
    { destruct Hph as [(E1 & E2 & E3)|HL]; [|done]. apply off_late; [done|done|done|]. cbn [th_prog th_faults uwp] in *. by destruct (E3 _ (cown_refl _)). }
    cbn [th_prog core heap view] in *. specialize (HS s0 eq_refl). cbn beta iota in HS.
    assert (kept s0 (view w i [])) as Hk0.
    { split; [exact M3|]. intros r' n L. destruct (Hloc r' n L) as [?|[_ ?]]; [by left|by right]. }
    assert (settled c (view w0 i o) m t s0 -> took g c w0 w m t) as Hset.
    { intros [(t' & He & Hrep & Hok & Hrefs) Hv Hl]. cbn [core view] in *. pose proof (effect_prefix _ _ _ _ _ _ He) as Hp. rewrite M1 in *.
      exists t'. split_and!; [done| |done]. split; [done|done|]. intros h Hh. destruct (decide (h = i)) as [->|Hne].
      - eapply (kept_okh s0 _ _ _ (oracle s0)); [exact Hrep|done|done|]. cbn [core view]. rewrite <-M1. by destruct s0.
      - destruct (cm_hwf _ _ _ _ _ HC h Hh) as [Hwh _]. eapply (kept_okh (view w0 h []) _ _ _ []); [exact Hrep|done|by apply HR|].
        eapply okh_grow; [exact Hp|apply HI| |done]. apply (wi_ok _ _ _ _ HI h Hh). }
    assert (broken c (view w0 i o) m s0 t -> stopped g i c o w0 w m t) as Hbr.
    { intros (Hw0 & Hc & Hro & Hsp). cbn [core view oracle] in *. rewrite M1 in *.
      assert (w_core w0 `prefix_of` w_core w) as Hp. { destruct Hc as [-> | ->]; [done|apply headed_prefix]. }
      assert (rep (w_core w) m t) as Hrep. { destruct Hc as [-> | ->]; [|apply rep_headed]; apply HI. }
      split_and!; [done|done|]. split.
      - destruct Hc as [-> | ->]; [|apply headed_valid]; apply HI.
      - done.
      - intros h [Hh Hd]. destruct (decide (h = i)) as [->|Hne].
        + destruct Hd as [?|Hd]; [done|]. eapply (kept_okh s0 _ _ _ (oracle s0)); [exact Hrep|done|done|]. cbn [core view]. rewrite <-M1. destruct s0. by apply Hsp.
        + destruct (cm_hwf _ _ _ _ _ HC h Hh) as [Hwh _]. eapply (kept_okh (view w0 h []) _ _ _ []); [exact Hrep|done|by apply HR|].
          eapply okh_grow; [exact Hp|apply HI|apply (wi_ok _ _ _ _ HI h Hh)|]. intros T' r' -> Hr'. right. by exists T'. }
    destruct HS as [[H1 H2]|(H1 & H2 & H4 & [H3|H3])].
    - left. split; [done|by apply Hset].
    - right. rewrite M1 in H4. split_and!; [done|done|done|]. left. by apply Hset.
    - right. rewrite M1 in H4. split_and!; [done|done|done|]. right. by apply Hbr.
  Qed.
End busy.

(** ** Running to the end *)
Lemma run_ends {A} (p : prog A) : forall s, exists k, match run p s with
  | (inl a, s') => run_upto k p s = (Ret a, s')
  | (Datatypes.inr x, s') => run_upto k p s = (Stop x, s')
  end.
Proof.
  induction p as [a|x|k IH|q k IH|b k IH|q k IH|q e k IH|nd k IH|n k IH|n f k IH]; intros s; cbn [run].
  - by exists 0.
  - by exists 0.
  - destruct (IH (length (core s)) s) as [j Hj]. by exists (S j).
  - destruct (exec_get q s) as [r s'] eqn:E. destruct (IH r s') as [j Hj]. exists (S j). cbn. by rewrite E.
  - destruct (exec_append b s) as [r s'] eqn:E. destruct (IH r s') as [j Hj]. exists (S j). cbn. by rewrite E.
  - destruct (IH (cache s !! q) s) as [j Hj]. by exists (S j).
  - destruct (IH (set_cache s (<[q := e]> (cache s)))) as [j Hj]. by exists (S j).
  - destruct (IH (length (heap s)) (set_heap s (heap s ++ [nd]))) as [j Hj]. by exists (S j).
  - destruct (heap s !! n) as [nd|] eqn:E; [|exists 1; cbn; by rewrite E]. destruct (IH nd s) as [j Hj]. exists (S j). cbn. by rewrite E.
  - destruct (heap s !! n) as [nd|] eqn:E; [|exists 1; cbn; by rewrite E]. destruct (f nd) as [nd'|] eqn:E2; [|exists 1; cbn; by rewrite E, E2].
    destruct (IH nd (set_heap s (<[n := nd']> (heap s)))) as [j Hj]. exists (S j). cbn. by rewrite E, E2.
Qed.

(** A task that makes [k] steps without the others. *)
Lemma alone_steps k : forall th ts w, ts !! 0 = Some th ->
  let '(p, s) := run_upto k (th_prog th) (view w (th_handle th) (th_faults th)) in
  let '(ts', w') := tasks_run (repeat 0 k) ts w in
  ts' !! 0 = Some (Thread (th_handle th) p (oracle s)) /\ w_core w' = core s /\
  forall j, w_handles w' j = w_handles (commit_view w (th_handle th) s) j.
Proof.
  induction k as [|k IH]; intros th ts w Hts; cbn [run_upto repeat tasks_run].
  - split_and!; [by destruct th|done|]. intros j. cbn. unfold set_handle. destruct (Nat.eqb_spec j (th_handle th)) as [->|]; [|done]. by destruct (w_handles w (th_handle th)).
  - rewrite Hts. unfold thread_step. destruct (step (th_prog th) _) as [p s] eqn:Es.
    set (th' := Thread (th_handle th) p (oracle s)). set (w1 := commit_view w (th_handle th) s).
    specialize (IH th' (<[0 := th']> ts) w1). rewrite list_lookup_insert in IH by (by eapply lookup_lt_Some). specialize (IH eq_refl).
    cbn [th' th_prog th_handle th_faults] in IH.
    assert (view w1 (th_handle th) (oracle s) = s) as Ev. { unfold w1. rewrite view_commit, Nat.eqb_refl. by destruct s. }
    rewrite Ev in IH. destruct (run_upto k p s) as [p' s']. destruct (tasks_run (repeat 0 k) _ w1) as [ts' w'].
    destruct IH as (H1 & H2 & H3). split_and!; [done|done|]. intros j. rewrite H3. cbn. unfold set_handle. by destruct (j =? th_handle th)%nat.
Qed.

Lemma tasks_run_app l1 : forall l2 ts w, tasks_run (l1 ++ l2) ts w = let '(ts', w') := tasks_run l1 ts w in tasks_run l2 ts' w'.
Proof.
  induction l1 as [|j l1 IH]; intros l2 ts w; [done|]. cbn [app tasks_run]. destruct (ts !! j); [|apply IH].
  destruct (thread_step _ w). apply IH.
Qed.

Lemma took_same {BB : Base} g c w w1 w2 m t : w_core w2 = w_core w1 -> (forall j, w_handles w2 j = w_handles w1 j) -> took g c w w1 m t -> took g c w w2 m t.
Proof. intros Hc Hh (t' & H1 & H2 & H3). exists t'. rewrite Hc. split_and!; [done|by eapply WInv_same|done]. Qed.
Lemma stopped_same {BB : Base} g i c o w w1 w2 m t : w_core w2 = w_core w1 -> (forall j, w_handles w2 j = w_handles w1 j) -> stopped g i c o w w1 m t -> stopped g i c o w w2 m t.
Proof. intros Hc Hh (H1 & H2 & H3). unfold stopped. rewrite Hc. split_and!; [done|done|by eapply WInv_same]. Qed.

Lemma do_busy_spec {BB : Base} good w m t fuel i c o xs sched :
  WInv good w m t -> good i -> chain_small (w_core w) -> (length (w_core w) <= fuel)%nat -> call_ok c ->
  is_Some (put_args c) \/ dry (h_cache (w_handles w i)) (api fuel c) (view w i o) ->
  Forall (fun x => reads_only (snd (fst x)) /\ good (fst (fst x))) xs ->
  exists r w', do_busy fuel i c o xs sched w = (inl r, w') /\
    ((r = fst (spec_call c (Store (length (w_core w)) m)) /\ took good c w w' m t) \/
     (has_fault o /\ failed_reply (parts (w_core w) t) c o m r /\ (append_fault o \/ w_core w' = w_core w) /\ (took good c w w' m t \/ stopped good i c o w w' m t))).
Proof.
  intros HI Hg Hsm Hf Hok Hpa Hxs.
  pose proof (busy_start good w m t i c o fuel xs HI Hg Hsm Hf Hok Hpa Hxs) as HB.
  set (ts0 := map (task fuel) ((i, c, o) :: xs)) in *.
  unfold do_busy. fold ts0. destruct (busy_run good w m t i c o sched _ _ _ Hg HB) as [K1 HB1].
  destruct (tasks_run sched ts0 w) as [ts1 w1] eqn:E1. cbn [fst snd] in HB1.
  destruct (by_put _ _ _ _ _ _ _ _ _ _ HB1) as (th & Hth & Hi & _). rewrite Hth.
  destruct (run_ends (th_prog th) (view w1 i (th_faults th))) as [k Hk].
  pose proof (alone_steps k th ts1 w1 Hth) as HA. rewrite Hi in HA.
  destruct (busy_run good w m t i c o (repeat 0 k) _ _ _ Hg HB1) as [K2 HB2].
  destruct (tasks_run (repeat 0 k) ts1 w1) as [ts2 w2] eqn:E2. cbn [fst snd] in HB2.
  destruct (run (th_prog th) (view w1 i (th_faults th))) as [[r|x] s'] eqn:Er; rewrite Hk in HA; destruct HA as (A1 & A2 & A3).
  - exists r, (commit_view w1 i s'). split; [done|].
    pose proof (busy_done _ _ _ _ _ _ _ _ _ _ _ _ HI Hg HB2 A1) as HD.
    assert (w_core (commit_view w1 i s') = w_core w2) as Ec by (by rewrite A2).
    assert (forall j, w_handles (commit_view w1 i s') j = w_handles w2 j) as Eh by (intros j; by rewrite A3).
    destruct HD as [[D1 D2]|(D1 & D2 & D3 & D4)]; [left|right].
    + split; [done|by eapply took_same].
    + rewrite Ec. split_and!; [done|done|done|]. destruct D4; [left; by eapply took_same|right; by eapply stopped_same].
  - exfalso. destruct (by_put _ _ _ _ _ _ _ _ _ _ HB2) as (th2 & Hth2 & _ & Hph). rewrite A1 in Hth2. injection Hth2 as <-.
    destruct Hph as [(_ & _ & E3)|(s0 & _ & _ & HS & _)]; cbn [th_prog th_faults] in *.
    + destruct (E3 _ (cown_refl _)) as [(O1 & O2 & O3)|?]; [|done].
      refine (O3 _ _ eq_refl). apply (hwf_same (view w2 i [])); try done. by apply (cm_hwf _ _ _ _ _ (by_common _ _ _ _ _ _ _ _ _ _ HB2)).
    + exact (HS s0 eq_refl).
Qed.
