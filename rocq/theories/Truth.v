(** Answers are borne out by blocks, whatever else is under way and whoever wrote the
    core. *)
From Coq.Strings Require Import Byte.
From Coq Require Import Lia.
From stdpp Require Import prelude gmap.
From Verif Require Import Bytes Codec Model Order Spec OrderProofs Client Abs Threads Opaque.

Local Arguments decode_block : simpl never.

(** ** What a program has come to know *)

(** Blocks of the core, and contents of nodes. *)
Record seen := Seen { k_raw : list (nat * bytes); k_nd : list (nid * node) }.
Definition see (q : nat) (raw : bytes) (K : seen) : seen := Seen ((q, raw) :: k_raw K) (k_nd K).
Definition see_node (n : nid) (nd : node) (K : seen) : seen := Seen (k_raw K) ((n, nd) :: k_nd K).
Definition knows (K K' : seen) : Prop := k_raw K ⊆ k_raw K' /\ k_nd K ⊆ k_nd K'.
Definition taken (raw : bytes) (e : entry) : Prop := exists b, decode_block raw = DOk b /\ e_key e = b_key b /\ e_value e = b_value b.

Lemma knows_refl K : knows K K.
Proof. done. Qed.
Lemma knows_trans K1 K2 K3 : knows K1 K2 -> knows K2 K3 -> knows K1 K3.
Proof. intros [] []. split; by etrans. Qed.
Lemma knows_see q raw K : knows K (see q raw K).
Proof. split; cbn; [set_solver|done]. Qed.
Lemma knows_node n nd K : knows K (see_node n nd K).
Proof. split; cbn; [done|set_solver]. Qed.

(** [quiet]: it changes no node. *)
Fixpoint honest {A} (quiet : bool) (K : seen) (p : prog A) (Q : seen -> A -> Prop) : Prop :=
  match p with
  | Ret a => Q K a
  | Stop _ => True
  | CoreLen k => forall v, honest quiet K (k v) Q
  | CoreGet q k => (forall raw, honest quiet (see q raw K) (k (GOk (Some raw))) Q) /\ honest quiet K (k (GOk None)) Q /\ honest quiet K (k GErr) Q
  | CoreAppend _ k => forall v, honest quiet K (k v) Q
  | CacheGet q k => honest quiet K (k None) Q /\ forall e raw, taken raw e -> honest quiet (see q raw K) (k (Some e)) Q
  | CachePut q e k => (exists raw, (q, raw) ∈ k_raw K /\ taken raw e) /\ honest quiet K k Q
  | NodeNew nd k => forall n, honest quiet K (k n) Q
  | NodeGet n k => forall nd, honest quiet (see_node n nd K) (k nd) Q
  | NodeUpd n f k => quiet = false /\ forall nd, honest quiet K (k nd) Q
  end.

Lemma honest_bind {A B} qt (p : prog A) (f : A -> prog B) Q : forall K,
  honest qt K p (fun K' a => honest qt K' (f a) Q) -> honest qt K (pbind p f) Q.
Proof. induction p as [a|x|k IH|q k IH|b k IH|q k IH|q e k IH|nd k IH|n k IH|n g k IH]; intros K H; cbn in *; try tauto; eauto; naive_solver. Qed.
Lemma honest_catch {A} qt (p : prog A) (Q : seen -> A + err -> Prop) : forall K,
  honest qt K p (fun K' a => Q K' (Datatypes.inl a)) -> (forall K' e, knows K K' -> Q K' (Datatypes.inr e)) -> honest qt K (catch p) Q.
Proof.
  induction p as [a|x|k IH|q k IH|b k IH|q k IH|q e k IH|nd k IH|n k IH|n g k IH]; intros K H HQ; cbn in *; eauto.
  - destruct x; cbn; eauto using knows_refl.
  - destruct H as (H1 & H2 & H3). split_and!; eauto. intros raw. apply IH; [done|]. intros K' e He. apply HQ. eapply knows_trans; [apply knows_see|done].
  - destruct H as [H1 H2]. split; eauto. intros e raw Ht. apply IH; [eauto|]. intros K' x Hx. apply HQ. eapply knows_trans; [apply knows_see|done].
  - destruct H. eauto.
  - intros nd. apply IH; [done|]. intros K' e He. apply HQ. eapply knows_trans; [apply knows_node|done].
  - destruct H. eauto.
Qed.

(** From knowledge [K] on, [p] comes to know [P]. *)
Record tells {A} (qt : bool) (K : seen) (p : prog A) (P : seen -> A -> Prop) : Prop := Tells {
  tells_honest : forall K1 (Q : seen -> A -> Prop), knows K K1 -> (forall K2 a, knows K1 K2 -> P K2 a -> Q K2 a) -> honest qt K1 p Q }.
Definition whatever {A} (_ : seen) (_ : A) : Prop := True.

Lemma tells_bind {A B} qt K (p : prog A) (f : A -> prog B) P P' :
  tells qt K p P -> (forall K' a, knows K K' -> P K' a -> tells qt K' (f a) P') -> tells qt K (pbind p f) P'.
Proof.
  intros Hp Hf. split. intros K1 Q HK HQ. apply honest_bind, Hp; [done|]. intros K2 a HK2 HP.
  apply (Hf K2 a); [by eapply knows_trans|done|apply knows_refl|]. intros K3 b HK3 HP3. apply HQ; [by eapply knows_trans|done].
Qed.
Lemma tells_catch {A} qt K (p : prog A) (P : seen -> A -> Prop) (P' : seen -> A + err -> Prop) : tells qt K p P ->
  (forall K' a, knows K K' -> P K' a -> P' K' (Datatypes.inl a)) -> (forall K' e, knows K K' -> P' K' (Datatypes.inr e)) -> tells qt K (catch p) P'.
Proof.
  intros Hp H1 H2. split. intros K1 Q HK HQ. apply honest_catch.
  - apply Hp; [done|]. intros K2 a HK2 HP. apply HQ; [done|]. apply H1; [by eapply knows_trans|done].
  - intros K2 e HK2. apply HQ; [done|]. apply H2. by eapply knows_trans.
Qed.
Lemma tells_ret {A} qt K (a : A) (P : seen -> A -> Prop) : (forall K', knows K K' -> P K' a) -> tells qt K (Ret a) P.
Proof. intros H. split. intros K1 Q HK HQ. apply HQ; [done|]. by apply H. Qed.
Lemma tells_stop {A} qt K x (P : seen -> A -> Prop) : tells qt K (Stop x) P.
Proof. by split. Qed.
Lemma tells_weaken {A} qt K (p : prog A) (P P' : seen -> A -> Prop) : tells qt K p P -> (forall K' a, knows K K' -> P K' a -> P' K' a) -> tells qt K p P'.
Proof. intros Hp H. split. intros K1 Q HK HQ. apply Hp; [done|]. intros K2 a HK2 HP. apply HQ; [done|]. apply H; [by eapply knows_trans|done]. Qed.
Lemma tells_any {A} qt K (p : prog A) P : tells qt K p P -> tells qt K p whatever.
Proof. intros H. by eapply tells_weaken. Qed.
Lemma tells_unwrap {A} qt K (o : option A) (P : seen -> A -> Prop) : (forall a K', o = Some a -> knows K K' -> P K' a) -> tells qt K (unwrap o) P.
Proof. intros H. destruct o; [apply tells_ret; intros; by apply H|apply tells_stop]. Qed.
Lemma tells_node_get qt K n : tells qt K (node_get n) (fun K' nd => (n, nd) ∈ k_nd K').
Proof. split. intros K1 Q HK HQ nd. apply HQ; [apply knows_node|cbn; by left]. Qed.
Lemma tells_len qt K : tells qt K core_len whatever.
Proof. split. intros K1 Q HK HQ n. by apply HQ. Qed.
Lemma tells_new qt K nd : tells qt K (node_new nd) whatever.
Proof. split. intros K1 Q HK HQ n. by apply HQ. Qed.
Lemma tells_alloc qt nds : forall K, tells qt K (alloc_all nds) whatever.
Proof.
  induction nds as [|nd nds IH]; intros K; cbn [alloc_all]; [by apply tells_ret|].
  eapply tells_bind; [apply tells_new|]. intros. eapply tells_bind; [apply IH|]. intros. by apply tells_ret.
Qed.

(** The key and the value of a block. *)
Definition key_of (K : seen) (q : nat) (k : bytes) : Prop := exists raw b, (q, raw) ∈ k_raw K /\ decode_block raw = DOk b /\ b_key b = k.
Definition value_of (K : seen) (q : nat) (v : option bytes) : Prop := exists raw b, (q, raw) ∈ k_raw K /\ decode_block raw = DOk b /\ b_value b = v.
Lemma key_of_mono K K' q k : knows K K' -> key_of K q k -> key_of K' q k.
Proof. intros [H _] (raw & b & H1 & H2). exists raw, b. split; [by apply H|done]. Qed.
Lemma value_of_mono K K' q k : knows K K' -> value_of K q k -> value_of K' q k.
Proof. intros [H _] (raw & b & H1 & H2). exists raw, b. split; [by apply H|done]. Qed.

Lemma tells_get qt K q : tells qt K (blocks_get q) (fun K' e => key_of K' q (e_key e) /\ value_of K' q (e_value e)).
Proof.
  split. intros K1 Q HK HQ. unfold blocks_get. cbn. split.
  - split_and!; [|done..]. intros raw. destruct (decode_block raw) as [| |b] eqn:E; [done..|].
    apply honest_bind. eapply tells_alloc; [apply knows_refl|]. intros K2 ns HK2 _. cbn.
    assert (Hin : (q, raw) ∈ k_raw K2) by (apply HK2; cbn; by left). split; [exists raw; split; [done|by exists b]|].
    apply HQ; [eapply knows_trans; [apply knows_see|done]|]. split; by exists raw, b.
  - intros e raw (b & E & E1 & E2). apply HQ; [apply knows_see|]. split; exists raw, b; cbn; (split; [by left|done]).
Qed.

Lemma tells_append qt K b : tells qt K (blocks_append b) whatever.
Proof. split. intros K1 Q HK HQ. unfold blocks_append. cbn. intros []; cbn; [by apply HQ|done]. Qed.
Lemma tells_mod {B} K n (f : node -> option (B * node)) : tells false K (node_mod n f) whatever.
Proof. split. intros K1 Q HK HQ. unfold node_mod. cbn. split; [done|]. intros nd. destruct (f nd) as [[b nd']|]; cbn; [by apply HQ|done]. Qed.

(** Every program of the library is honest. *)
Lemma built_tells {A} (p : prog A) : built p -> forall K, tells false K p whatever.
Proof.
  induction 1; intros K.
  - by apply tells_ret.
  - apply tells_stop.
  - eapply tells_bind; [by apply IHbuilt|]. intros. apply H1.
  - by eapply tells_catch; [apply IHbuilt|..].
  - apply tells_len.
  - eapply tells_any, tells_get.
  - apply tells_append.
  - apply tells_new.
  - eapply tells_any, tells_node_get.
  - apply tells_mod.
Qed.

(** ** Searching *)
Definition at_node (K : seen) (n : nid) (i q : nat) : Prop := exists nd, (n, nd) ∈ k_nd K /\ n_keys nd !! i = Some q.
Lemma at_node_mono K K' n i q : knows K K' -> at_node K n i q -> at_node K' n i q.
Proof. intros [_ H] (nd & H1 & H2). exists nd. split; [by apply H|done]. Qed.
Lemma tells_key_value qt K n i : tells qt K (get_key_value n i)
  (fun K' kv => key_of K' (kv_seq kv) (kv_key kv) /\ value_of K' (kv_seq kv) (kv_value kv) /\ at_node K' n i (kv_seq kv)).
Proof.
  unfold get_key_value. eapply tells_bind; [apply tells_node_get|]. intros K1 nd HK1 Hnd.
  eapply tells_bind; [apply (tells_unwrap _ _ _ (fun K' q => n_keys nd !! i = Some q)); by intros|]. intros K2 q HK2 Hq.
  eapply tells_bind; [apply tells_get|]. intros K3 e1 HK3 [H1 H2]. eapply tells_bind; [apply tells_get|]. intros K4 e2 HK4 [H3 H4].
  apply tells_ret. intros K5 HK5. cbn. split_and!; [by eapply key_of_mono, key_of_mono, H1|by eapply value_of_mono|].
  exists nd. split; [|done]. apply HK5, HK4, HK3, HK2. done.
Qed.
Lemma tells_num_keys qt K n : tells qt K (num_keys n) whatever.
Proof. unfold num_keys. eapply tells_bind; [apply tells_node_get|]. intros. by apply tells_ret. Qed.
Lemma tells_num_children qt K n : tells qt K (num_children n) whatever.
Proof. unfold num_children. eapply tells_bind; [apply tells_node_get|]. intros. by apply tells_ret. Qed.
Lemma tells_is_leaf qt K n : tells qt K (is_leaf n) whatever.
Proof. unfold is_leaf. eapply tells_bind; [apply tells_num_children|]. intros. by apply tells_ret. Qed.
Lemma tells_child qt K n i : tells qt K (get_child n i) whatever.
Proof.
  unfold get_child, get_tree_node. eapply tells_bind; [apply tells_node_get|]. intros. eapply tells_bind; [by apply (tells_unwrap _ _ _ whatever)|]. intros.
  eapply tells_bind; [apply tells_get|]. intros. by apply tells_unwrap.
Qed.

Definition found (key : limit) (K : seen) (n : nid) (m : option nat) (i : nat) : Prop :=
  match m with Some q => at_node K n i q /\ exists k, key_of K q k /\ limit_eq key k = true | None => True end.
Lemma found_mono key K K' n m i : knows K K' -> found key K n m i -> found key K' n m i.
Proof. destruct m; [|done]. intros HK (H1 & k & H2 & H3). split; [by eapply at_node_mono|]. exists k. split; [by eapply key_of_mono|done]. Qed.

Lemma tells_search qt n key fuel : forall K low high, tells qt K (search_loop fuel n key low high) (fun K' x => found key K' n (fst x) (snd x)).
Proof.
  induction fuel as [|fuel IH]; intros K low high; cbn [search_loop]; [apply tells_stop|].
  destruct (low <=? high)%nat; [|by apply tells_ret]. eapply tells_bind; [apply tells_key_value|]. intros K1 kv HK1 (H1 & H2 & H3).
  destruct (limit_eq key (kv_key kv)) eqn:E.
  - apply tells_ret. intros K2 HK2. cbn. split; [by eapply at_node_mono|]. exists (kv_key kv). split; [by eapply key_of_mono|done].
  - destruct (limit_lt key (kv_key kv)); [|apply IH]. destruct (_ =? 0)%nat; [by apply tells_ret|apply IH].
Qed.
Lemma tells_index qt n key K : tells qt K (get_index_of_key n key) (fun K' x => found key K' n (fst x) (snd x)).
Proof.
  unfold get_index_of_key. eapply tells_bind; [apply tells_num_keys|]. intros K1 nk HK1 _. destruct (nk =? 0)%nat; [by apply tells_ret|apply tells_search].
Qed.
Definition found_path (key : limit) (K : seen) (x : option nat * path) : Prop :=
  fst x = None \/ exists n i p, snd x = (n, i) :: p /\ found key K n (fst x) i.
Lemma tells_nearest_loop qt key fuel : forall K n acc, tells qt K (nearest_loop fuel n key acc) (found_path key).
Proof.
  induction fuel as [|fuel IH]; intros K n acc; cbn [nearest_loop]; [apply tells_stop|].
  eapply tells_bind; [apply tells_index|]. intros K1 [m i] HK1 Hf. cbn in Hf. destruct m as [q|].
  - apply tells_ret. intros K2 HK2. right. exists n, i, acc. split; [done|]. by apply (found_mono _ K1).
  - eapply tells_bind; [apply tells_is_leaf|]. intros K2 leaf HK2 _. destruct leaf; [apply tells_ret; by left|].
    eapply tells_bind; [apply tells_child|]. intros K3 c HK3 _. apply IH.
Qed.
Lemma tells_nearest qt key fuel K n : tells qt K (nearest_node fuel n key) (found_path key).
Proof. apply tells_nearest_loop. Qed.
Lemma tells_root qt K : tells qt K (get_root false) whatever.
Proof.
  unfold get_root, version, get_tree_node. eapply tells_bind; [apply tells_len|]. intros K1 v HK1 _.
  destruct (v <=? 1)%nat; [rewrite andb_false_r; by apply tells_ret|]. eapply tells_bind; [apply tells_get|]. intros.
  eapply tells_bind; [by apply (tells_unwrap _ _ _ whatever)|]. intros. by apply tells_ret.
Qed.

(** ** Replies *)

(** What is known is so in [s]. *)
Record holds (qt : bool) (K : seen) (s : st) : Prop := {
  holds_raw q raw : (q, raw) ∈ k_raw K -> core s !! q = Some raw;
  holds_nd n nd : qt = true -> (n, nd) ∈ k_nd K -> heap s !! n = Some nd }.
Definition proven (qt : bool) (c : call) (K : seen) (r : reply) : Prop := forall s, holds qt K s -> borne_out (core s) qt c r.

Lemma both_hold K s qt q k v : holds qt K s -> key_of K q k -> value_of K q v -> block_holds (core s) q k v.
Proof.
  intros H (r1 & b1 & A1 & A2 & A3) (r2 & b2 & B1 & B2 & B3). apply (holds_raw _ _ _ H) in A1, B1. rewrite A1 in B1. injection B1 as <-.
  rewrite A2 in B2. injection B2 as <-. exists r1, (b_nodes b1). split; [done|]. rewrite A2. destruct b1; cbn in *; by subst.
Qed.
Lemma some_value K s qt q k : holds qt K s -> key_of K q k -> exists v, block_holds (core s) q k v.
Proof. intros H Hk. pose proof Hk as (r1 & b1 & A1 & A2 & A3). exists (b_value b1). eapply both_hold; [done..|]. by exists r1, b1. Qed.
Lemma limit_eq_finite k k' : limit_eq (Finite k) k' = true -> k' = k.
Proof. intros H. apply limit_eq_cmp in H. cbn in H. symmetry. by apply bytes_cmp_eq. Qed.

Lemma bounds_said conf k : in_bounds conf k = true -> above_min conf k = true /\ (below_max conf k = true \/ t_min conf = Finite k).
Proof.
  unfold in_bounds, above_min, below_max. destruct (limit_cmp (t_min conf) k) eqn:E1; [..|done].
  - intros Hi. destruct (t_min conf) as [a| |]; try done. cbn in E1. apply bytes_cmp_eq in E1. subst a. split; [|by right].
    rewrite Hi. rewrite bool_decide_eq_true_2 by done. by rewrite orb_true_r.
  - intros H. split.
    + destruct (t_min conf) as [a| |]; try done. cbn in E1. by apply orb_true_intro; left; apply lexb_blt.
    + left. destruct (t_max conf) as [a| |]; cbn in *; try done. destruct (bytes_cmp a k) eqn:E2; try done.
      * apply bytes_cmp_eq in E2. subst a. rewrite H, bool_decide_eq_true_2 by done. by rewrite orb_true_r.
      * apply orb_true_intro; left. apply lexb_blt. by apply bytes_cmp_gt.
Qed.

Lemma tells_tree_get qt fuel key K : tells qt K (tree_get fuel key) (fun K' r => match r with
  | Some (q, v) => value_of K' q v /\ exists n i q0, at_node K' n i q0 /\ key_of K' q0 key /\ at_node K' n i q
  | None => True end).
Proof.
  unfold tree_get. eapply tells_bind; [apply tells_root|]. intros K1 r HK1 _. destruct r as [root|]; [|by apply tells_ret].
  eapply tells_bind; [apply tells_nearest|]. intros K2 [m p] HK2 Hf. destruct m as [q0|]; [|by apply tells_ret].
  destruct Hf as [Hf|(n & i & p' & Hp & Hf)]; [done|]. cbn in Hp, Hf. subst p. destruct Hf as (H1 & k & H2 & H3).
  apply limit_eq_finite in H3. subst k. cbn [head unwrap pbind].
  eapply tells_bind; [apply tells_key_value|]. intros K3 kv HK3 (H4 & H5 & H6). apply tells_ret. intros K4 HK4. split; [by eapply value_of_mono|].
  exists n, i, q0. split_and!; [by eapply at_node_mono, at_node_mono, H1|by eapply key_of_mono, key_of_mono, H2|by eapply at_node_mono].
Qed.
Lemma proven_get qt fuel key : tells qt (Seen [] []) (tree_get fuel key) (fun K r => proven qt (CGet key) K (RGet r)).
Proof.
  eapply tells_weaken; [apply tells_tree_get|]. intros K [[q v]|] _ H s Hs; [|done]. destruct H as (Hv & n & i & q0 & H1 & H2 & H3). cbn.
  pose proof Hv as (raw & b & B1 & B2 & B3). exists (b_key b). split; [eapply both_hold; [done| |done]; by exists raw, b|].
  intros ->. destruct H1 as (nd & A1 & A2). destruct H3 as (nd' & A3 & A4). apply (holds_nd _ _ _ Hs) in A1, A3; [|done..].
  assert (q0 = q) as -> by congruence. destruct H2 as (raw' & b' & C1 & C2 & C3). apply (holds_raw _ _ _ Hs) in B1, C1. congruence.
Qed.

(** Streams. *)
Definition item_known (conf : config) (K : seen) (x : item * nid) : Prop :=
  match fst x with IOk e => key_of K (kv_seq e) (kv_key e) /\ value_of K (kv_seq e) (kv_value e) /\ in_bounds conf (kv_key e) = true | IErr _ => True end.
Lemma item_mono conf K K' x : knows K K' -> item_known conf K x -> item_known conf K' x.
Proof. destruct x as [[e|] n]; [|done]. intros HK (H1 & H2 & H3). split_and!; [by eapply key_of_mono|by eapply value_of_mono|done]. Qed.
Lemma items_mono conf K K' its : knows K K' -> Forall (item_known conf K) its -> Forall (item_known conf K') its.
Proof. intros HK H. eapply Forall_impl; [done|]. intros x. by apply item_mono. Qed.
Lemma tells_trav_loop qt rec conf n : (forall K c, tells qt K (rec c) (fun K' x => Forall (item_known conf K') (fst x))) -> forall l K,
  tells qt K (trav_loop rec conf n l) (fun K' x => Forall (item_known conf K') (fst x)).
Proof.
  intros Hrec. induction l as [|i l IH]; intros K; cbn [trav_loop]; [apply tells_ret; constructor|]. destruct (Nat.even i).
  - eapply tells_bind; [eapply (tells_catch _ _ _ _ whatever); [apply tells_child|done..]|]. intros K1 [c|e] HK1 _.
    + eapply tells_bind; [apply Hrec|]. intros K2 [its1 b1] HK2 H1. destruct b1; [apply tells_ret; intros; by eapply items_mono|].
      eapply tells_bind; [apply IH|]. intros K3 [its2 b2] HK3 H2. apply tells_ret. intros K4 HK4. cbn in *. apply Forall_app.
      split; [by eapply items_mono, items_mono, H1|by eapply items_mono].
    + eapply tells_bind; [apply IH|]. intros K3 [its2 b2] HK3 H2. apply tells_ret. intros K4 HK4. cbn in *. constructor; [done|by eapply items_mono].
  - eapply tells_bind; [eapply (tells_catch _ _ _ _ (fun K' x => match x with Datatypes.inl kv => key_of K' (kv_seq kv) (kv_key kv) /\ value_of K' (kv_seq kv) (kv_value kv) | _ => True end));
      [apply tells_key_value|..]|].
    + intros K' a _ (H1 & H2 & _). by split.
    + done.
    + intros K1 [kv|e] HK1 H1.
      * destruct (in_bounds conf (kv_key kv)) eqn:E; [|apply tells_ret; constructor]. eapply tells_bind; [apply IH|].
        intros K3 [its2 b2] HK3 H2. apply tells_ret. intros K4 HK4. cbn in *. destruct H1. constructor; [|by eapply items_mono].
        apply (item_mono _ K1); [by eapply knows_trans|]. by split.
      * eapply tells_bind; [apply IH|]. intros K3 [its2 b2] HK3 H2. apply tells_ret. intros K4 HK4. cbn in *. constructor; [done|by eapply items_mono].
Qed.
Lemma tells_trav qt conf fuel : forall K n, tells qt K (trav fuel conf n) (fun K' x => Forall (item_known conf K') (fst x)).
Proof.
  induction fuel as [|fuel IH]; intros K n; cbn [trav]; [apply tells_stop|]. eapply tells_bind; [apply tells_num_keys|]. intros K1 nk HK1 _.
  eapply tells_bind; [apply tells_num_children|]. intros K2 nc HK2 _.
  eapply tells_bind; [eapply (tells_catch _ _ _ whatever whatever); [|done..]|].
  { unfold make_iter. eapply tells_bind; [apply tells_index|]. intros K3 [m i] _ _. by apply tells_ret. }
  intros K3 [idxs|e] HK3 _; [apply tells_trav_loop; intros; apply IH|]. apply tells_ret. intros. by repeat constructor.
Qed.
Lemma proven_traverse qt fuel conf : tells qt (Seen [] []) (tree_traverse fuel conf) (fun K x => proven qt (CTraverse conf) K (RItems (fst x) (snd x))).
Proof.
  unfold tree_traverse. eapply tells_bind; [apply tells_root|]. intros K1 r HK1 _. destruct r as [root|]; [|apply tells_stop].
  eapply tells_bind; [apply tells_trav|]. intros K2 [its b] HK2 H. apply tells_ret. intros K3 HK3 s Hs. cbn in *. intros e He.
  apply elem_of_list_fmap in He as ([it n] & Hit & Hin). cbn in Hit. subst it. rewrite Forall_forall in H. specialize (H _ Hin).
  apply (item_mono _ _ K3) in H; [|done]. destruct H as (H1 & H2 & H3). split; [by eapply both_hold|]. by apply bounds_said.
Qed.

(** Writes. *)
Definition old_known (key : bytes) (K : seen) (old : option nat) : Prop := match old with Some q => key_of K q key | None => True end.
Lemma old_mono key K K' old : knows K K' -> old_known key K old -> old_known key K' old.
Proof. destruct old; [|done]. intros HK H. by eapply key_of_mono. Qed.
Lemma tells_put_cas fuel key value cas K : tells false K (tree_put_cas fuel key value cas) (fun K' x => old_known key K' (fst x)).
Proof.
  unfold tree_put_cas. eapply tells_bind; [apply (built_tells _ (built_get_root true))|]. intros K1 r HK1 _.
  eapply tells_bind; [apply tells_len|]. intros K2 seq HK2 _. cbv zeta. destruct r as [root|].
  - eapply tells_bind; [apply tells_nearest|]. intros K3 [m p] HK3 Hf.
    assert (Hm : old_known key K3 m).
    { destruct m as [q|]; [|done]. destruct Hf as [Hf|(n & i & p' & Hp & _ & k & H2 & H3)]; [done|]. apply limit_eq_finite in H3. by subst k. }
    eapply tells_bind; [apply built_tells; bl|]. intros K4 old HK4 _.
    destruct (cas old _); [|apply tells_ret; intros; eapply old_mono; [|done]; by eapply knows_trans].
    eapply tells_bind; [apply built_tells, built_put_loop|]. intros K5 r HK5 _.
    assert (Hm' : forall K', knows K5 K' -> old_known key K' m).
    { intros K' HK'. eapply old_mono; [|done]. eapply knows_trans; [done|]. by eapply knows_trans. }
    destruct r as [ch|k cs ch].
    + eapply tells_bind; [apply built_tells, built_add_changes|]. intros K6 [] HK6 _. apply tells_ret. intros. apply Hm'. by eapply knows_trans.
    + eapply tells_bind; [apply tells_new|]. intros K6 n HK6 _. destruct (add_node n ch) as [? ch'].
      eapply tells_bind; [apply built_tells, built_add_changes|]. intros K7 [] HK7 _. apply tells_ret. intros. apply Hm'. eapply knows_trans; [done|]. by eapply knows_trans.
  - destruct (cas None _); [|by apply tells_ret]. eapply tells_bind; [apply tells_new|]. intros K6 n HK6 _. destruct (add_node n _) as [? ch'].
    eapply tells_bind; [apply built_tells, built_add_changes|]. intros. by apply tells_ret.
Qed.
Lemma tells_put fuel key value K : tells false K (tree_put fuel key value) (fun K' x => old_known key K' (fst x)).
Proof.
  unfold tree_put. eapply tells_bind; [apply tells_put_cas|]. intros K1 [old new] HK1 H. eapply tells_bind; [by apply (tells_unwrap _ _ _ whatever)|].
  intros K2 n HK2 _. apply tells_ret. intros. cbn in *. eapply old_mono; [|done]. by eapply knows_trans.
Qed.
Lemma tells_del_cas fuel key cas K : tells false K (tree_del_cas fuel key cas) (fun K' x => old_known key K' (snd <$> x)).
Proof.
  unfold tree_del_cas. eapply tells_bind; [apply (built_tells _ (built_get_root false))|]. intros K1 r HK1 _. destruct r as [root|]; [|by apply tells_ret].
  eapply tells_bind; [apply tells_nearest|]. intros K3 [m p] HK3 Hf.
  assert (Hm : old_known key K3 m).
  { destruct m as [q|]; [|done]. destruct Hf as [Hf|(n & i & p' & Hp & _ & k & H2 & H3)]; [done|]. apply limit_eq_finite in H3. by subst k. }
  destruct m as [seq|]; [|by apply tells_ret]. clear Hf.
  assert (Hm' : forall K', knows K3 K' -> forall b : bool, old_known key K' (snd <$> Some (b, seq))).
  { intros K' HK' b. by eapply (old_mono _ _ _ (Some seq)). }
  eapply tells_bind; [by apply (tells_unwrap _ _ _ whatever)|]. intros K4 [n i] HK4 _. eapply tells_bind; [apply tells_key_value|]. intros K5 kv HK5 _.
  assert (HK35 : knows K3 K5) by (by eapply knows_trans). clear HK4 HK5.
  destruct (cas kv); [|apply tells_ret; intros; apply Hm'; by eapply knows_trans].
  assert (HR : forall (B : Type) (p' : prog B), built p' -> forall K', knows K3 K' -> tells false K' (pbind p' (fun _ => Ret (Some (true, seq)))) (fun K' x => old_known key K' (snd <$> x))).
  { intros B p' Hb K' HK'. eapply tells_bind; [by apply built_tells|]. intros K6 b HK6 _. apply tells_ret. intros. apply Hm'. eapply knows_trans; [done|]. by eapply knows_trans. }
  eapply tells_bind; [apply tells_len|]. intros K6 v HK6 _. cbv zeta.
  eapply tells_bind; [by apply (tells_unwrap _ _ _ whatever)|]. intros K7 [cur ci] HK7 _.
  eapply tells_bind; [apply tells_mod|]. intros K8 ? HK8 _. eapply tells_bind; [apply tells_is_leaf|]. intros K9 leaf HK9 _.
  eapply tells_bind; [apply built_tells; bl|]. intros K10 p2 HK10 _.
  eapply tells_bind; [by apply (tells_unwrap _ _ _ whatever)|]. intros K11 [bottom ?] HK11 _.
  eapply tells_bind; [apply tells_num_keys|]. intros K12 nk HK12 _.
  eapply tells_bind; [apply built_tells; unfold repair; bl|]. intros K13 [[child p4] ch'] HK13 _.
  eapply tells_bind; [apply built_tells, built_propagate|]. intros K14 ch'' HK14 _. apply HR; [apply built_add_changes|].
  eapply knows_trans; [exact HK35|]. repeat (eapply knows_trans; [eassumption|]). apply knows_refl.
Qed.
Lemma tells_del fuel key K : tells false K (tree_del fuel key) (fun K' x => old_known key K' x).
Proof.
  unfold tree_del. eapply tells_bind; [apply tells_del_cas|]. intros K1 [[[] q]|] HK1 H; [|apply tells_stop|by apply tells_ret].
  apply tells_ret. intros. by eapply (old_mono _ _ _ (Some q)).
Qed.

Lemma old_value qt K s key q : holds qt K s -> old_known key K (Some q) -> exists v, block_holds (core s) q key v.
Proof. apply some_value. Qed.
Lemma proven_call qt fuel c : (qt = true -> reads_only c) -> tells qt (Seen [] []) (call_prog fuel c) (proven qt c).
Proof.
  intros Hq. destruct c as [k|k v|k v f|k|k f| |md|conf]; cbn [call_prog]; try (destruct qt; [by destruct (Hq eq_refl)|]; clear Hq).
  - eapply tells_bind; [apply proven_get|]. intros K1 r _ H. apply tells_ret. intros K2 HK2 s Hs. apply H. destruct Hs as [H1 H2].
    split; [intros; apply H1; by apply HK2|intros; apply H2; [done|]; by apply HK2].
  - eapply tells_bind; [apply tells_put|]. intros K1 [old new] _ H. apply tells_ret. intros K2 HK2 s Hs. cbn in *. destruct old as [q|]; [|done].
    eapply old_value; [done|]. by eapply (old_mono _ _ _ (Some q)).
  - eapply tells_bind; [apply tells_put_cas|]. intros K1 [old new] _ H. apply tells_ret. intros K2 HK2 s Hs. cbn in *. destruct old as [q|]; [|done].
    eapply old_value; [done|]. by eapply (old_mono _ _ _ (Some q)).
  - eapply tells_bind; [apply tells_del|]. intros K1 old _ H. apply tells_ret. intros K2 HK2 s Hs. cbn in *. destruct old as [q|]; [|done].
    eapply old_value; [done|]. by eapply (old_mono _ _ _ (Some q)).
  - eapply tells_bind; [apply tells_del_cas|]. intros K1 [[b q]|] _ H; apply tells_ret; intros K2 HK2 s Hs; cbn in *; [|done].
    eapply old_value; [done|]. by eapply (old_mono _ _ _ (Some q)).
  - eapply tells_bind; [apply tells_len|]. intros. by apply tells_ret.
  - eapply tells_bind; [apply built_tells, built_create_header|]. intros. by apply tells_ret.
  - eapply tells_bind; [apply proven_traverse|]. intros K1 [its b] _ H. apply tells_ret. intros K2 HK2 s Hs. apply H. destruct Hs as [H1 H2].
    split; [intros; apply H1; by apply HK2|intros; apply H2; [done|]; by apply HK2].
Qed.
Lemma proven_api qt fuel c : (qt = true -> reads_only c) -> tells qt (Seen [] []) (api fuel c) (proven qt c).
Proof.
  intros Hq. unfold api. eapply tells_bind; [eapply (tells_catch _ _ _ _ (fun K x => match x with Datatypes.inl r => proven qt c K r | _ => True end)); [by apply proven_call|done..]|].
  intros K1 [r|e] _ H; apply tells_ret; intros K2 HK2 s Hs; [|by destruct c]. apply H. destruct Hs as [H1 H2].
  split; [intros; apply H1; by apply HK2|intros; apply H2; [done|]; by apply HK2].
Qed.

(** ** Runs *)
Definition cache_true (C : list bytes) (ca : gmap nat entry) : Prop := forall q e, ca !! q = Some e -> exists raw, C !! q = Some raw /\ taken raw e.
Lemma cache_true_grow C C' ca : C `prefix_of` C' -> cache_true C ca -> cache_true C' ca.
Proof. intros HC H q e E. destruct (H q e E) as (raw & H1 & H2). exists raw. split; [by eapply prefix_lookup|done]. Qed.
Lemma holds_grow qt K s s' : core s `prefix_of` core s' -> (qt = true -> heap s `prefix_of` heap s') -> holds qt K s -> holds qt K s'.
Proof. intros H1 H2 [H3 H4]. split; [intros; eapply prefix_lookup; eauto|intros; eapply prefix_lookup; eauto]. Qed.
Record onward (qt : bool) (s s' : st) : Prop := {
  on_core : core s `prefix_of` core s'; on_heap : qt = true -> heap s `prefix_of` heap s'; on_cache : cache_true (core s') (cache s') }.

Lemma honest_step {A} qt K (p : prog A) Q s : honest qt K p Q -> holds qt K s -> cache_true (core s) (cache s) ->
  exists K', honest qt K' (fst (step p s)) Q /\ holds qt K' (snd (step p s)) /\ onward qt s (snd (step p s)).
Proof.
  intros Hp Hs Hc. assert (Hrefl : onward qt s s) by done. destruct p as [a|x|k|q k|b k|q k|q e k|nd k|n k|n f k]; cbn [step]; try (exists K; by split_and!).
  - exists K. split; [by apply Hp|done].
  - unfold exec_get. destruct Hp as (H1 & H2 & H3).
    assert (H : exists K', honest qt K' (k (GOk (core s !! q))) Q /\ holds qt K' s).
    { destruct (core s !! q) as [raw|] eqn:E; [|by exists K]. exists (see q raw K). split; [done|]. destruct Hs as [A1 A2]. split; [|done].
      intros q' raw' [E'|Hin]%elem_of_cons; [by injection E' as -> ->|by apply A1]. }
    destruct H as (K' & H4 & H5). destruct (oracle s) as [|[] o]; cbn; first [by exists K'|by exists K|(exists K'; split; [done|]; split; [by destruct H5; split|by split])|(exists K; split; [done|]; split; [by destruct Hs; split|by split])].
  - exists K. unfold exec_append.
    assert (HA : holds qt K (set_core s (core s ++ [b]))) by (apply (holds_grow _ _ s); cbn; [by apply prefix_app_r|done|done]).
    assert (HB : cache_true (core s ++ [b]) (cache s)) by (by eapply cache_true_grow; [apply prefix_app_r|]).
    assert (HP : core s `prefix_of` core s ++ [b]) by (by apply prefix_app_r).
    destruct (oracle s) as [|[] o]; cbn; (split; [by apply Hp|]); (split; [destruct HA, Hs; by split|]); by split.
  - destruct Hp as [H1 H2]. destruct (cache s !! q) as [e|] eqn:E; [|by exists K]. destruct (Hc q e E) as (raw & A1 & A2).
    exists (see q raw K). split; [by apply H2|]. split; [|done]. destruct Hs as [B1 B2]. split; [|done].
    intros q' raw' [E'|Hin]%elem_of_cons; [by injection E' as -> ->|by apply B1].
  - destruct Hp as [(raw & H1 & H2) H3]. exists K. split; [done|]. split; [by destruct Hs; split|]. split; cbn; try done.
    intros q' e' [[<- <-]|[Hne E]]%lookup_insert_Some; [|by apply Hc]. exists raw. split; [by apply (holds_raw _ _ _ Hs)|done].
  - exists K. split; [apply Hp|]. split; [|split; cbn; try done; intros; by apply prefix_app_r]. apply (holds_grow _ _ s); cbn; [done|intros; by apply prefix_app_r|done].
  - destruct (heap s !! n) as [nd|] eqn:E; [|by exists K]. exists (see_node n nd K). split; [apply Hp|]. split; [|done]. destruct Hs as [B1 B2]. split; [done|].
    intros n' nd' Hq [E'|Hin]%elem_of_cons; [by injection E' as -> ->|by apply B2].
  - destruct Hp as [-> Hp]. destruct (heap s !! n) as [nd|] eqn:E; [|by exists K]. destruct (f nd) as [nd'|]; [|by exists K].
    exists K. split; [apply Hp|]. split; [by destruct Hs; split|]. by split.
Qed.

Lemma onward_trans qt s1 s2 s3 : onward qt s1 s2 -> onward qt s2 s3 -> onward qt s1 s3.
Proof.
  intros [A1 A2 A3] [B1 B2 B3]. split; [by etrans| |done]. intros Hq. specialize (A2 Hq). specialize (B2 Hq). by etrans.
Qed.

(** One command after the other. *)
Lemma honest_run {A} qt (p : prog A) : forall K Q s, honest qt K p Q -> holds qt K s -> cache_true (core s) (cache s) ->
  onward qt s (snd (run p s)) /\ forall a, fst (run p s) = Datatypes.inl a -> exists K', Q K' a /\ holds qt K' (snd (run p s)).
Proof.
  induction p as [a|x|k IH|q k IH|b k IH|q k IH|q e k IH|nd k IH|n k IH|n f k IH]; intros K Q s Hp Hs Hc;
    destruct (honest_step _ _ _ _ _ Hp Hs Hc) as (K' & H1 & H2 & H3); cbn [step run] in *.
  - split; [done|]. intros a' [= <-]. by exists K.
  - by split.
  - eapply IH; eauto.
  - destruct (exec_get q s) as [r s']. cbn in *. destruct (IH r K' Q s' H1 H2 (on_cache _ _ _ H3)) as [I1 I2]. split; [by eapply onward_trans|done].
  - destruct (exec_append b s) as [r s']. cbn in *. destruct (IH r K' Q s' H1 H2 (on_cache _ _ _ H3)) as [I1 I2]. split; [by eapply onward_trans|done].
  - eapply IH; eauto.
  - destruct (IH K' Q _ H1 H2 (on_cache _ _ _ H3)) as [I1 I2]. split; [by eapply onward_trans|done].
  - destruct (IH _ K' Q _ H1 H2 (on_cache _ _ _ H3)) as [I1 I2]. split; [by eapply onward_trans|done].
  - destruct (heap s !! n) as [nd|]; [|by split]. eapply IH; eauto.
  - destruct (heap s !! n) as [nd|]; [|by split]. destruct (f nd) as [nd'|]; [|by split].
    destruct (IH _ K' Q _ H1 H2 (on_cache _ _ _ H3)) as [I1 I2]. split; [by eapply onward_trans|done].
Qed.
Lemma honest_upto {A} qt k : forall (p : prog A) K Q s, honest qt K p Q -> holds qt K s -> cache_true (core s) (cache s) ->
  onward qt s (snd (run_upto k p s)).
Proof.
  induction k as [|k IH]; intros p K Q s Hp Hs Hc; cbn [run_upto]; [done|].
  destruct (honest_step _ _ _ _ _ Hp Hs Hc) as (K' & H1 & H2 & H3). destruct (step p s) as [p' s']. cbn in *.
  eapply onward_trans; [done|]. by eapply (IH p' K' Q s' H1 H2 (on_cache _ _ _ H3)).
Qed.

Definition world_true (w : world) : Prop := forall i, cache_true (w_core w) (h_cache (w_handles w i)).
Definition on_track (qt : bool) (w : world) (Q : seen -> reply -> Prop) (t : thread) : Prop :=
  exists K, honest qt K (th_prog t) Q /\ holds qt K (view w (th_handle t) (th_faults t)).
Lemma commit_true w i o s : world_true w -> onward false (view w i o) s -> world_true (commit_view w i s).
Proof.
  intros Hw [H1 _ H3] j. cbn. unfold set_handle. destruct (j =? i)%nat; cbn; [done|]. eapply cache_true_grow; [apply H1|apply Hw].
Qed.
Lemma onward_false qt s s' : onward qt s s' -> onward false s s'.
Proof. intros []. by split. Qed.
Lemma other_on_track (qs : nat -> bool) w i o s Q t : onward (qs i) (view w i o) s -> on_track (qs (th_handle t)) w Q t -> on_track (qs (th_handle t)) (commit_view w i s) Q t.
Proof.
  intros [H1 H2 H3] (K & HK1 & HK2). exists K. split; [done|]. eapply holds_grow; [| |apply HK2]; cbn; [done|].
  intros Hq. unfold set_handle. destruct (th_handle t =? i)%nat eqn:E; cbn; [|done]. apply Nat.eqb_eq in E. subst i. by apply H2.
Qed.
(** [qs i]: only reads on handle [i]. *)
Definition all_on_track (qs : nat -> bool) (w : world) : list (seen -> reply -> Prop) -> list thread -> Prop :=
  Forall2 (fun Q t => on_track (qs (th_handle t)) w Q t).
Lemma tasks_true qs sched : forall ts Qs w, world_true w -> all_on_track qs w Qs ts ->
  world_true (snd (tasks_run sched ts w)) /\ all_on_track qs (snd (tasks_run sched ts w)) Qs (fst (tasks_run sched ts w)).
Proof.
  induction sched as [|j sched IH]; intros ts Qs w Hw Ht; cbn [tasks_run]; [done|].
  destruct (ts !! j) as [t|] eqn:Et; [|by apply IH]. unfold thread_step.
  destruct (Forall2_lookup_r _ _ _ _ _ Ht Et) as (Q & EQ & K & H1 & H2).
  destruct (honest_step _ _ _ _ _ H1 H2 (Hw _)) as (K' & H3 & H4 & H5).
  destruct (step (th_prog t) (view w (th_handle t) (th_faults t))) as [p s] eqn:Es. cbn in H3, H4, H5.
  apply IH; [eapply commit_true; [done|by eapply onward_false]|].
  rewrite <- (list_insert_id _ _ _ EQ). apply Forall2_insert.
  - eapply Forall2_impl; [done|]. intros Q' t' Hq. by eapply other_on_track.
  - exists K'. split; [done|]. cbn. destruct H4 as [A1 A2]. split; cbn; [done|]. unfold set_handle. rewrite Nat.eqb_refl. done.
Qed.
Lemma task_on_track qt fuel w x : (qt = true -> reads_only (snd (fst x))) -> on_track qt w (proven qt (snd (fst x))) (task fuel x).
Proof.
  intros Hq. destruct x as [[i c] o]. exists (Seen [] []). cbn in *. split; [|split; cbn; [intros ? ? ?%elem_of_nil|intros ? ? ? ?%elem_of_nil]; done].
  eapply tells_honest; [by apply proven_api|apply knows_refl|done].
Qed.
Lemma tasks_on_track qs fuel w xs : Forall (fun x => qs (fst (fst x)) = true -> reads_only (snd (fst x))) xs ->
  all_on_track qs w (map (fun x => proven (qs (fst (fst x))) (snd (fst x))) xs) (map (task fuel) xs).
Proof.
  intros Hq. apply Forall2_fmap, Forall_Forall2_diag. eapply Forall_impl; [done|]. intros [[i c] o] Hx. by apply task_on_track.
Qed.
Definition noisy (i : nat) : bool := false.
Lemma tasks_noisy fuel w xs : all_on_track noisy w (map (fun x => proven false (snd (fst x))) xs) (map (task fuel) xs).
Proof. apply (tasks_on_track noisy). by apply Forall_true. Qed.
Lemma tasks_handles sched : forall ts w, map th_handle (fst (tasks_run sched ts w)) = map th_handle ts.
Proof.
  induction sched as [|j sched IH]; intros ts w; cbn [tasks_run]; [done|]. destruct (ts !! j) as [t|] eqn:Et; [|apply IH]. unfold thread_step.
  destruct (step (th_prog t) (view w (th_handle t) (th_faults t))) as [p s]. rewrite IH. rewrite list_fmap_insert. cbn.
  apply list_insert_id. by rewrite list_lookup_fmap, Et.
Qed.
Lemma api_honest qt fuel c : (qt = true -> reads_only c) -> honest qt (Seen [] []) (api fuel c) (proven qt c).
Proof. intros Hq. eapply tells_honest; [by apply proven_api|apply knows_refl|done]. Qed.
Lemma nothing_holds qt s : holds qt (Seen [] []) s.
Proof. split; cbn; [intros ? ? ?%elem_of_nil|intros ? ? ? ?%elem_of_nil]; done. Qed.
Lemma call_true fuel i c o w : world_true w -> world_true (snd (do_call fuel i c o w)) /\
  forall r, fst (do_call fuel i c o w) = Datatypes.inl r -> exists qt, (qt = false -> ~ reads_only c) /\ borne_out (w_core (snd (do_call fuel i c o w))) qt c r.
Proof.
  intros Hw. assert (Hd : exists qt, (qt = true -> reads_only c) /\ (qt = false -> ~ reads_only c)).
  { destruct c; first [exists true; split; [by cbn|done]|exists false; split; [done|intros _ []]]. }
  destruct Hd as (qt & Hq1 & Hq2). unfold do_call.
  destruct (honest_run qt (api fuel c) _ _ (view w i o) (api_honest qt fuel c Hq1) (nothing_holds _ _) (Hw i)) as [H1 H2].
  destruct (run (api fuel c) (view w i o)) as [r s]. cbn in *. split; [eapply commit_true; [done|by eapply onward_false]|].
  intros r' ->. destruct (H2 r' eq_refl) as (K & HK1 & HK2). exists qt. split; [done|]. by apply HK1.
Qed.
Lemma busy_true fuel i c o xs sched w : world_true w -> world_true (snd (do_busy fuel i c o xs sched w)).
Proof.
  intros Hw. unfold do_busy. destruct (tasks_true noisy sched (map (task fuel) ((i, c, o) :: xs)) _ w Hw (tasks_noisy fuel w ((i, c, o) :: xs))) as [H1 H2].
  destruct (tasks_run sched _ w) as [ts w1]. cbn [fst snd] in H1, H2. destruct (ts !! 0) as [th|] eqn:Et; [|done].
  destruct (Forall2_lookup_r _ _ _ _ _ H2 Et) as (Q & EQ & K & H3 & H4). 
  destruct (honest_run false (th_prog th) K Q (view w1 i (th_faults th)) H3) as [H5 _].
  - destruct H4 as [A1 A2]. by split.
  - apply H1.
  - destruct (run (th_prog th) (view w1 i (th_faults th))) as [r s]. cbn in *. by eapply commit_true.
Qed.
Lemma play_true fuel l : forall w, world_true w -> world_true (snd (play fuel l w)).
Proof.
  induction l as [|e l IH]; intros w Hw; cbn [play]; [done|]. destruct e as [i c o|i|i c o k|xs sched|i c o xs sched].
  - destruct (call_true fuel i c o w Hw) as [H _]. destruct (do_call fuel i c o w) as [r w1]. cbn in H. specialize (IH _ H). by destruct (play fuel l w1).
  - apply IH. intros j. cbn. unfold set_handle. destruct (j =? i)%nat; cbn; [|apply Hw]. intros q e. by rewrite lookup_empty.
  - apply IH. eapply commit_true; [done|]. eapply (honest_upto false); [by apply (api_honest false)|apply nothing_holds|apply Hw].
  - apply IH. eapply (tasks_true noisy); [done|apply tasks_noisy].
  - pose proof (busy_true fuel i c o xs sched w Hw) as H. destruct (do_busy fuel i c o xs sched w) as [r w1]. cbn in H. specialize (IH _ H). by destruct (play fuel l w1).
Qed.
Lemma new_true C : world_true (new_world C).
Proof. intros i q e. cbn. by rewrite lookup_empty. Qed.

(** ** Theorems *)
Lemma alone_borne_out fuel C l i c o r w : do_call fuel i c o (snd (play fuel l (new_world C))) = (Datatypes.inl r, w) -> borne_out (w_core w) true c r.
Proof.
  intros E. destruct (call_true fuel i c o _ (play_true fuel l _ (new_true C))) as [_ H]. rewrite E in H. destruct (H r eq_refl) as (qt & H1 & H2). cbn in H2.
  destruct qt; [done|]. by destruct c; cbn in *; try (exfalso; by apply H1).
Qed.
Lemma tasks_borne_out fuel C l xs sched ts w qs : Forall (fun x => qs (fst (fst x)) = true -> reads_only (snd (fst x))) xs ->
  tasks_run sched (map (task fuel) xs) (snd (play fuel l (new_world C))) = (ts, w) ->
  forall j i c o i' o' r, xs !! j = Some (i, c, o) -> ts !! j = Some (Thread i' (Ret r) o') -> borne_out (w_core w) (qs i) c r.
Proof.
  intros Hq E j i c o i' o' r Hx Ht. destruct (tasks_true qs sched _ _ _ (play_true fuel l _ (new_true C)) (tasks_on_track qs fuel _ xs Hq)) as [_ H].
  pose proof (tasks_handles sched (map (task fuel) xs) (snd (play fuel l (new_world C)))) as HH.
  rewrite E in H, HH. cbn in H, HH. destruct (Forall2_lookup_r _ _ _ _ _ H Ht) as (Q & EQ & K & H1 & H2). rewrite list_lookup_fmap, Hx in EQ. injection EQ as <-.
  assert (i' = i) as ->.
  { apply (f_equal (.!! j)) in HH. rewrite !list_lookup_fmap, Ht, Hx in HH. cbn in HH. congruence. }
  cbn in *. apply (H1 _ H2).
Qed.
