(** What can be seen while one write is under way, or after it was given up: old
    entries and the one being put. *)
From Coq.Strings Require Import Byte.
From Coq Require Import Lia.
From stdpp Require Import prelude gmap.
From Verif Require Import Bytes Codec CodecProofs Model Order Wp Store Tree MutTop Spec OrderProofs Client Abs Api Hist Main Threads Truth Thin.

Local Arguments decode_block : simpl never.
Local Arguments enc_header : simpl never.
Local Arguments encode_block : simpl never.

(** ** What a program has come to know: sound nodes, and contents of nodes *)
Record known := Known { k_ok : nid -> Prop; k_at : gmap nid node; k_done : bool }.
Definition le (K K' : known) : Prop := (forall n, k_ok K n -> k_ok K' n) /\ k_done K' = k_done K.
Lemma le_refl K : le K K.
Proof. done. Qed.
Lemma le_trans K1 K2 K3 : le K1 K2 -> le K2 K3 -> le K1 K3.
Proof. intros [A1 A2] [B1 B2]. split; [auto|congruence]. Qed.

Section flow.
  (** The entries and the nodes of interest, and the number of the next block. *)
  Context (E : nat -> Prop) (R : ref -> Prop) (N : nat).
  Definition good (nd : node) : Prop := Forall E (n_keys nd) /\ Forall R (n_children nd).
  Definition raw_good (q : nat) (raw : bytes) : Prop := forall b, decode_block raw = DOk b -> forall j nd, R (q, j) -> b_nodes b !! j = Some nd -> good nd.
  Definition new_good (raw : bytes) : Prop := u64 (blen raw) -> forall b, decode_block raw = DOk b -> Forall good (b_nodes b).

  Definition with_entry (q : nat) (e : entry) (K : known) : known :=
    Known (fun n => k_ok K n \/ exists j, R (q, j) /\ e_nodes e !! j = Some n) (k_at K) (k_done K).
  Definition with_new (n : nid) (nd : node) (K : known) : known := Known (fun m => k_ok K m \/ m = n /\ good nd) (k_at K) (k_done K).
  (** Only the writer can rely on contents. *)
  Definition learn (wr : bool) (n : nid) (nd : node) (K : known) : known := if wr then Known (k_ok K) (<[n := nd]> (k_at K)) (k_done K) else K.
  Definition finished (K : known) : known := Known (k_ok K) (k_at K) true.
  Definition may_be (K : known) (n : nid) (nd : node) : Prop := (k_ok K n -> good nd) /\ forall nd0, k_at K !! n = Some nd0 -> nd = nd0.
  Definition len_may_be (wr : bool) (K : known) (v : nat) : Prop := if wr then k_done K = false -> v = N else v = N \/ v = S N.

  (** [wr]: this is the writer. *)
  Fixpoint flow {A} (wr : bool) (K : known) (p : prog A) (Q : known -> A -> Prop) : Prop :=
    match p with
    | Ret a => Q K a
    | Stop _ => True
    | CoreLen k => forall v, len_may_be wr K v -> flow wr K (k v) Q
    | CoreGet q k => (forall raw, raw_good q raw -> flow wr K (k (GOk (Some raw))) Q) /\ flow wr K (k (GOk None)) Q /\ flow wr K (k GErr) Q
    | CoreAppend b k => wr = true /\ k_done K = false /\ new_good b /\ forall v, flow wr (finished K) (k v) Q
    | CacheGet q k => flow wr K (k None) Q /\ forall e, flow wr (with_entry q e K) (k (Some e)) Q
    | CachePut q e k => (forall j n, R (q, j) -> e_nodes e !! j = Some n -> k_ok K n) /\ flow wr K k Q
    | NodeNew nd k => forall n, flow wr (with_new n nd K) (k n) Q
    | NodeGet n k => forall nd, may_be K n nd -> flow wr (learn wr n nd K) (k nd) Q
    | NodeUpd n f k => wr = true /\ k_ok K n /\ forall nd nd', may_be K n nd -> f nd = Some nd' -> good nd' /\ flow wr (learn wr n nd' K) (k nd) Q
    end.

  Lemma le_entry q e K : le K (with_entry q e K).
  Proof. split; [cbn; by left|done]. Qed.
  Lemma le_new n nd K : le K (with_new n nd K).
  Proof. split; [cbn; by left|done]. Qed.
  Lemma le_learn wr n nd K : le K (learn wr n nd K).
  Proof. by destruct wr. Qed.

  Lemma flow_bind {A B} wr (p : prog A) (f : A -> prog B) Q : forall K, flow wr K p (fun K' a => flow wr K' (f a) Q) -> flow wr K (pbind p f) Q.
  Proof.
    induction p as [a|x|k IH|q k IH|b k IH|q k IH|q e k IH|nd k IH|n k IH|n g k IH]; intros K H; cbn in *; try tauto; eauto; try naive_solver.
    destruct H as (H1 & H2 & H3). split_and!; [done..|]. intros nd nd' M1 M2. destruct (H3 nd nd' M1 M2). eauto.
  Qed.
  (** Whatever is learnt before an [Err] does not matter here. *)
  Lemma flow_catch {A} wr (p : prog A) (Q : known -> A + err -> Prop) : forall K,
    flow wr K p (fun K' a => Q K' (Datatypes.inl a)) -> (forall K' e, Q K' (Datatypes.inr e)) -> flow wr K (catch p) Q.
  Proof.
    induction p as [a|x|k IH|q k IH|b k IH|q k IH|q e k IH|nd k IH|n k IH|n g k IH]; intros K H HQ; cbn in *; eauto; try naive_solver.
    - destruct x; cbn; eauto.
    - destruct H as (H1 & H2 & H3). split_and!; [done..|]. intros nd nd' M1 M2. destruct (H3 nd nd' M1 M2). eauto.
  Qed.
  (** Without an append, nothing known is lost. *)
  Fixpoint no_append {A} (p : prog A) : Prop :=
    match p with
    | Ret _ | Stop _ => True
    | CoreLen k => forall v, no_append (k v)
    | CoreGet _ k => forall v, no_append (k v)
    | CoreAppend _ _ => False
    | CacheGet _ k => forall v, no_append (k v)
    | CachePut _ _ k => no_append k
    | NodeNew _ k => forall v, no_append (k v)
    | NodeGet _ k => forall v, no_append (k v)
    | NodeUpd _ _ k => forall v, no_append (k v)
    end.

  (** From [K] on, [p] comes to know [P] (and appends nothing). *)
  Record flows {A} (wr : bool) (K : known) (p : prog A) (P : known -> A -> Prop) : Prop := Flows {
    flows_flow : forall K1 (Q : known -> A -> Prop), le K K1 -> (forall K2 a, le K1 K2 -> P K2 a -> Q K2 a) -> flow wr K1 p Q }.
  Definition anyhow {A} (_ : known) (_ : A) : Prop := True.

  Lemma flows_bind {A B} wr K (p : prog A) (f : A -> prog B) P P' :
    flows wr K p P -> (forall K' a, le K K' -> P K' a -> flows wr K' (f a) P') -> flows wr K (pbind p f) P'.
  Proof.
    intros Hp Hf. split. intros K1 Q HK HQ. apply flow_bind, Hp; [done|]. intros K2 a HK2 HP.
    apply (Hf K2 a); [by eapply le_trans|done|apply le_refl|]. intros K3 b HK3 HP3. apply HQ; [by eapply le_trans|done].
  Qed.
  Lemma flows_use {A B} wr K (p : prog A) (f : A -> prog B) P Q :
    flows wr K p P -> (forall K' a, le K K' -> P K' a -> flow wr K' (f a) Q) -> flow wr K (pbind p f) Q.
  Proof. intros Hp Hf. apply flow_bind, Hp; [apply le_refl|]. intros. by apply Hf. Qed.
  Lemma flows_ret {A} wr K (a : A) (P : known -> A -> Prop) : (forall K', le K K' -> P K' a) -> flows wr K (Ret a) P.
  Proof. intros H. split. intros K1 Q HK HQ. apply HQ; [done|]. by apply H. Qed.
  Lemma flows_stop {A} wr K x (P : known -> A -> Prop) : flows wr K (Stop x) P.
  Proof. by split. Qed.
  Lemma flows_weaken {A} wr K (p : prog A) (P P' : known -> A -> Prop) : flows wr K p P -> (forall K' a, le K K' -> P K' a -> P' K' a) -> flows wr K p P'.
  Proof. intros Hp H. split. intros K1 Q HK HQ. apply Hp; [done|]. intros K2 a HK2 HP. apply HQ; [done|]. apply H; [by eapply le_trans|done]. Qed.
  Lemma flows_any {A} wr K (p : prog A) P : flows wr K p P -> flows wr K p anyhow.
  Proof. intros H. by eapply flows_weaken. Qed.
  Lemma flows_le {A} wr K K' (p : prog A) P : le K K' -> flows wr K p P -> flows wr K' p P.
  Proof. intros HK H. split. intros K1 Q HK1 HQ. apply H; [by eapply le_trans|done]. Qed.
  Lemma flows_unwrap {A} wr K (o : option A) (P : known -> A -> Prop) : (forall a K', o = Some a -> le K K' -> P K' a) -> flows wr K (unwrap o) P.
  Proof. intros H. destruct o; [apply flows_ret; intros; by apply H|apply flows_stop]. Qed.
  (** [catch] keeps what [p] came to know only when there is no [Err]. *)
  Lemma flow_catch_le {A} wr (p : prog A) (Q : known -> A + err -> Prop) : no_append p -> forall K,
    flow wr K p (fun K' a => Q K' (Datatypes.inl a)) -> (forall K' e, le K K' -> Q K' (Datatypes.inr e)) -> flow wr K (catch p) Q.
  Proof.
    induction p as [a|x|k IH|q k IH|b k IH|q k IH|q e k IH|nd k IH|n k IH|n g k IH]; intros Ha K H HQ; cbn in *; eauto; try done.
    - destruct x; cbn; eauto using le_refl.
    - destruct H as (H1 & H2 & H3). split_and!; eauto.
    - destruct H as [H1 H2]. split; eauto. intros e. apply IH; [done|apply H2|]. intros K' x Hx. apply HQ. eapply le_trans; [apply le_entry|done].
    - destruct H. eauto.
    - intros n. apply IH; [done|apply H|]. intros K' x Hx. apply HQ. eapply le_trans; [apply le_new|done].
    - intros nd Hm. apply IH; [done|by apply H|]. intros K' x Hx. apply HQ. eapply le_trans; [apply le_learn|done].
    - destruct H as (H1 & H2 & H3). split_and!; [done..|]. intros nd nd' M1 M2. destruct (H3 nd nd' M1 M2) as [H4 H5]. split; [done|]. apply IH; [done..|].
      intros K' x Hx. apply HQ. eapply le_trans; [apply le_learn|done].
  Qed.
  Lemma flows_catch {A} wr K (p : prog A) (P : known -> A -> Prop) (P' : known -> A + err -> Prop) : no_append p -> flows wr K p P ->
    (forall K' a, le K K' -> P K' a -> P' K' (Datatypes.inl a)) -> (forall K' e, le K K' -> P' K' (Datatypes.inr e)) -> flows wr K (catch p) P'.
  Proof.
    intros Ha Hp H1 H2. split. intros K1 Q HK HQ. apply flow_catch_le; [done|..].
    - apply Hp; [done|]. intros K2 a HK2 HP. apply HQ; [done|]. apply H1; [by eapply le_trans|done].
    - intros K2 e HK2. apply HQ; [done|]. apply H2. by eapply le_trans.
  Qed.

  (** ** Reading *)
  Lemma flows_node_get wr K n : k_ok K n -> flows wr K (node_get n) (fun _ nd => good nd).
  Proof. intros Hn. split. intros K1 Q HK HQ nd [Hm _]. apply HQ; [apply le_learn|]. apply Hm. by apply HK. Qed.
  Lemma flows_node_any wr K n : flows wr K (node_get n) anyhow.
  Proof. split. intros K1 Q HK HQ nd Hm. apply HQ; [apply le_learn|done]. Qed.
  Lemma flows_len wr K : flows wr K core_len (fun K' v => len_may_be wr K v).
  Proof. split. intros K1 Q HK HQ v Hv. apply HQ; [apply le_refl|]. unfold len_may_be in *. destruct HK as [_ HK]. by rewrite HK in Hv. Qed.
  Lemma flows_new wr K nd : good nd -> flows wr K (node_new nd) (fun K' n => k_ok K' n).
  Proof. intros Hg. split. intros K1 Q HK HQ n. apply HQ; [apply le_new|]. cbn. by right. Qed.
  Lemma flows_alloc wr nds : forall K, flows wr K (alloc_all nds) (fun K' ns => forall j n, ns !! j = Some n -> exists nd, nds !! j = Some nd /\ (good nd -> k_ok K' n)).
  Proof.
    induction nds as [|nd nds IH]; intros K; cbn [alloc_all]; [by apply flows_ret|].
    eapply (flows_bind _ _ _ _ (fun K' n => good nd -> k_ok K' n)).
    { split. intros K1 Q HK HQ n. apply HQ; [apply le_new|]. cbn. by right. }
    intros K1 n HK1 Hn. eapply flows_bind; [apply IH|]. intros K2 ns HK2 Hns. apply flows_ret. intros K3 HK3 [|j] m; cbn.
    - intros [= <-]. exists nd. split; [done|]. intros Hg. by apply HK3, HK2, Hn.
    - intros Hj. destruct (Hns j m Hj) as (nd' & A1 & A2). exists nd'. split; [done|]. intros Hg. by apply HK3, A2.
  Qed.
  Definition entry_good (q : nat) (K : known) (e : entry) : Prop := forall j n, R (q, j) -> e_nodes e !! j = Some n -> k_ok K n.
  Lemma flows_get wr K q : flows wr K (blocks_get q) (entry_good q).
  Proof.
    split. intros K1 Q HK HQ. unfold blocks_get. cbn. split.
    - split_and!; [|done..]. intros raw Hraw. destruct (decode_block raw) as [| |b] eqn:Eb; [done..|].
      apply flow_bind. eapply flows_alloc; [apply le_refl|]. intros K2 ns HK2 Hns. cbn.
      assert (HE : entry_good q K2 (Entry ns (b_key b) (b_value b))).
      { intros j n Hj Hn. cbn in Hn. destruct (Hns j n Hn) as (nd & A1 & A2). apply A2. by eapply (Hraw b Eb j nd). }
      split; [done|]. by apply HQ.
    - intros e. apply HQ; [apply le_entry|]. intros j n Hj Hn. cbn. right. by exists j.
  Qed.
  Lemma flows_key_value wr K n i : k_ok K n -> flows wr K (get_key_value n i) (fun _ kv => E (kv_seq kv)).
  Proof.
    intros Hn. unfold get_key_value. eapply flows_bind; [by apply flows_node_get|]. intros K1 nd HK1 [Hg _].
    eapply flows_bind; [apply (flows_unwrap _ _ _ (fun _ q => E q)); intros q K' Hq _; by eapply Forall_lookup_1|]. intros K2 q HK2 Hq.
    eapply flows_bind; [apply flows_get|]. intros. eapply flows_bind; [apply flows_get|]. intros. by apply flows_ret.
  Qed.
  Lemma flows_num_keys wr K n : flows wr K (num_keys n) anyhow.
  Proof. unfold num_keys. eapply flows_bind; [apply flows_node_any|]. intros. by apply flows_ret. Qed.
  Lemma flows_num_children wr K n : flows wr K (num_children n) anyhow.
  Proof. unfold num_children. eapply flows_bind; [apply flows_node_any|]. intros. by apply flows_ret. Qed.
  Lemma flows_is_leaf wr K n : flows wr K (is_leaf n) anyhow.
  Proof. unfold is_leaf. eapply flows_bind; [apply flows_num_children|]. intros. by apply flows_ret. Qed.
  Lemma flows_tree_node wr K q e j : entry_good q K e -> R (q, j) -> flows wr K (get_tree_node e j) k_ok.
  Proof. intros He Hj. unfold get_tree_node. apply flows_unwrap. intros n K' Hn HK. apply HK. by apply (He j). Qed.
  Lemma flows_child wr K n i : k_ok K n -> flows wr K (get_child n i) k_ok.
  Proof.
    intros Hn. unfold get_child. eapply flows_bind; [by apply flows_node_get|]. intros K1 nd HK1 [_ Hg].
    eapply flows_bind; [apply (flows_unwrap _ _ _ (fun _ r => R r)); intros r K' Hr _; by eapply Forall_lookup_1|]. intros K2 [q j] HK2 Hr. cbn [fst snd].
    eapply flows_bind; [apply flows_get|]. intros K3 e HK3 He. by eapply flows_tree_node.
  Qed.
  Lemma flows_search wr n key fuel : forall K low high, k_ok K n -> flows wr K (search_loop fuel n key low high) anyhow.
  Proof.
    induction fuel as [|fuel IH]; intros K low high Hn; cbn [search_loop]; [apply flows_stop|].
    destruct (low <=? high)%nat; [|by apply flows_ret]. eapply flows_bind; [by apply flows_key_value|]. intros K1 kv HK1 Hkv.
    assert (Hn1 : k_ok K1 n) by (by apply HK1).
    destruct (limit_eq key (kv_key kv)); [by apply flows_ret|]. destruct (limit_lt key (kv_key kv)); [|by apply IH]. destruct (_ =? 0)%nat; [by apply flows_ret|by apply IH].
  Qed.
  Lemma flows_index wr n key K : k_ok K n -> flows wr K (get_index_of_key n key) anyhow.
  Proof.
    intros Hn. unfold get_index_of_key. eapply flows_bind; [apply flows_num_keys|]. intros K1 nk HK1 _. destruct (nk =? 0)%nat; [by apply flows_ret|].
    apply flows_search. by apply HK1.
  Qed.
  Definition path_ok (b : nat) (K : known) (p : path) : Prop := Forall (fun x => k_ok K (fst x)) p /\ (length p <= b)%nat.
  Lemma nodes_mono {X} K K' (g : X -> nid) l : le K K' -> Forall (fun x => k_ok K (g x)) l -> Forall (fun x => k_ok K' (g x)) l.
  Proof. intros [HK _] H. eapply Forall_impl; [done|]. intros x. cbn. apply HK. Qed.
  Lemma path_mono b K K' p : le K K' -> path_ok b K p -> path_ok b K' p.
  Proof. intros HK [H1 H2]. split; [by eapply nodes_mono|done]. Qed.
  Lemma flows_nearest_loop wr key fuel : forall K n acc b, k_ok K n -> path_ok b K acc -> flows wr K (nearest_loop fuel n key acc) (fun K' x => path_ok (fuel + b) K' (snd x)).
  Proof.
    induction fuel as [|fuel IH]; intros K n acc b Hn Ha; cbn [nearest_loop]; [apply flows_stop|].
    eapply flows_bind; [by apply flows_index|]. intros K1 [m i] HK1 _.
    assert (HP : forall K', le K K' -> path_ok (S b) K' ((n, i) :: acc)).
    { intros K' HK'. destruct (path_mono _ _ _ _ HK' Ha) as [A1 A2]. split; [constructor; [by apply HK'|done]|cbn; lia]. }
    assert (HP' : forall K', le K1 K' -> path_ok (S fuel + b) K' ((n, i) :: acc)).
    { intros K' HK'. destruct (HP K') as [A1 A2]; [by eapply le_trans|]. split; [done|lia]. }
    destruct m as [q|]; [by apply flows_ret|].
    eapply flows_bind; [apply flows_is_leaf|]. intros K2 leaf HK2 _. destruct leaf; [apply flows_ret; intros; apply HP'; by eapply le_trans|].
    eapply flows_bind; [apply flows_child; apply HK2; by apply HK1|]. intros K3 c HK3 Hc.
    eapply flows_weaken; [apply (IH K3 c _ (S b)); [done|]; apply HP; repeat (eapply le_trans; [eassumption|]); apply le_refl|].
    intros K' x _ [A1 A2]. split; [done|lia].
  Qed.
  Lemma flows_nearest wr key fuel K n : k_ok K n -> flows wr K (nearest_node fuel n key) (fun K' x => path_ok fuel K' (snd x)).
  Proof.
    intros Hn. eapply flows_weaken; [apply (flows_nearest_loop _ _ _ _ _ [] 0); [done|by split]|]. intros K' x _ [A1 A2]. split; [done|lia].
  Qed.

  Context (HN : (1 <= N)%nat) (Rroot : (2 <= N)%nat -> R (N - 1, 0)) (Rnew : forall j, (N.of_nat j < 2 ^ 62)%N -> R (N, j)).
  Definition root_ok (K : known) (r : option nid) : Prop := match r with Some n => k_ok K n | None => True end.
  Lemma root_seen wr K v : (wr = true -> k_done K = false) -> len_may_be wr K v -> (v <> 0)%nat /\ ((v <=? 1)%nat = false -> R (v - 1, 0)).
  Proof.
    intros Hd Hv. assert (v = N \/ v = S N) as Hv' by (destruct wr; [left; by apply Hv, Hd|exact Hv]). split; [lia|].
    intros H1%Nat.leb_gt. destruct Hv' as [->| ->]; [by apply Rroot|]. replace (S N - 1) with N by lia. apply Rnew. lia.
  Qed.
  Lemma flows_root wr b K : (wr = true -> k_done K = false) -> flows wr K (get_root b) root_ok.
  Proof.
    intros Hd. unfold get_root, version. eapply flows_bind; [apply flows_len|]. intros K1 v HK1 Hv. destruct (root_seen wr K v Hd Hv) as [Hv0 HR].
    destruct (v <=? 1)%nat eqn:E1.
    - apply Nat.eqb_neq in Hv0. rewrite Hv0. cbn. by apply flows_ret.
    - eapply flows_bind; [apply flows_get|]. intros K2 e HK2 He. eapply flows_bind; [eapply flows_tree_node; [done|by apply HR]|].
      intros K3 n HK3 Hn. apply flows_ret. intros K4 HK4. by apply HK4.
  Qed.

  (** ** Replies of readers *)
  Definition seen_get (r : option (nat * option bytes)) : Prop := match r with Some (q, _) => E q | None => True end.
  Definition seen_items (its : list item) : Prop := forall e, IOk e ∈ its -> E (kv_seq e).
  Definition seen_reply (r : reply) : Prop := match r with RGet x => seen_get x | RItems its _ => seen_items its | _ => True end.

  Lemma flows_tree_get fuel key K : flows false K (tree_get fuel key) (fun _ => seen_get).
  Proof.
    unfold tree_get. eapply flows_bind; [by apply flows_root|]. intros K1 r HK1 Hr. destruct r as [root|]; [|by apply flows_ret].
    eapply flows_bind; [by apply flows_nearest|]. intros K2 [m p] HK2 [Hp _]. destruct m as [q0|]; [|by apply flows_ret].
    eapply flows_bind; [apply (flows_unwrap _ _ _ (fun K' x => k_ok K' (fst x)))|].
    { intros [n i] K' Hh HK'. destruct p as [|[n' i'] p]; [done|]. injection Hh as <- <-. apply HK'. by inversion Hp. }
    intros K3 [n i] HK3 Hn. eapply flows_bind; [by apply flows_key_value|]. intros K4 kv HK4 Hkv. by apply flows_ret.
  Qed.

  Lemma na_bind {A B} (p : prog A) (f : A -> prog B) : no_append p -> (forall a, no_append (f a)) -> no_append (pbind p f).
  Proof. intros H1 H2. induction p; cbn in *; eauto. Qed.
  Lemma na_alloc nds : no_append (alloc_all nds).
  Proof. induction nds; cbn; [done|]. intros n. apply na_bind; [done|]. by intros. Qed.
  Lemma na_get q : no_append (blocks_get q).
  Proof.
    unfold blocks_get. cbn. intros [e|]; [done|]. cbn. intros [|[raw|]]; [done| |done]. destruct (decode_block raw); [done..|].
    apply na_bind; [apply na_alloc|]. by intros.
  Qed.
  Lemma na_unwrap {A} (o : option A) : no_append (unwrap o).
  Proof. by destruct o. Qed.
  Lemma na_child n i : no_append (get_child n i).
  Proof. unfold get_child. apply na_bind; [done|]. intros nd. apply na_bind; [apply na_unwrap|]. intros r. apply na_bind; [apply na_get|]. intros e. apply na_unwrap. Qed.
  Lemma na_key_value n i : no_append (get_key_value n i).
  Proof. unfold get_key_value. apply na_bind; [done|]. intros nd. apply na_bind; [apply na_unwrap|]. intros r. apply na_bind; [apply na_get|]. intros e. apply na_bind; [apply na_get|]. by intros. Qed.
  Lemma na_search fuel n key : forall low high, no_append (search_loop fuel n key low high).
  Proof.
    induction fuel as [|fuel IH]; intros low high; cbn [search_loop]; [done|]. destruct (low <=? high)%nat; [|done]. apply na_bind; [apply na_key_value|].
    intros kv. destruct (limit_eq _ _); [done|]. destruct (limit_lt _ _); [|apply IH]. destruct (_ =? 0)%nat; [done|apply IH].
  Qed.
  Lemma na_index n key : no_append (get_index_of_key n key).
  Proof. unfold get_index_of_key. apply na_bind; [by unfold num_keys; cbn|]. intros nk. destruct (nk =? 0)%nat; [done|apply na_search]. Qed.
  Lemma na_iter conf n a b : no_append (make_iter conf n a b).
  Proof. unfold make_iter. apply na_bind; [apply na_index|]. by intros []. Qed.

  Lemma seen_nil : seen_items [].
  Proof. intros e He. by apply elem_of_nil in He. Qed.
  Lemma seen_err e its : seen_items its -> seen_items (IErr e :: its).
  Proof. intros H e' [He|He]%elem_of_cons; [done|by apply H]. Qed.
  Lemma seen_ok e its : E (kv_seq e) -> seen_items its -> seen_items (IOk e :: its).
  Proof. intros H0 H e' [He|He]%elem_of_cons; [by injection He as ->|by apply H]. Qed.
  Lemma seen_app its its' : seen_items its -> seen_items its' -> seen_items (its ++ its').
  Proof. intros H1 H2 e [He|He]%elem_of_app; [by apply H1|by apply H2]. Qed.
  Definition seen_stream (x : list (item * nid) * bool) : Prop := seen_items (map fst (fst x)).
  Lemma flows_trav_loop rec conf n : (forall K c, k_ok K c -> flows false K (rec c) (fun _ => seen_stream)) -> forall l K, k_ok K n ->
    flows false K (trav_loop rec conf n l) (fun _ => seen_stream).
  Proof.
    intros Hrec. induction l as [|i l IH]; intros K Hn; cbn [trav_loop]; [apply flows_ret; intros; apply seen_nil|]. destruct (Nat.even i).
    - eapply flows_bind; [eapply (flows_catch _ _ _ _ (fun K' x => match x with Datatypes.inl c => k_ok K' c | _ => True end)); [apply na_child|by apply flows_child|done..]|].
      intros K1 [c|e] HK1 Hc.
      + eapply flows_bind; [by apply Hrec|]. intros K2 [its1 b1] HK2 H1. destruct b1; [by apply flows_ret|].
        eapply flows_bind; [apply IH; by apply HK2, HK1|]. intros K3 [its2 b2] HK3 H2. apply flows_ret. intros K4 HK4.
        unfold seen_stream in *. cbn in *. rewrite map_app. by apply seen_app.
      + eapply flows_bind; [apply IH; by apply HK1|]. intros K3 [its2 b2] HK3 H2. apply flows_ret. intros K4 HK4. by apply seen_err.
    - eapply flows_bind; [eapply (flows_catch _ _ _ _ (fun K' x => match x with Datatypes.inl kv => E (kv_seq kv) | _ => True end)); [apply na_key_value|by apply flows_key_value|done..]|].
      intros K1 [kv|e] HK1 Hc.
      + destruct (in_bounds conf (kv_key kv)); [|apply flows_ret; intros; apply seen_nil].
        eapply flows_bind; [apply IH; by apply HK1|]. intros K3 [its2 b2] HK3 H2. apply flows_ret. intros K4 HK4. by apply seen_ok.
      + eapply flows_bind; [apply IH; by apply HK1|]. intros K3 [its2 b2] HK3 H2. apply flows_ret. intros K4 HK4. by apply seen_err.
  Qed.
  Lemma flows_trav conf fuel : forall K n, k_ok K n -> flows false K (trav fuel conf n) (fun _ => seen_stream).
  Proof.
    induction fuel as [|fuel IH]; intros K n Hn; cbn [trav]; [apply flows_stop|]. eapply flows_bind; [apply flows_num_keys|]. intros K1 nk HK1 _.
    eapply flows_bind; [apply flows_num_children|]. intros K2 nc HK2 _. assert (Hn2 : k_ok K2 n) by (by apply HK2, HK1).
    eapply flows_bind; [eapply (flows_catch _ _ _ anyhow anyhow); [apply na_iter| |done..]|].
    { unfold make_iter. eapply flows_bind; [by apply flows_index|]. intros K3 [m i] _ _. by apply flows_ret. }
    intros K3 [idxs|e] HK3 _; [apply flows_trav_loop; [intros; by apply IH|by apply HK3]|]. apply flows_ret. intros. apply seen_err, seen_nil.
  Qed.
  Lemma flows_traverse fuel conf K : flows false K (tree_traverse fuel conf) (fun _ x => seen_items (fst x)).
  Proof.
    unfold tree_traverse. eapply flows_bind; [by apply flows_root|]. intros K1 r HK1 Hr. destruct r as [root|]; [|apply flows_stop].
    eapply flows_bind; [by apply flows_trav|]. intros K2 [its b] HK2 H. by apply flows_ret.
  Qed.
  Definition kind (c : call) (r : reply) : Prop :=
    match r with RGet _ => exists k, c = CGet k | RItems _ _ => exists conf, c = CTraverse conf | _ => True end.
  Lemma flow_reader fuel c K : reads_only c -> flow false K (api fuel c) (fun _ r => seen_reply r /\ kind c r).
  Proof.
    intros Hc. unfold api. apply flow_bind. apply flow_catch; [|done]. destruct c as [k|k v|k v f|k|k f| |md|conf]; try done; cbn [call_prog].
    - eapply flows_use; [apply flows_tree_get|]. intros K1 x HK1 H. split; [done|by eexists].
    - eapply flows_use; [apply flows_traverse|]. intros K1 [its b] HK1 H. split; [done|by eexists].
  Qed.

  (** ** The writer *)
  Context (Eu : forall q, E q -> u64 (N.of_nat q)) (Ru : forall r, R r -> u64 (N.of_nat (fst r)) /\ u64 (N.of_nat (snd r))).
  Definition small (b : nat) : Prop := (N.of_nat b < 2 ^ 62)%N.
  Record ch_ok (b : nat) (K : known) (ch : changes) : Prop := {
    co_seq : ch_seq ch = N; co_nodes : Forall (k_ok K) (ch_nodes ch); co_len : (length (ch_nodes ch) <= b)%nat }.
  Lemma ch_mono b b' K K' ch : le K K' -> (b <= b')%nat -> ch_ok b K ch -> ch_ok b' K' ch.
  Proof. intros HK Hb [H1 H2 H3]. split; [done|by apply (nodes_mono K K' (fun n => n))|lia]. Qed.
  Lemma ch_add b K n ch : ch_ok b K ch -> k_ok K n -> ch_ok (S b) K (snd (add_node n ch)).
  Proof. intros [H1 H2 H3] Hn. split; cbn; [done|apply Forall_app; by repeat constructor|rewrite app_length; cbn; lia]. Qed.
  Lemma ch_ref b K n ch : ch_ok b K ch -> small b -> R (fst (add_node n ch)).
  Proof. intros [H1 H2 H3] Hb. cbn. rewrite H1. apply Rnew. unfold small in Hb. lia. Qed.

  Lemma flows_mod {B} K n (f : node -> option (B * node)) (P : B -> Prop) : k_ok K n -> (forall nd b nd', good nd -> f nd = Some (b, nd') -> good nd' /\ P b) ->
    flows true K (node_mod n f) (fun _ => P).
  Proof.
    intros Hn Hf. split. intros K1 Q HK HQ. unfold node_mod. cbn. split; [done|]. split; [by apply HK|]. intros nd nd' [Hm _] Ef.
    assert (Hg : good nd) by (by apply Hm, HK). destruct (f nd) as [[b nd0]|] eqn:E0; [|done]. injection Ef as <-. destruct (Hf _ _ _ Hg E0) as [H1 H2].
    split; [done|]. cbn. apply HQ; [apply (le_learn true)|done].
  Qed.
  Lemma flows_mod_keys {B} K n (f : list nat -> option (B * list nat)) (P : B -> Prop) : k_ok K n ->
    (forall l b l', Forall E l -> f l = Some (b, l') -> Forall E l' /\ P b) -> flows true K (node_mod n (on_keys f)) (fun _ => P).
  Proof.
    intros Hn Hf. apply flows_mod; [done|]. intros nd b nd' [H1 H2]. unfold on_keys. destruct (f (n_keys nd)) as [[b0 l]|] eqn:Ef; [|done]. intros [= <- <-].
    destruct (Hf _ _ _ H1 Ef). by repeat split.
  Qed.
  Lemma flows_mod_children {B} K n (f : list ref -> option (B * list ref)) (P : B -> Prop) : k_ok K n ->
    (forall l b l', Forall R l -> f l = Some (b, l') -> Forall R l' /\ P b) -> flows true K (node_mod n (on_children f)) (fun _ => P).
  Proof.
    intros Hn Hf. apply flows_mod; [done|]. intros nd b nd' [H1 H2]. unfold on_children. destruct (f (n_children nd)) as [[b0 l]|] eqn:Ef; [|done]. intros [= <- <-].
    destruct (Hf _ _ _ H2 Ef). by repeat split.
  Qed.
  Lemma vec_remove_all {X} (P : X -> Prop) i l b l' : Forall P l -> vec_remove i l = Some (b, l') -> Forall P l' /\ P b.
  Proof.
    intros H. unfold vec_remove. destruct (l !! i) as [x|] eqn:Ex; [|done]. intros [= <- <-]. split; [|by eapply Forall_lookup_1].
    apply Forall_app. split; [by apply Forall_take|by apply Forall_drop].
  Qed.
  Lemma vec_pop_all {X} (P : X -> Prop) l b l' : Forall P l -> vec_pop l = Some (b, l') -> Forall P l' /\ P b.
  Proof.
    intros H. unfold vec_pop. destruct (last l) as [x|] eqn:Ex; [|done]. intros [= <- <-]. split; [by apply Forall_take|].
    rewrite last_lookup in Ex. by eapply Forall_lookup_1.
  Qed.
  Lemma vec_insert_all {X} (P : X -> Prop) i x l l' : Forall P l -> P x -> vec_insert i x l = Some l' -> Forall P l'.
  Proof.
    intros H Hx. unfold vec_insert. destruct (_ <=? _)%nat; [|done]. intros [= <-]. apply Forall_app. split; [by apply Forall_take|].
    constructor; [done|by apply Forall_drop].
  Qed.
  Lemma vec_splice_all {X} (P : X -> Prop) a b new l l' : Forall P l -> Forall P new -> vec_splice a b new l = Some l' -> Forall P l'.
  Proof.
    intros H Hx. unfold vec_splice. destruct (_ && _); [|done]. intros [= <-]. apply Forall_app. split; [by apply Forall_take|].
    apply Forall_app. split; [done|by apply Forall_drop].
  Qed.
  Lemma vec_set_all {X} (P : X -> Prop) i x l l' : Forall P l -> P x -> vec_set i x l = Some l' -> Forall P l'.
  Proof. intros H Hx. unfold vec_set. destruct (_ <? _)%nat; [|done]. intros [= <-]. by apply Forall_insert. Qed.
  Lemma only_all {X} (P : X -> Prop) (o : option (list X)) b l' : (forall l, o = Some l -> Forall P l) -> only o = Some (b, l') -> Forall P l' /\ True.
  Proof. intros H. unfold only. destruct o as [l|]; [|done]. intros [= <- <-]. split; [by apply H|done]. Qed.
  Lemma insert_all key cs a b nd u nd' : E key -> Forall R cs -> good nd -> node_insert key cs a b nd = Some (u, nd') -> good nd' /\ True.
  Proof.
    intros Hk Hcs [H1 H2]. unfold node_insert. destruct (vec_splice a b [key] (n_keys nd)) as [ks|] eqn:E1; [|done].
    destruct (children_insert a cs (n_children nd)) as [cs'|] eqn:E2; [|done]. intros [= <- <-]. split; [|done]. split; cbn.
    - eapply vec_splice_all; [exact H1| |exact E1]. by repeat constructor.
    - unfold children_insert in E2. destruct cs as [|c cs]; [by injection E2 as <-|]. eapply vec_splice_all; [exact H2|exact Hcs|exact E2].
  Qed.
  Lemma split_all nd x nd' : good nd -> split_node nd = Some (x, nd') -> good nd' /\ (good (fst (fst x)) /\ E (snd (fst x)) /\ good (snd x)).
  Proof.
    intros [H1 H2]. unfold split_node. destruct (drop _ (n_keys nd)) as [|mid rk] eqn:Ed; [done|]. intros [= <- <-].
    assert (HD : Forall E (mid :: rk)) by (rewrite <- Ed; by apply Forall_drop). inversion HD; subst.
    split; [by split; constructor|]. cbn. unfold good. cbn. split_and!; [by apply Forall_take..|done|done|by apply Forall_drop].
  Qed.

  Lemma flows_set_child K n i r : k_ok K n -> R r -> flows true K (set_child n i r) anyhow.
  Proof.
    intros Hn Hr. unfold set_child. eapply (flows_any _ _ _ (fun _ _ => True)). apply flows_mod_children; [done|]. intros l b l' Hl.
    apply only_all. intros l0. by eapply vec_set_all.
  Qed.
  Lemma flows_propagate p : forall K ch child b, Forall (fun x => k_ok K (fst x)) p -> ch_ok b K ch -> R child -> small (b + length p) ->
    flows true K (propagate ch p child) (fun K' => ch_ok (b + length p) K').
  Proof.
    induction p as [|[n i] p IH]; intros K ch child b Hp Hc Hr Hs; cbn [propagate].
    - apply flows_ret. intros K' HK'. eapply ch_mono; [done| |done]. lia.
    - inversion Hp as [|?? Hn Hp']; subst. cbn in Hn. eapply flows_bind; [by apply (flows_set_child K n i child)|]. intros K1 ? HK1 _.
      assert (Hc1 : ch_ok b K1 ch) by (by eapply ch_mono). unfold add_node.
      eapply flows_weaken; [apply (IH K1 _ _ (S b))|].
      + by eapply (nodes_mono K K1).
      + apply (ch_add _ _ n) in Hc1; [exact Hc1|by apply HK1].
      + eapply (ch_ref b K1 n ch); [done|]. unfold small in *. cbn in Hs. lia.
      + unfold small in *. cbn in Hs. lia.
      + intros K2 ch2 HK2 H. eapply ch_mono; [apply le_refl| |done]. cbn. lia.
  Qed.
  Definition put_ok (b : nat) (K : known) (r : put_result) : Prop :=
    match r with PutReady ch => ch_ok b K ch | PutNewRoot k cs ch => E k /\ Forall R cs /\ ch_ok b K ch end.
  Lemma flows_put_loop p : forall K matched k cs ch b, Forall (fun x => k_ok K (fst x)) p -> ch_ok b K ch -> E k -> Forall R cs -> small (b + 2 * length p) ->
    flows true K (put_loop matched k cs p ch) (put_ok (b + 2 * length p)).
  Proof.
    induction p as [|[n i] p IH]; intros K matched k cs ch b Hp Hc Hk Hcs Hs; cbn [put_loop].
    - apply flows_ret. intros K' HK'. cbn. split_and!; [done..|]. eapply ch_mono; [done| |done]. lia.
    - inversion Hp as [|?? Hn Hp']; subst. cbn in Hn. cbn [length] in Hs.
      eapply flows_bind; [apply flows_num_keys|]. intros K1 nk HK1 _. destruct (_ || _).
      + eapply flows_bind; [apply (flows_mod _ _ _ (fun _ => True)); [by apply HK1|]; intros; by eapply insert_all|]. intros K2 ? HK2 _.
        assert (HK : le K K2) by (by eapply le_trans). assert (Hc2 : ch_ok b K2 ch) by (by eapply ch_mono).
        unfold add_node. eapply flows_bind; [apply (flows_propagate _ _ _ _ (S b))|].
        * by eapply (nodes_mono K K2).
        * apply (ch_add _ _ n) in Hc2; [exact Hc2|by apply HK].
        * eapply (ch_ref b K2 n ch); [done|]. unfold small in *. lia.
        * unfold small in *. lia.
        * intros K3 ch3 HK3 H3. apply flows_ret. intros K4 HK4. cbn. eapply ch_mono; [done| |done]. cbn. lia.
      + eapply flows_bind; [apply (flows_mod _ _ _ (fun _ => True)); [by apply HK1|]; intros; by eapply insert_all|]. intros K2 ? HK2 _.
        eapply flows_bind; [apply (flows_mod _ _ _ (fun x => good (fst (fst x)) /\ E (snd (fst x)) /\ good (snd x))); [by apply HK2, HK1|]; intros; by eapply split_all|].
        intros K3 [[lnd mid] rnd] HK3 (G1 & G2 & G3). cbn in G1, G2, G3.
        eapply flows_bind; [by apply flows_new|]. intros K4 l HK4 Hl. eapply flows_bind; [by apply flows_new|]. intros K5 r HK5 Hr'.
        assert (HK : le K K5) by (repeat (eapply le_trans; [eassumption|]); apply le_refl). assert (Hc5 : ch_ok b K5 ch) by (by eapply ch_mono).
        assert (Hl5 : k_ok K5 l) by (by apply HK5). pose proof (ch_add _ _ l _ Hc5 Hl5) as Hc6. pose proof (ch_add _ _ r _ Hc6 Hr') as Hc7.
        unfold add_node in *. cbv beta zeta iota.
        eapply flows_weaken; [apply (IH K5 matched mid _ _ (S (S b)))|].
        * by eapply (nodes_mono K K5).
        * exact Hc7.
        * done.
        * repeat constructor; [eapply (ch_ref b K5 l ch)|eapply (ch_ref (S b) K5 r _ Hc6)]; unfold small in *; first [done|lia].
        * unfold small in *. lia.
        * intros K6 x HK6 H. unfold put_ok in *. cbn [length]. destruct x as [ch'|k' cs' ch']; [|destruct H as (? & ? & H); split_and!; [done..|]]; (eapply ch_mono; [apply le_refl| |done]; lia).
  Qed.

  (** *** Committing *)
  Definition todo (K : known) (x : nid * nat) : Prop :=
    k_ok K (fst x) /\ exists nd c, k_at K !! fst x = Some nd /\ n_children nd !! snd x = Some c /\ fst c = N.
  Lemma with_seq_lookup seq cs : forall i ci, ci ∈ with_seq seq i cs -> exists c, (i <= ci)%nat /\ cs !! (ci - i) = Some c /\ fst c = seq.
  Proof.
    induction cs as [|c cs IH]; intros i ci; cbn [with_seq]; [by intros ?%elem_of_nil|].
    assert (HI : ci ∈ with_seq seq (S i) cs -> exists c0, (i <= ci)%nat /\ (c :: cs) !! (ci - i) = Some c0 /\ fst c0 = seq).
    { intros H. destruct (IH _ _ H) as (c' & A1 & A2 & A3). exists c'. split; [lia|]. split; [|done]. replace (ci - i) with (S (ci - S i)) by lia. done. }
    destruct (fst c =? seq)%nat eqn:Ec; [|done]. intros [->|H]%elem_of_cons; [|by apply HI]. exists c. split; [lia|]. rewrite Nat.sub_diag. split; [done|]. by apply Nat.eqb_eq.
  Qed.
  Lemma todo_mono K K' x : (forall n, k_ok K n -> k_ok K' n) -> (forall n nd, k_at K !! n = Some nd -> k_at K' !! n = Some nd) -> todo K x -> todo K' x.
  Proof. intros H1 H2 (A & nd & c & B1 & B2). split; [by apply H1|]. exists nd, c. split; [by apply H2|done]. Qed.
  Lemma flow_take K n (Q : known -> list (nid * nat) -> Prop) : k_ok K n -> (forall K' l, (forall n, k_ok K n -> k_ok K' n) -> (forall m nd, k_at K !! m = Some nd -> k_at K' !! m = Some nd) -> k_done K' = k_done K ->
    Forall (todo K') l -> Q K' l) -> flow true K (take_children_with_seq n N) Q.
  Proof.
    intros Hn HQ. unfold take_children_with_seq. cbn. intros nd [Hm1 Hm2]. apply HQ; cbn; [done| |done|].
    - intros m nd0 H0. destruct (decide (m = n)) as [->|]; [|by rewrite lookup_insert_ne]. rewrite lookup_insert. f_equal. by apply Hm2.
    - apply Forall_fmap, Forall_forall. intros ci Hci. destruct (with_seq_lookup _ _ _ _ Hci) as (c & _ & A2 & A3). rewrite Nat.sub_0_r in A2.
      split; [done|]. exists nd, c. cbn. split; [by rewrite lookup_insert|done].
  Qed.
  Lemma flow_reorder nodes (Q : known -> list nid -> Prop) : small (S (length nodes)) -> forall fuel stack out K, Forall (k_ok K) nodes -> Forall (k_ok K) out -> Forall (todo K) stack -> (length out + fuel <= S (length nodes))%nat ->
    (forall K' out', (forall n, k_ok K n -> k_ok K' n) -> k_done K' = k_done K -> Forall (k_ok K') out' -> Q K' out') ->
    flow true K (reorder_loop fuel N nodes stack out) Q.
  Proof.
    intros Hsm. induction fuel as [|fuel IH]; intros [|[n ci] stack] out K Hnodes Hout Hst Hlen HQ; cbn [reorder_loop]; try done; try by apply HQ.
    inversion Hst as [|?? Hx Hst']; subst. destruct Hx as (Hok & nd & c & Hat & Hc & Hseq). cbn [fst snd] in *.
    apply flow_bind. cbn. intros nd0 [Hg Hk]. pose proof (Hk _ Hat) as ->. clear Hk. specialize (Hg Hok). rewrite Hc. cbn. split; [done|]. split; [done|].
    intros nd1 nd2 [_ Hk]. rewrite (Hk nd) by (cbn; by rewrite lookup_insert). unfold on_children. rewrite Hc. cbn. unfold vec_set.
    rewrite (proj2 (Nat.ltb_lt _ _)) by (by eapply lookup_lt_Some). cbn. intros [= <-]. destruct Hg as [G1 G2].
    assert (HR : R (fst c, length out)) by (rewrite Hseq; apply Rnew; unfold small in Hsm; lia).
    split; [split; cbn; [done|by apply Forall_insert]|].
    destruct (nodes !! snd c) as [child|] eqn:Ech; [|done]. set (K1 := Known (k_ok K) _ _).
    change (flow true K1 (pbind (take_children_with_seq child N) (fun more => reorder_loop fuel N nodes (more ++ stack) (out ++ [child]))) Q). apply flow_bind.
    assert (Hchild : k_ok K1 child) by (by eapply Forall_lookup_1 in Hnodes).
    apply flow_take; [done|]. intros K2 l H1 H2 H3 Hl. apply IH.
    - eapply Forall_impl; [exact Hnodes|]. intros m. apply H1.
    - apply Forall_app. split; [eapply Forall_impl; [exact Hout|]; intros m; apply H1|]. repeat constructor. by apply H1.
    - apply Forall_app. split; [done|]. eapply Forall_impl; [exact Hst'|]. intros [m mi] (M1 & ndm & cm & M2 & M3 & M4). cbn [fst snd] in *.
      apply (todo_mono K1); [done..|]. split; [done|]. cbn [fst snd]. unfold K1. cbn. destruct (decide (m = n)) as [->|].
      + assert (ndm = nd) as -> by congruence. exists (Node (n_keys nd) (<[ci := (fst c, length out)]> (n_children nd))). destruct (decide (mi = ci)) as [->|].
        * exists (fst c, length out). split; [apply lookup_insert|]. cbn. split; [|done]. apply list_lookup_insert. by eapply lookup_lt_Some.
        * exists cm. split; [apply lookup_insert|]. cbn. by rewrite list_lookup_insert_ne.
      + exists ndm, cm. by rewrite !lookup_insert_ne.
    - rewrite app_length. cbn. lia.
    - intros K' out' A1 A2 A3. apply HQ; [intros; by apply A1, H1|by rewrite A2, H3|done].
  Qed.
  Lemma flows_levels ns : forall K, Forall (k_ok K) ns -> flows true K (read_levels ns) (fun _ ls => exists nds, ls = map to_level nds /\ Forall good nds).
  Proof.
    induction ns as [|n ns IH]; intros K Hns; cbn [read_levels]; [apply flows_ret; intros; by exists []|]. inversion Hns as [|?? Hn Hns']; subst.
    eapply flows_bind; [by apply flows_node_get|]. intros K1 nd HK1 Hg. eapply flows_bind; [apply IH; by apply (nodes_mono K K1 (fun n => n))|].
    intros K2 ls HK2 (nds & -> & Hnds). apply flows_ret. intros. exists (nd :: nds). split; [done|by constructor].
  Qed.
  Lemma encode_good nds key value : Forall good nds -> new_good (encode_block (map to_level nds) key value).
  Proof.
    intros Hg Hu b. pose proof (schema_short _ Hu) as (S1 & S2 & S3). cbn in S1, S2, S3. rewrite decode_encode_block.
    - by intros [= <-].
    - split; cbn; [|done]. eapply Forall_impl; [exact Hg|]. intros nd [G1 G2]. split; [by eapply Forall_impl|by eapply Forall_impl].
  Qed.
  Lemma flow_commit b K ch {A} (a : A) : ch_ok b K ch -> small (S b) -> k_done K = false -> flow true K (pbind (add_changes ch) (fun _ => Ret a)) (fun _ _ => True).
  Proof.
    intros [H1 H2 H3] Hs Hd. apply flow_bind. unfold add_changes. apply flow_bind. unfold reorder_nodes. rewrite H1.
    destruct (last (ch_nodes ch)) as [root|] eqn:El; [|done]. cbn [unwrap pbind]. apply flow_bind.
    assert (Hroot : k_ok K root) by (rewrite last_lookup in El; by eapply Forall_lookup_1 in H2).
    apply flow_take; [done|]. intros K1 l A1 A2 A3 Hl. apply flow_reorder.
    - unfold small in *. lia.
    - eapply Forall_impl; [exact H2|]. apply A1.
    - repeat constructor. by apply A1.
    - done.
    - cbn. lia.
    - intros K2 out B1 B2 B3. eapply flows_use; [by apply flows_levels|]. intros K3 ls HK3 (nds & -> & Hg). cbn.
      split; [done|]. split; [destruct HK3; congruence|]. split; [by apply encode_good|]. by intros [].
  Qed.

  Lemma head_ok b K (p : path) x : path_ok b K p -> head p = Some x -> k_ok K (fst x).
  Proof. intros [H _] Hh. destruct p as [|y p]; [done|]. injection Hh as ->. by inversion H. Qed.
  Lemma flow_put_cas fuel key value cas K : E N -> k_done K = false -> small (S (S (S (2 * fuel)))) ->
    flow true K (tree_put_cas fuel key value cas) (fun _ _ => True).
  Proof.
    intros HE Hd Hs. unfold tree_put_cas. eapply flows_use; [by apply flows_root|]. intros K1 r HK1 Hr. assert (Hd1 : k_done K1 = false) by (destruct HK1; congruence).
    eapply flows_use; [apply flows_len|]. intros K2 seq HK2 Hseq. assert (Hd2 : k_done K2 = false) by (destruct HK2; congruence).
    assert (seq = N) as -> by (by apply Hseq). cbv zeta. destruct r as [root|].
    - eapply flows_use; [apply flows_nearest; by apply HK2|]. intros K3 [m p] HK3 Hp. cbn in Hp. assert (Hd3 : k_done K3 = false) by (destruct HK3; congruence).
      eapply (flows_use _ _ _ _ anyhow).
      { destruct m as [q|]; [|by apply flows_ret]. eapply flows_bind; [apply (flows_unwrap _ _ _ (fun K' x => k_ok K' (fst x))); intros x K' Hx HK'; apply HK'; by eapply head_ok|].
        intros K4 [n i] HK4 Hn. eapply flows_bind; [by apply flows_key_value|]. intros. by apply flows_ret. }
      intros K4 old HK4 _. assert (Hd4 : k_done K4 = false) by (destruct HK4; congruence). destruct (cas old _); [|done].
      destruct (path_mono _ _ _ _ HK4 Hp) as [P1 P2].
      eapply flows_use; [eapply (flows_put_loop p K4 _ _ _ _ 0)|].
      + done.
      + split; cbn; [done|constructor|lia].
      + done.
      + constructor.
      + unfold small in *. lia.
      + intros K5 r HK5 Hpr. assert (Hd5 : k_done K5 = false) by (destruct HK5; congruence). destruct r as [ch|k cs ch]; cbn in Hpr.
        * eapply flow_commit; [done| |done]. unfold small in *. lia.
        * destruct Hpr as (Hk & Hcs & Hc). eapply flows_use; [apply flows_new; split; cbn; [by repeat constructor|done]|].
          intros K6 n HK6 Hn. assert (Hd6 : k_done K6 = false) by (destruct HK6; congruence).
          pose proof (ch_add _ _ n _ (ch_mono _ _ _ _ _ HK6 (Nat.le_refl _) Hc) Hn) as Hc'. unfold add_node in *. eapply flow_commit; [exact Hc'| |done]. unfold small in *. lia.
    - destruct (cas None _); [|done]. eapply flows_use; [apply flows_new; split; cbn; by repeat constructor|].
      intros K6 n HK6 Hn. assert (Hd6 : k_done K6 = false) by (destruct HK6; congruence).
      assert (Hc' : ch_ok 1 K6 (snd (add_node n (Changes N key value [])))) by (apply ch_add; [split; cbn; [done|constructor|lia]|done]). unfold add_node in *.
      eapply flow_commit; [exact Hc'| |done]. unfold small in *. lia.
  Qed.

  (** *** Deleting *)
  Lemma flows_head b K (p : path) : path_ok b K p -> flows true K (unwrap (head p)) (fun K' x => k_ok K' (fst x)).
  Proof. intros Hp. apply flows_unwrap. intros x K' Hx HK'. apply HK'. by eapply head_ok. Qed.
  Lemma flows_keys_out K n (f : list nat -> option (nat * list nat)) : k_ok K n ->
    (forall l b l', Forall E l -> f l = Some (b, l') -> Forall E l' /\ E b) -> flows true K (node_mod n (on_keys f)) (fun _ => E).
  Proof. apply flows_mod_keys. Qed.
  Lemma flows_replace fuel K p n i b : path_ok b K p -> k_ok K n -> flows true K (replace_removed fuel p n i) (fun K' p' => path_ok (fuel + S b) K' p').
  Proof.
    intros Hp Hn. unfold replace_removed. eapply flows_bind; [by apply flows_child|]. intros K1 lc HK1 Hlc.
    eapply flows_bind; [by apply flows_nearest|]. intros K2 [m2 lp] HK2 Hlp. cbn [snd] in Hlp. eapply flows_bind; [by eapply flows_head|]. intros K3 [ln li] HK3 Hln.
    eapply flows_bind; [apply flows_num_keys|]. intros K4 nl HK4 _. assert (HK04 : le K K4) by (repeat (eapply le_trans; [eassumption|]); apply le_refl).
    eapply flows_bind; [apply flows_child; by apply HK04|]. intros K5 rc HK5 Hrc.
    eapply flows_bind; [by apply flows_nearest|]. intros K6 [m6 rp] HK6 Hrp. cbn [snd] in Hrp. eapply flows_bind; [by eapply flows_head|]. intros K7 [rn ri] HK7 Hrn.
    eapply flows_bind; [apply flows_num_keys|]. intros K8 nr HK8 _.
    assert (HK28 : le K2 K8) by (repeat (eapply le_trans; [eassumption|]); apply le_refl). assert (HK38 : le K3 K8) by (repeat (eapply le_trans; [eassumption|]); apply le_refl).
    assert (HK68 : le K6 K8) by (repeat (eapply le_trans; [eassumption|]); apply le_refl). assert (HK08 : le K K8) by (repeat (eapply le_trans; [eassumption|]); apply le_refl).
    eapply (flows_bind _ _ _ _ (fun K' x => E (snd (fst x)) /\ path_ok fuel K' (snd x))).
    - destruct (_ <? _)%nat.
      + eapply flows_bind; [apply flows_keys_out; [by apply HK8|apply vec_remove_all]|]. intros K9 d HK9 Hd. apply flows_ret. intros K' HK'. cbn. split; [done|].
        eapply path_mono; [|exact Hrp]. eapply le_trans; [done|]. by eapply le_trans.
      + eapply flows_bind; [apply flows_keys_out; [by apply HK38|apply vec_pop_all]|]. intros K9 d HK9 Hd. apply flows_ret. intros K' HK'. cbn. split; [done|].
        eapply path_mono; [|exact Hlp]. eapply le_trans; [done|]. by eapply le_trans.
    - intros K9 [[ci key] bottom] HK9 [Hkey Hb]. cbn in Hkey, Hb. assert (HK09 : le K K9) by (by eapply le_trans).
      eapply flows_bind; [apply (flows_mod_keys _ _ _ (fun _ => True)); [by apply HK09|]|].
      { intros l u l' Hl. apply only_all. intros l0. by eapply vec_insert_all. }
      intros K10 ? HK10 _. apply flows_ret. intros K' HK'. assert (HK9' : le K9 K') by (by eapply le_trans).
      destruct (path_mono _ _ _ _ HK9' Hb) as [B1 B2]. destruct (path_mono _ _ _ _ (le_trans _ _ _ HK09 HK9') Hp) as [A1 A2].
      split; [apply Forall_app; split; [done|]; constructor; [by apply HK9', HK09|done]|]. rewrite app_length. cbn. lia.
  Qed.
  Lemma flows_donor_index K sd f di : flows true K (get_donor_index sd f di) anyhow.
  Proof. unfold get_donor_index. destruct sd; [by apply flows_ret|]. eapply flows_bind; [apply flows_num_children|]. intros. by apply flows_ret. Qed.
  Lemma flows_rotate K sd f di dc i d ch b : k_ok K f -> k_ok K dc -> k_ok K d -> ch_ok b K ch -> small (S b) ->
    flows true K (rotate sd f di dc i d ch) (fun K' => ch_ok (S (S b)) K').
  Proof.
    intros Hf Hdc Hd Hc Hs. unfold rotate.
    eapply (flows_bind _ _ _ _ (fun _ => E)). { unfold get_donor_key. destruct sd; (apply flows_keys_out; [done|]); [apply vec_pop_all|apply vec_remove_all]. }
    intros K1 dk HK1 Hdk.
    eapply (flows_bind _ _ _ _ (fun _ o => match o with Some r => R r | None => True end)).
    { unfold get_donor_child. eapply flows_bind; [apply flows_is_leaf|]. intros K2 leaf HK2 _. destruct leaf; [by apply flows_ret|].
      assert (Hd2 : k_ok K2 d) by (by apply HK2, HK1).
      eapply (flows_bind _ _ _ _ (fun _ r => R r)); [|intros; by apply flows_ret].
      destruct sd; (apply flows_mod_children; [done|]); [apply vec_pop_all|apply vec_remove_all]. }
    intros K2 dch HK2 Hdch. assert (HK02 : le K K2) by (by eapply le_trans).
    eapply (flows_bind _ _ _ _ (fun _ => E)).
    { unfold swap_donor_key. apply flows_keys_out; [by apply HK02|]. intros l o l' Hl. destruct (l !! _) as [old|] eqn:Eo; [|done]. cbn.
      destruct (vec_splice _ _ _ l) as [l0|] eqn:El; [|done]. cbn. intros [= <- <-]. split; [|by eapply Forall_lookup_1].
      eapply vec_splice_all; [exact Hl| |exact El]. by repeat constructor. }
    intros K3 fk HK3 Hfk. assert (Hdc3 : k_ok K3 dc) by (by apply HK3, HK02).
    eapply (flows_bind _ _ _ _ anyhow).
    { unfold insert_donations. destruct sd.
      - eapply flows_bind; [apply (flows_mod_keys _ _ _ (fun _ => True)); [done|]; intros l u l' Hl [= <- <-]; split; [by constructor|done]|].
        intros K4 ? HK4 _. destruct dch as [c|]; [|by apply flows_ret].
        eapply (flows_any _ _ _ (fun _ _ => True)), flows_mod_children; [by apply HK4|]. intros l u l' Hl [= <- <-]; split; [by constructor|done].
      - eapply flows_bind; [apply (flows_mod_keys _ _ _ (fun _ => True)); [done|]; intros l u l' Hl [= <- <-]; split; [apply Forall_app; by repeat constructor|done]|].
        intros K4 ? HK4 _. destruct dch as [c|]; [|by apply flows_ret].
        eapply (flows_any _ _ _ (fun _ _ => True)), flows_mod_children; [by apply HK4|]. intros l u l' Hl [= <- <-]; split; [apply Forall_app; by repeat constructor|done]. }
    intros K4 ? HK4 _. assert (HK04 : le K K4) by (repeat (eapply le_trans; [eassumption|]); apply le_refl).
    pose proof (ch_mono _ _ _ _ _ HK04 (Nat.le_refl _) Hc) as Hc4. assert (Hd4 : k_ok K4 d) by (by apply HK04). pose proof (ch_add _ _ d _ Hc4 Hd4) as Hc5.
    assert (R1 : R (fst (add_node d ch))) by (eapply ch_ref; [exact Hc4|unfold small in *; lia]).
    unfold add_node in *. cbn in R1.
    eapply flows_bind; [apply flows_set_child; [by apply HK04|exact R1]|]. intros K5 ? HK5 _. pose proof (ch_mono _ _ _ _ _ HK5 (Nat.le_refl _) Hc5) as Hc6. cbn in Hc6.
    assert (HK05 : le K K5) by (by eapply le_trans). assert (Hdc5 : k_ok K5 dc) by (by apply HK05). pose proof (ch_add _ _ dc _ Hc6 Hdc5) as Hc7. pose proof (ch_ref _ _ dc _ Hc6 Hs) as R2.
    unfold add_node in *. cbn in R2, Hc7. cbv beta iota.
    eapply flows_bind; [apply flows_set_child; [by apply HK05|exact R2]|]. intros K6 ? HK6 _. apply flows_ret. intros K' HK'.
    eapply ch_mono; [exact (le_trans _ _ _ HK6 HK')|apply Nat.le_refl|exact Hc7].
  Qed.
  Definition ch_opt (b : nat) (K : known) (o : option changes) : Prop := match o with Some ch => ch_ok b K ch | None => True end.
  Lemma flows_maybe_rotate K sd f di dc order ch b : k_ok K f -> k_ok K dc -> ch_ok b K ch -> small (S b) ->
    flows true K (maybe_rotate sd f di dc order ch) (ch_opt (S (S b))).
  Proof.
    intros Hf Hdc Hc Hs. unfold maybe_rotate.
    eapply (flows_bind _ _ _ _ (fun K' o => match o with Some x => k_ok K' (snd x) | None => True end)).
    { unfold can_rotate. eapply flows_bind; [apply flows_donor_index|]. intros K1 [i|] HK1 _; [|by apply flows_ret].
      eapply flows_bind; [apply flows_child; by apply HK1|]. intros K2 d HK2 Hd. eapply flows_bind; [apply flows_num_keys|]. intros K3 nk HK3 _.
      apply flows_ret. intros K' HK'. destruct (_ <? _)%nat; [|done]. cbn. by apply HK', HK3. }
    intros K1 [[i d]|] HK1 Hd; [|by apply flows_ret]. cbn in Hd.
    eapply flows_bind; [apply (flows_rotate _ _ _ _ _ _ _ _ b)|]; [by apply HK1..|done|by eapply ch_mono|done|].
    intros K2 ch' HK2 H. apply flows_ret. intros K' HK'. cbn. by eapply ch_mono.
  Qed.
  Lemma flows_maybe_merge K sd f di dc ch b : k_ok K f -> k_ok K dc -> ch_ok b K ch -> small (S b) ->
    flows true K (maybe_merge sd f di dc ch) (ch_opt (S (S b))).
  Proof.
    intros Hf Hdc Hc Hs. unfold maybe_merge. eapply flows_bind; [apply flows_donor_index|]. intros K1 [i|] HK1 _; [|by apply flows_ret].
    eapply flows_bind; [apply flows_child; by apply HK1|]. intros K2 d HK2 Hd. assert (HK02 : le K K2) by (by eapply le_trans).
    assert (HH : forall l r rci ki, k_ok K2 l -> k_ok K2 r -> flows true K2
      (fk <- node_mod f (on_keys (vec_remove ki)) ;;
       node_mod f (on_children (fun cs => only (vec_splice rci (rci + 1) [] cs))) ;;
       nl <- num_keys l ;;
       rk <- node_mod r (on_keys (fun ks => Some (ks, []))) ;;
       node_mod l (on_keys (fun ks => only (vec_splice nl nl (fk :: rk) ks))) ;;
       nlc <- num_children l ;;
       rc <- node_mod r (on_children (fun cs => Some (cs, []))) ;;
       node_mod l (on_children (fun cs => only (vec_splice nlc nlc rc cs))) ;;
       let '(lr, ch') := add_node l ch in
       node_mod f (on_children (fun cs => only (vec_splice (rci - 1) rci [lr] cs))) ;;
       Ret (Some ch')) (ch_opt (S (S b)))); [|by destruct sd; apply HH; first [done|by apply HK02]].
    intros l r rci ki Hl Hr. assert (Hf2 : k_ok K2 f) by (by apply HK02).
    eapply flows_bind; [apply flows_keys_out; [done|apply vec_remove_all]|]. intros K3 fk HK3 Hfk.
    eapply flows_bind; [apply (flows_mod_children _ _ _ (fun _ => True)); [by apply HK3|]|].
    { intros l0 u l' Hl0. apply only_all. intros l1. apply vec_splice_all; [done|constructor]. }
    intros K4 ? HK4 _. eapply flows_bind; [apply flows_num_keys|]. intros K5 nl HK5 _.
    assert (HK25 : le K2 K5) by (repeat (eapply le_trans; [eassumption|]); apply le_refl).
    eapply flows_bind; [apply (flows_mod_keys _ _ _ (Forall E)); [by apply HK25|]|].
    { intros l0 u l' Hl0 [= <- <-]. split; [constructor|done]. }
    intros K6 rk HK6 Hrk.
    eapply flows_bind; [apply (flows_mod_keys _ _ _ (fun _ => True)); [by apply HK6, HK25|]|].
    { intros l0 u l' Hl0. apply only_all. intros l1. apply vec_splice_all; [done|by constructor]. }
    intros K7 ? HK7 _. eapply flows_bind; [apply flows_num_children|]. intros K8 nlc HK8 _.
    assert (HK28 : le K2 K8) by (repeat (eapply le_trans; [eassumption|]); apply le_refl).
    eapply flows_bind; [apply (flows_mod_children _ _ _ (Forall R)); [by apply HK28|]|].
    { intros l0 u l' Hl0 [= <- <-]. split; [constructor|done]. }
    intros K9 rc HK9 Hrc.
    eapply flows_bind; [apply (flows_mod_children _ _ _ (fun _ => True)); [by apply HK9, HK28|]|].
    { intros l0 u l' Hl0. apply only_all. intros l1. by apply vec_splice_all. }
    intros K10 ? HK10 _. assert (HK210 : le K2 K10) by (repeat (eapply le_trans; [eassumption|]); apply le_refl).
    assert (HK010 : le K K10) by (by eapply le_trans). assert (Hl10 : k_ok K10 l) by (by apply HK210).
    pose proof (ch_mono _ _ _ _ _ HK010 (Nat.le_refl _) Hc) as Hc10. pose proof (ch_add _ _ l _ Hc10 Hl10) as Hc11.
    assert (R1 : R (fst (add_node l ch))) by (eapply ch_ref; [exact Hc10|unfold small in *; lia]). unfold add_node in *. cbn in R1. cbv beta iota.
    eapply flows_bind; [apply (flows_mod_children _ _ _ (fun _ => True)); [by apply HK010|]|].
    { intros l0 u l' Hl0. apply only_all. intros l1. apply vec_splice_all; [done|by repeat constructor]. }
    intros K11 ? HK11 _. apply flows_ret. intros K' HK'. cbn. eapply ch_mono; [exact (le_trans _ _ _ HK11 HK')| |exact Hc11]. lia.
  Qed.
  Lemma flows_repair_one K f di dc order ch b : k_ok K f -> k_ok K dc -> ch_ok b K ch -> small (S b) ->
    flows true K (repair_one f di dc order ch) (fun K' => ch_ok (S (S b)) K').
  Proof.
    intros Hf Hdc Hc Hs. assert (HM : forall K1, le K K1 -> k_ok K1 f /\ k_ok K1 dc /\ ch_ok b K1 ch) by (intros K1 HK1; split_and!; [by apply HK1..|by eapply ch_mono]).
    assert (HR : forall K1 c, ch_opt (S (S b)) K1 (Some c) -> flows true K1 (Ret c) (fun K' => ch_ok (S (S b)) K')).
    { intros K1 c Hc1. apply flows_ret. intros K' HK'. by eapply ch_mono. }
    unfold repair_one. eapply flows_bind; [by apply (flows_maybe_rotate _ _ _ _ _ _ _ b)|]. intros K1 [c|] HK1 H1; [by apply HR|].
    destruct (HM K1) as (A1 & A2 & A3); [done|].
    eapply flows_bind; [by apply (flows_maybe_rotate _ _ _ _ _ _ _ b)|]. intros K2 [c|] HK2 H2; [by apply HR|].
    assert (HK02 : le K K2) by (by eapply le_trans). destruct (HM K2) as (B1 & B2 & B3); [done|].
    eapply flows_bind; [by apply (flows_maybe_merge _ _ _ _ _ _ b)|]. intros K3 [c|] HK3 H3; [by apply HR|].
    assert (HK03 : le K K3) by (by eapply le_trans). destruct (HM K3) as (C1 & C2 & C3); [done|].
    eapply flows_bind; [by apply (flows_maybe_merge _ _ _ _ _ _ b)|]. intros K4 [c|] HK4 H4; [by apply HR|apply flows_stop].
  Qed.
  Definition repaired (b m : nat) (K : known) (x : ref * path * changes) : Prop := R (fst (fst x)) /\ path_ok m K (snd (fst x)) /\ ch_ok b K (snd x).
  Lemma flows_repair_loop p : forall K f di dc order ch b, Forall (fun x => k_ok K (fst x)) p -> k_ok K f -> k_ok K dc -> ch_ok b K ch -> small (b + 2 * length p + 3) ->
    flows true K (repair_loop p f di dc order ch) (repaired (b + 2 * length p + 3) (length p)).
  Proof.
    induction p as [|[n i] p IH]; intros K f di dc order ch b Hp Hf Hdc Hc Hs; cbn [repair_loop].
    - eapply flows_bind; [apply (flows_repair_one _ _ _ _ _ _ b); [done..|unfold small in *; cbn in Hs; lia]|]. intros K1 ch1 HK1 Hc1.
      eapply flows_bind; [apply flows_num_keys|]. intros K2 nk HK2 _. eapply flows_bind; [apply flows_num_children|]. intros K3 nc HK3 _.
      assert (HK03 : le K K3) by (repeat (eapply le_trans; [eassumption|]); apply le_refl). assert (HK13 : le K1 K3) by (by eapply le_trans).
      pose proof (ch_mono _ _ _ _ _ HK13 (Nat.le_refl _) Hc1) as Hc3. assert (Hf3 : k_ok K3 f) by (by apply HK03).
      assert (HP : forall K', path_ok (length (@nil (nid * nat))) K' []) by (intros; split; [constructor|cbn; lia]).
      destruct (_ && _).
      + eapply flows_bind; [by apply flows_node_get|]. intros K4 nd HK4 [_ Hg].
        eapply flows_bind; [apply (flows_unwrap _ _ _ (fun _ r => R r)); intros r K' Hr _; by eapply Forall_lookup_1|]. intros K5 r HK5 Hr.
        apply flows_ret. intros K' HK'. split_and!; cbn; [done|apply HP|]. eapply ch_mono; [eapply le_trans; [exact HK4|by eapply le_trans]| |exact Hc3]. lia.
      + pose proof (ch_add _ _ f _ Hc3 Hf3) as Hc4. assert (R1 : R (fst (add_node f ch1))) by (eapply ch_ref; [exact Hc3|unfold small in *; cbn in Hs; lia]).
        unfold add_node in *. apply flows_ret. intros K' HK'. split_and!; cbn; [exact R1|apply HP|]. eapply ch_mono; [done| |exact Hc4]. lia.
    - inversion Hp as [|?? Hn Hp']; subst. cbn in Hn. cbn [length] in Hs.
      eapply flows_bind; [apply (flows_repair_one _ _ _ _ _ _ b); [done..|unfold small in *; lia]|]. intros K1 ch1 HK1 Hc1.
      eapply flows_bind; [apply flows_num_keys|]. intros K2 nk HK2 _. eapply flows_bind; [apply flows_num_children|]. intros K3 nc HK3 _.
      assert (HK03 : le K K3) by (repeat (eapply le_trans; [eassumption|]); apply le_refl). assert (HK13 : le K1 K3) by (by eapply le_trans).
      pose proof (ch_mono _ _ _ _ _ HK13 (Nat.le_refl _) Hc1) as Hc3. assert (Hf3 : k_ok K3 f) by (by apply HK03). assert (Hn3 : k_ok K3 n) by (by apply HK03).
      pose proof (nodes_mono _ _ _ _ HK03 Hp') as Hp3.
      destruct (_ <=? _)%nat.
      + pose proof (ch_add _ _ f _ Hc3 Hf3) as Hc4. assert (R1 : R (fst (add_node f ch1))) by (eapply ch_ref; [exact Hc3|unfold small in *; lia]).
        unfold add_node in *. apply flows_ret. intros K' HK'. split_and!; cbn [fst snd]; [exact R1| |].
        * split; [|done]. constructor; [by apply HK'|by eapply (nodes_mono K3 K')].
        * eapply ch_mono; [done| |exact Hc4]. cbn. lia.
      + eapply flows_weaken; [apply (IH K3 _ _ _ _ _ (S (S b)))|]; [done..|unfold small in *; lia|].
        intros K' [[r q] ch'] HK' (A1 & [A2 A2'] & A3). cbn in A1, A2, A2', A3. split_and!; cbn; [done|split; [done|lia]|]. eapply ch_mono; [apply le_refl| |exact A3]. cbn. lia.
  Qed.
  Lemma tail_ok b K (p : path) : path_ok b K p -> path_ok b K (tail p).
  Proof. intros [H1 H2]. destruct p as [|x p]; [done|]. inversion H1; subst. split; [done|cbn in *; lia]. Qed.
  Lemma flow_del_cas fuel key cas K : k_done K = false -> small (6 * fuel + 20) -> flow true K (tree_del_cas fuel key cas) (fun _ _ => True).
  Proof.
    intros Hd Hs. unfold tree_del_cas. eapply flows_use; [by apply flows_root|]. intros K1 [root|] HK1 Hr; [|done]. assert (Hd1 : k_done K1 = false) by (destruct HK1; congruence).
    eapply flows_use; [by apply flows_nearest|]. intros K2 [m p] HK2 Hp. cbn [snd] in Hp. assert (Hd2 : k_done K2 = false) by (destruct HK2; congruence).
    destruct m as [seq|]; [|done]. eapply flows_use; [by eapply flows_head|]. intros K3 [n i] HK3 Hn. cbn [fst] in Hn.
    eapply flows_use; [by apply flows_key_value|]. intros K4 kv HK4 _. destruct (cas kv); [|done]. assert (HK24 : le K2 K4) by (by eapply le_trans).
    assert (Hd4 : k_done K4 = false) by (destruct HK24; congruence).
    eapply flows_use; [apply flows_len|]. intros K5 v HK5 Hv. assert (v = N) as -> by (by apply Hv). clear Hv. cbv zeta.
    assert (HK25 : le K2 K5) by (by eapply le_trans). pose proof (path_mono _ _ _ _ HK25 Hp) as Hp5.
    eapply flows_use; [by eapply flows_head|]. intros K6 [cur ci] HK6 Hcur. cbn [fst] in Hcur.
    eapply flows_use; [apply flows_keys_out; [done|apply vec_remove_all]|]. intros K7 ? HK7 _.
    eapply flows_use; [apply flows_is_leaf|]. intros K8 leaf HK8 _.
    assert (HK58 : le K5 K8) by (repeat (eapply le_trans; [eassumption|]); apply le_refl). assert (Hcur8 : k_ok K8 cur) by (by apply HK8, HK7).
    pose proof (tail_ok _ _ _ (path_mono _ _ _ _ HK58 Hp5)) as Hp8.
    eapply (flows_use _ _ _ _ (fun K' => path_ok (fuel + S fuel) K')).
    { destruct leaf; [|by apply flows_replace]. apply flows_ret. intros K' HK'. destruct (path_mono _ _ _ _ HK' Hp8) as [A1 A2].
      split; [constructor; [by apply HK'|done]|cbn; lia]. }
    intros K9 p2 HK9 Hp2. eapply flows_use; [by eapply flows_head|]. intros K10 [bottom ?] HK10 Hbot. cbn [fst] in Hbot.
    eapply flows_use; [apply flows_num_keys|]. intros K11 nk HK11 _. assert (HK911 : le K9 K11) by (by eapply le_trans).
    pose proof (tail_ok _ _ _ (path_mono _ _ _ _ HK911 Hp2)) as Hp3. assert (Hbot' : k_ok K11 bottom) by (by apply HK11).
    assert (Hd11 : k_done K11 = false).
    { assert (HK411 : le K4 K11) by (repeat (eapply le_trans; [eassumption|]); apply le_refl). destruct HK411. congruence. }
    assert (Hc0 : ch_ok 0 K11 (Changes N key None [])) by (split; cbn; [done|constructor|lia]).
    eapply (flows_use _ _ _ _ (fun K' x => R (fst (fst x)) /\ path_ok (fuel + S fuel) K' (snd (fst x)) /\ ch_ok (2 * (fuel + S fuel) + 3) K' (snd x))).
    { destruct (_ && _).
      - unfold repair. destruct (tail p2) as [|[f di] p'] eqn:Et; [apply flows_stop|]. destruct Hp3 as [A1 A2]. inversion A1 as [|?? Hf A3]; subst. cbn [fst] in Hf. cbn [length] in A2.
        eapply flows_bind; [by apply flows_child|]. intros K12 dc HK12 Hdc.
        eapply flows_weaken; [apply (flows_repair_loop p' K12 _ _ _ _ _ 0)|].
        + by eapply nodes_mono.
        + by apply HK12.
        + done.
        + by eapply ch_mono.
        + unfold small in *. lia.
        + intros K' [[r q] ch'] HK' (B1 & [B2 B2'] & B3). cbn in B1, B2, B2', B3. cbn [fst snd]. split_and!; [done|split; [done|lia]|]. eapply ch_mono; [apply le_refl| |exact B3]. lia.
      - pose proof (ch_add _ _ bottom _ Hc0 Hbot') as Hc1. assert (R1 : R (fst (add_node bottom (Changes N key None [])))) by (eapply ch_ref; [exact Hc0|unfold small in *; lia]).
        unfold add_node in *. apply flows_ret. intros K' HK'. cbn [fst snd]. split_and!; [exact R1|by eapply path_mono|]. eapply ch_mono; [done| |exact Hc1]. lia. }
    intros K12 [[child p4] ch1] HK12 (A1 & [A2 A2'] & A3). cbn [fst snd] in A1, A2, A2', A3.
    eapply flows_use; [apply (flows_propagate p4 _ _ _ (2 * (fuel + S fuel) + 3)); [done..|unfold small in *; lia]|].
    intros K13 ch2 HK13 Hc2. eapply flow_commit; [exact Hc2|unfold small in *; lia|]. destruct HK12, HK13. congruence.
  Qed.

  (** A call that puts needs the new block to be of interest. *)
  Lemma flow_weak {A} wr (p : prog A) (Q Q' : known -> A -> Prop) : (forall K a, Q K a -> Q' K a) -> forall K, flow wr K p Q -> flow wr K p Q'.
  Proof.
    intros HQ. induction p as [a|x|k IH|q k IH|b k IH|q k IH|q e k IH|nd k IH|n k IH|n g k IH]; intros K H; cbn in *; eauto.
    - destruct H as (H1 & H2 & H3). split_and!; eauto.
    - destruct H as (H1 & H2 & H3 & H4). split_and!; eauto.
    - destruct H as [H1 H2]. split; eauto.
    - destruct H as [H1 H2]. split; eauto.
    - destruct H as (H1 & H2 & H3). split_and!; [done..|]. intros nd nd' M1 M2. destruct (H3 nd nd' M1 M2). eauto.
  Qed.
  Lemma flow_then {A B} wr K (p : prog A) (f : A -> prog B) : flow wr K p (fun _ _ => True) -> (forall K a, flow wr K (f a) (fun _ _ => True)) -> flow wr K (pbind p f) (fun _ _ => True).
  Proof. intros H1 H2. apply flow_bind. eapply flow_weak; [|done]. intros. apply H2. Qed.
  Lemma flow_writer fuel c K : ~ reads_only c -> (puts c -> E N) -> k_done K = false -> (N.of_nat fuel < 2 ^ 50)%N -> flow true K (api fuel c) (fun _ _ => True).
  Proof.
    intros Hw Hc Hd Hfu. unfold api. apply flow_then; [|by intros K1 []]. apply flow_catch; [|done].
    assert (S1 : small (S (S (S (2 * fuel))))) by (unfold small; lia). assert (S2 : small (6 * fuel + 20)) by (unfold small; lia).
    destruct c as [k|k v|k v f|k|k f| |md|conf]; cbn [call_prog]; try by destruct Hw.
    - apply flow_then; [|by intros K1 []]. unfold tree_put. apply flow_then; [apply flow_put_cas; [by apply Hc|done..]|]. intros K1 [old [new|]]; done.
    - apply flow_then; [|by intros K1 []]. apply flow_put_cas; [by apply Hc|done..].
    - apply flow_then; [|done]. unfold tree_del. apply flow_then; [by apply flow_del_cas|]. intros K1 [[[] q]|]; done.
    - apply flow_then; [|by intros K1 [[]|]]. by apply flow_del_cas.
    - apply flow_then; [|done]. unfold create_header. eapply flows_use; [apply flows_len|]. intros K1 v HK1 Hv. assert (v = N) as -> by (by apply Hv).
      assert (HN0 : (N =? 0)%nat = false) by (apply Nat.eqb_neq; lia). by rewrite HN0.
  Qed.

  (** ** Runs *)
  Context (C0 : list bytes) (HC0 : length C0 = N) (Hold : forall q raw, C0 !! q = Some raw -> raw_good q raw).
  Definition sound (s : st) (n : nid) : Prop := exists nd, heap s !! n = Some nd /\ good nd.
  Definition cache_good (s : st) : Prop := forall q e j n, cache s !! q = Some e -> R (q, j) -> e_nodes e !! j = Some n -> sound s n.
  Definition core_good (C : list bytes) : Prop := C = C0 \/ exists b, C = C0 ++ [b] /\ new_good b.
  Record track (wr : bool) (K : known) (s : st) : Prop := {
    tr_ok n : k_ok K n -> sound s n;
    tr_at n nd : k_at K !! n = Some nd -> heap s !! n = Some nd;
    tr_reader : wr = false -> k_at K = ∅;
    tr_writer : wr = true -> k_done K = false -> core s = C0 }.
  Record moved (wr : bool) (s s' : st) : Prop := {
    mv_cache : cache_good s'; mv_core : core_good (core s'); mv_sound n : sound s n -> sound s' n;
    mv_reader : wr = false -> heap s `prefix_of` heap s' /\ core s' = core s }.

  Lemma core_reads C q raw : core_good C -> Forall (fun raw => u64 (blen raw)) C -> C !! q = Some raw -> raw_good q raw.
  Proof.
    intros [-> |(b & -> & Hb)] Hs Hq; [by apply Hold|]. apply lookup_app_Some in Hq as [Hq|[Hle Hq]]; [by apply Hold|].
    assert (Hi : (q - length C0 < length [b])%nat) by (by eapply lookup_lt_Some). cbn in Hi. assert (q = length C0) as -> by lia. rewrite Nat.sub_diag in Hq. injection Hq as ->.
    intros blk Hd j nd _ Hj. apply Forall_app in Hs as [_ Hs]. inversion Hs; subst. eapply Forall_lookup_1; [by apply Hb|done].
  Qed.
  Lemma core_length C wr K : core_good C -> (wr = true -> k_done K = false -> C = C0) -> len_may_be wr K (length C).
  Proof.
    intros HC Hw. unfold len_may_be. destruct wr; [intros Hd; by rewrite Hw|]. destruct HC as [-> |(b & -> & _)]; [by left|]. right. rewrite app_length. cbn. lia.
  Qed.
  Lemma moved_refl wr s : cache_good s -> core_good (core s) -> moved wr s s.
  Proof. by split. Qed.
  Lemma moved_oracle wr s s' o : moved wr s s' -> moved wr s (set_oracle s' o).
  Proof. intros [H1 H2 H3 H4]. split; [done..|]. intros Hw. apply (H4 Hw). Qed.
  Lemma track_oracle wr K s o : track wr K s -> track wr K (set_oracle s o).
  Proof. intros [H1 H2 H3 H4]. by split. Qed.
  Lemma flow_step {A} wr K (p : prog A) Q s : flow wr K p Q -> track wr K s -> cache_good s -> core_good (core s) -> Forall (fun raw => u64 (blen raw)) (core s) ->
    exists K', flow wr K' (fst (step p s)) Q /\ track wr K' (snd (step p s)) /\ moved wr s (snd (step p s)).
  Proof.
    intros Hp Ht Hca Hco Hsh. pose proof (moved_refl wr s Hca Hco) as Hrefl. destruct Ht as [T1 T2 T3 T4].
    destruct p as [a|x|k|q k|b k|q k|q e k|nd k|n k|n f k]; cbn [step]; try (exists K; by split_and!).
    - exists K. split; [|by split]. apply Hp. by apply core_length.
    - destruct Hp as (H1 & H2 & H3). assert (H : flow wr K (k (GOk (core s !! q))) Q).
      { destruct (core s !! q) as [raw|] eqn:Eq; [|done]. apply H1. by eapply core_reads. }
      exists K. unfold exec_get. destruct (oracle s) as [|[] o]; cbn; (split; [done|]); (split; [by split|]); first [done|by apply moved_oracle].
    - destruct Hp as (-> & H2 & H3 & H4). pose proof (T4 eq_refl H2) as Ec.
      assert (HG : core_good (core s ++ [b])) by (right; exists b; by rewrite Ec).
      exists (finished K). unfold exec_append. destruct (oracle s) as [|[] o]; cbn; (split; [apply H4|]); (split; [by split|]); by split.
    - destruct Hp as [H1 H2]. destruct (cache s !! q) as [e|] eqn:Eq; [|by exists K]. exists (with_entry q e K). split; [apply H2|]. split; [|done].
      split; [|done..]. intros n [Hn|(j & J1 & J2)]; [by apply T1|by eapply Hca].
    - destruct Hp as [H1 H2]. exists K. split; [done|]. split; [by split|]. split; [|done..].
      intros q' e' j n Hq Hj Hn. cbn in Hq. apply lookup_insert_Some in Hq as [[<- <-]|[Hne Hq]]; [by eapply T1, H1|by eapply Hca].
    - exists (with_new (length (heap s)) nd K). split; [apply Hp|].
      assert (HS : forall n, sound s n -> sound (set_heap s (heap s ++ [nd])) n).
      { intros n (nd' & A1 & A2). exists nd'. split; [cbn; by apply lookup_app_l_Some|done]. }
      split; [|split; cbn; [intros q e j n A1 A2 A3; by eapply HS, Hca|done|done|intros _; split; [by apply prefix_app_r|done]]].
      split; cbn; [|intros; by apply lookup_app_l_Some, T2|done|done]. intros n [Hn|[-> Hg]]; [by apply HS, T1|]. exists nd. split; [|done]. cbn.
      rewrite lookup_app_r by lia. by rewrite Nat.sub_diag.
    - destruct (heap s !! n) as [nd|] eqn:En; [|by exists K]. exists (learn wr n nd K). split.
      + apply Hp. split; [intros Hn; destruct (T1 n Hn) as (nd' & A1 & A2); congruence|]. intros nd0 H0. apply T2 in H0. congruence.
      + split; [|done]. destruct wr; cbn; [|by split]. split; cbn; [done| |done|done]. intros m nd'.
        intros [[<- <-]|[Hne Hm]]%lookup_insert_Some; [done|by apply T2].
    - destruct Hp as (-> & Hok & Hp). destruct (heap s !! n) as [nd|] eqn:En; [|by exists K]. destruct (f nd) as [nd'|] eqn:Ef; [|by exists K].
      destruct (Hp nd nd') as [Hg Hf]; [|done|].
      { split; [intros Hn; destruct (T1 n Hn) as (nd0 & A1 & A2); congruence|]. intros nd0 H0. apply T2 in H0. congruence. }
      exists (learn true n nd' K). split; [done|]. assert (Hlt : (n < length (heap s))%nat) by (by eapply lookup_lt_Some).
      assert (HS : forall m, sound s m -> sound (set_heap s (<[n := nd']> (heap s))) m).
      { intros m (nd0 & A1 & A2). destruct (decide (m = n)) as [->|]; [exists nd'; split; [by apply list_lookup_insert|done]|].
        exists nd0. cbn. by rewrite list_lookup_insert_ne. }
      split; [|split; cbn; [intros q e j m A1 A2 A3; by eapply HS, Hca|done|done|done]].
      split; cbn; [intros m Hm; by apply HS, T1| |done|done].
      intros m nd0 [[<- <-]|[Hne Hm]]%lookup_insert_Some; [by apply list_lookup_insert|]. rewrite list_lookup_insert_ne by done. by apply T2.
  Qed.

  (** Tasks on the handles [U], at most one of them the writer. *)
  Context (U : nat -> Prop).
  Record world_good (w : world) : Prop := { wg_core : core_good (w_core w); wg_cache i : U i -> cache_good (view w i []) }.
  Definition on_flow (w : world) (sp : bool * (reply -> Prop)) (t : thread) : Prop :=
    U (th_handle t) /\ exists K, flow (fst sp) K (th_prog t) (fun _ => snd sp) /\ track (fst sp) K (view w (th_handle t) (th_faults t)).
  Definition one_writer (sps : list (bool * (reply -> Prop))) : Prop := forall j k Q Q', sps !! j = Some (true, Q) -> sps !! k = Some (true, Q') -> j = k.
  Definition all_flow (w : world) (sps : list (bool * (reply -> Prop))) (ts : list thread) : Prop :=
    forall j sp t, sps !! j = Some sp -> ts !! j = Some t -> on_flow w sp t.

  Lemma commit_good w i o s wr : world_good w -> moved wr (view w i o) s -> world_good (commit_view w i s).
  Proof.
    intros [H1 H2] [M1 M2 M3 M4]. split; cbn; [done|]. intros j Hj. unfold cache_good, sound, view. cbn. unfold set_handle. destruct (j =? i)%nat; cbn; [apply M1|by apply (H2 j)].
  Qed.
  Lemma other_flow w i o s wr sp t : moved wr (view w i o) s -> (wr = true -> fst sp = false) -> on_flow w sp t -> on_flow (commit_view w i s) sp t.
  Proof.
    intros [M1 M2 M3 M4] Hwr (HU & K & HK1 & [T1 T2 T3 T4]). split; [done|]. exists K. split; [done|].
    assert (HC : fst sp = true -> core s = w_core w) by (intros Hsp; apply (M4 ltac:(destruct wr; [by rewrite Hwr in Hsp|done]))).
    unfold view in *. cbn in *. unfold set_handle, sound in *. destruct (th_handle t =? i)%nat eqn:Ei.
    - apply Nat.eqb_eq in Ei. rewrite Ei in *. cbn in *. split; cbn; [intros n Hn; by apply M3, T1| |done|intros A1 A2; rewrite HC by done; by apply T4].
      intros n nd Hn. destruct (fst sp) eqn:Esp; [|rewrite T3 in Hn by done; by rewrite lookup_empty in Hn].
      destruct wr; [by specialize (Hwr eq_refl)|]. destruct (M4 eq_refl) as [M5 _]. eapply prefix_lookup; [by apply T2|done].
    - split; cbn; [done..|]. intros A1 A2. rewrite HC by done. by apply T4.
  Qed.
  Lemma any_writes {A} (p : prog A) : writes (fun _ => True) p any.
  Proof. induction p; cbn; eauto. done. Qed.
  Lemma tasks_prefix sched ts w : w_core w `prefix_of` w_core (snd (tasks_run sched ts w)).
  Proof.
    destruct (writes_tasks (fun _ => True) sched ts w) as [(D & HD & _) _]; [apply Forall_forall; intros; apply any_writes|]. rewrite HD. by apply prefix_app_r.
  Qed.
  Lemma short_prefix C C' : C `prefix_of` C' -> Forall (fun raw => u64 (blen raw)) C' -> Forall (fun raw => u64 (blen raw)) C.
  Proof. intros [D ->] H. by apply Forall_app in H as [H _]. Qed.
  Lemma tasks_flow sps sched : one_writer sps -> forall ts w, length sps = length ts -> world_good w -> all_flow w sps ts ->
    Forall (fun raw => u64 (blen raw)) (w_core (snd (tasks_run sched ts w))) ->
    world_good (snd (tasks_run sched ts w)) /\ all_flow (snd (tasks_run sched ts w)) sps (fst (tasks_run sched ts w)).
  Proof.
    intros Hone. induction sched as [|j sched IH]; intros ts w Hlen Hw Ht Hsh; cbn [tasks_run] in *; [done|].
    destruct (ts !! j) as [t|] eqn:Et; [|by apply IH]. unfold thread_step in *.
    destruct (lookup_lt_is_Some_2 sps j) as [sp Esp]; [rewrite Hlen; by eapply lookup_lt_Some|].
    destruct (Ht j sp t Esp Et) as (HU & K & H1 & H2).
    assert (Hs0 : Forall (fun raw => u64 (blen raw)) (w_core w)).
    { destruct (step (th_prog t) (view w (th_handle t) (th_faults t))) as [p s] eqn:Es.
      eapply short_prefix; [|exact Hsh]. etrans; [|apply tasks_prefix]. cbn.
      destruct (writes_step _ _ _ (view w (th_handle t) (th_faults t)) (any_writes (th_prog t))) as [_ (D & HD & _)]. rewrite Es in HD. cbn in HD. rewrite HD. by apply prefix_app_r. }
    destruct (flow_step _ _ _ _ _ H1 H2 (wg_cache _ Hw _ HU) (wg_core _ Hw) Hs0) as (K' & H3 & H4 & H5).
    destruct (step (th_prog t) (view w (th_handle t) (th_faults t))) as [p s] eqn:Es. cbn in H3, H4, H5.
    apply IH; [by rewrite insert_length|by eapply commit_good| |done].
    intros k sp' t' Esp' Et'. destruct (decide (k = j)) as [->|Hne].
    - rewrite list_lookup_insert in Et' by (by eapply lookup_lt_Some). injection Et' as <-. assert (sp' = sp) as -> by congruence.
      split; [done|]. exists K'. split; [done|]. cbn. destruct H4 as [A1 A2 A3 A4]. unfold view, sound in *. cbn. unfold set_handle. rewrite Nat.eqb_refl. cbn.
      split; cbn; done.
    - rewrite list_lookup_insert_ne in Et' by done. eapply other_flow; [exact H5| |by eapply Ht].
      intros Hwr. destruct sp as [? Q], sp' as [wr' Q']. cbn in *. subst. destruct wr'; [|done]. destruct Hne. by eapply Hone.
  Qed.
  Lemma flow_upto {A} wr k : forall (p : prog A) K Q s, flow wr K p Q -> track wr K s -> cache_good s -> core_good (core s) ->
    Forall (fun raw => u64 (blen raw)) (core (snd (run_upto k p s))) -> exists K', track wr K' (snd (run_upto k p s)) /\ moved wr s (snd (run_upto k p s)).
  Proof.
    induction k as [|k IH]; intros p K Q s H1 H2 H3 H4 Hsh; cbn [run_upto] in *; [exists K; split; [done|by apply moved_refl]|].
    assert (Hs0 : Forall (fun raw => u64 (blen raw)) (core s)).
    { eapply short_prefix; [|exact Hsh]. destruct (writes_step _ _ _ s (any_writes p)) as [_ (D & HD & _)]. destruct (step p s) as [p' s']. cbn in HD.
      destruct (writes_upto _ _ k _ s' (any_writes p')) as (D' & HD' & _). rewrite HD', HD, <- (assoc_L (++)). by apply prefix_app_r. }
    destruct (flow_step _ _ _ _ _ H1 H2 H3 H4 Hs0) as (K' & A1 & A2 & [B1 B2 B3 B4]). destruct (step p s) as [p' s']. cbn in *.
    destruct (IH p' K' Q s' A1 A2 B1 B2 Hsh) as (K2 & D1 & [D2 D3 D4 D5]). exists K2. split; [done|]. split; [done|done|eauto|].
    intros Hw. destruct (B4 Hw) as [E1 E2]. destruct (D5 Hw) as [E3 E4]. split; [by etrans|congruence].
  Qed.
End flow.

(** ** Histories *)
Definition tflat (t : option tree) (q : nat) : Prop := match t with Some T => q ∈ flat T | None => False end.
Definition trefs (t : option tree) (r : ref) : Prop := match t with Some T => r ∈ refs T | None => False end.
Definition ents (t : option tree) (n : nat) (c : call) (q : nat) : Prop := tflat t q \/ puts c /\ q = n.
Definition nods (t : option tree) (n : nat) (r : ref) : Prop := trefs t r \/ fst r = n /\ (N.of_nat (snd r) < 2 ^ 62)%N.

Section inst.
  Context (g : nat -> Prop) (w : world) (m : list kvdata) (t : option tree) (HI : WInv g w m t).
  Let n := length (w_core w).
  Let R := nods t n.
  Lemma i_root : (2 <= n)%nat -> R (n - 1, 0)%nat.
  Proof.
    intros H. left. pose proof (wi_rep _ _ _ _ HI) as Hr. destruct t as [T|]; cbn in *; [|unfold n in *; lia].
    destruct Hr as (_ & h & HW & _). apply elem_of_refs. exists T. split; [apply subs_self|]. apply (wf_tref _ _ _ _ HW).
  Qed.
  Lemma i_new j : (N.of_nat j < 2 ^ 62)%N -> R (n, j).
  Proof. by right. Qed.
  Lemma i_old_seq q : tflat t q -> (1 <= q < n)%nat /\ is_Some (blk (w_core w) q).
  Proof.
    intros H. pose proof (wi_rep _ _ _ _ HI) as Hr. destruct t as [T|]; cbn in *; [|done]. destruct Hr as (? & h & HW & _).
    destruct (wf_keys _ _ _ _ HW q H). unfold n. split; [lia|done].
  Qed.
  Lemma i_old_ref r : trefs t r -> (1 <= fst r < n)%nat /\ (N.of_nat (snd r) < 2 ^ 52)%N.
  Proof.
    intros H. pose proof (wi_rep _ _ _ _ HI) as Hr. destruct t as [T|]; cbn in *; [|done]. destruct Hr as (? & h & HW & _).
    pose proof (wf_seq _ _ _ _ HW r H). pose proof (wf_off _ _ _ _ HW r H). unfold n. split; [lia|done].
  Qed.
  Context (c : call).
  Let E := ents t n c.
  Lemma i_node r nd : trefs t r -> cnode (w_core w) r = Some nd -> good E R nd.
  Proof.
    intros H Hn. pose proof (wi_rep _ _ _ _ HI) as Hr. unfold E, R, ents, nods. destruct t as [T|]; cbn in *; [|done]. destruct Hr as (? & h & HW & _).
    apply elem_of_refs in H as (u & Hu & <-). rewrite (wf_node _ _ _ _ HW u Hu) in Hn. injection Hn as <-. destruct (wf_shape _ _ _ _ HW) as [Hsh _].
    split; apply Forall_forall; unfold node_of; cbn.
    - intros q Hq. left. apply (elem_of_flat_sub _ _ _ Hsh). by exists u.
    - intros x (k & -> & Hk)%elem_of_list_fmap. left. apply elem_of_refs. exists k. split; [|done]. eapply subs_trans; [done|]. eapply subs_kid; [done|apply subs_self].
  Qed.
  Lemma i_old q raw : w_core w !! q = Some raw -> raw_good E R q raw.
  Proof.
    intros Hq b Hd j nd [Hj|[Hj _]] Hn.
    - eapply i_node; [exact Hj|]. unfold cnode, blk. cbn. by rewrite Hq, Hd.
    - cbn in Hj. apply lookup_lt_Some in Hq. unfold n in *. lia.
  Qed.
  Lemma i_cache i : g i -> cache_good E R (view w i []).
  Proof.
    intros Hi q e j x He Hj Hx. destruct (wi_ok _ _ _ _ HI i Hi) as [[Hw _] Hc]. destruct (Hw q e He) as (b & Hb & _ & _ & Hl & Hf).
    destruct Hj as [Hj|[Hj _]]; [|apply blk_lt in Hb; cbn in *; unfold n in *; lia].
    pose proof Hj as Hj'. destruct (lookup_lt_is_Some_2 (b_nodes b) j) as [nd Hnd]; [rewrite <- Hl; by eapply lookup_lt_Some|].
    assert (Hcn : cnode (w_core w) (q, j) = Some nd) by (unfold cnode; cbn in *; by rewrite Hb).
    assert (Hh : hnode (view w i []) (q, j) = cnode (w_core w) (q, j)) by (destruct t as [T|]; [by apply (Hc (q, j))|done]).
    unfold hnode in Hh. cbn [fst snd] in Hh. rewrite He, Hx, Hcn in Hh. exists nd. split; [done|]. by eapply i_node.
  Qed.
  Lemma i_world : world_good E R (w_core w) g w.
  Proof. split; [by left|apply i_cache]. Qed.
  Definition nothing : known := Known (fun _ => False) ∅ false.
  Lemma i_track wr i o : track E R (w_core w) wr nothing (view w i o).
  Proof. by split. Qed.
  Lemma i_track_reader w' i o : track E R (w_core w) false nothing (view w' i o).
  Proof. by split. Qed.
  Context (Hlen : (1 <= length (w_core w))%nat) (Hs : (N.of_nat (length (w_core w)) < 2 ^ 50)%N).
  Lemma i_u64E q : E q -> u64 (N.of_nat q).
  Proof. intros [H|[_ ->]]; unfold u64; [apply i_old_seq in H|]; unfold n in *; lia. Qed.
  Lemma i_u64R r : R r -> u64 (N.of_nat (fst r)) /\ u64 (N.of_nat (snd r)).
  Proof. intros [H|[-> H]]; unfold u64; [apply i_old_ref in H|]; unfold n in *; lia. Qed.
  Lemma i_program fuel : (N.of_nat fuel < 2 ^ 50)%N -> exists wr, flow E R n wr nothing (api fuel c) (fun _ _ => True).
  Proof.
    intros Hf. destruct (reads_only_dec c) as [Hc|Hc].
    - exists false. eapply flow_weak; [|by apply flow_reader; [exact Hlen|exact i_root|exact i_new|..]]. done.
    - exists true. apply flow_writer; [exact Hlen|exact i_root|exact i_new|exact i_u64E|exact i_u64R|done|by right|done|done].
  Qed.
  Lemma i_reader fuel c' : reads_only c' -> flow E R n false nothing (api fuel c') (fun _ r => seen_reply E r /\ kind c' r).
  Proof. intros Hc. by apply flow_reader; [exact Hlen|exact i_root|exact i_new|..]. Qed.
End inst.

(** An entry of interest, as it stands in the core afterwards. *)
Lemma entry_old_or_put g w m t c C' fuel i q k v : WInv g w m t -> g i -> fits w 1 fuel -> (1 <= length (w_core w))%nat ->
  grows (written_by c) (w_core w) C' -> Forall (fun raw => u64 (blen raw)) C' -> block_holds C' q k v ->
  ents t (length (w_core w)) c q -> in_store fuel w i q k v \/ put_by c w q k v.
Proof.
  intros HI Hi Hfit Hlen (D & HD & HW) Hsh (raw & nds & Hq & Hd) [Ho|[Hp ->]].
  - left. assert (Hblk : blk (w_core w) q = Some (Block nds k v)).
    { destruct (i_old_seq _ _ _ _ HI q Ho) as [_ [b Hb]]. assert (Hb' : blk C' q = Some b) by (eapply blk_prefix; [rewrite HD; by apply prefix_app_r|done]).
      unfold blk in Hb'. rewrite Hq, Hd in Hb'. injection Hb' as <-. done. }
    destruct (call_clean g w m t fuel 0 i (CGet k) HI Hi Hfit I) as (w1 & H1 & _). unfold in_store. rewrite H1. cbn [fst spec_call s_entries].
    assert (Hm : KV q k v ∈ m).
    { pose proof (wi_rep _ _ _ _ HI) as Hr. destruct t as [T|]; cbn in *; [|done]. destruct Hr as (_ & h & _ & ->).
      apply elem_of_list_fmap. exists q. split; [|done]. unfold kd. by rewrite Hblk. }
    apply (sorted_lookup _ _ (rep_sorted _ _ _ (wi_rep _ _ _ _ HI))) in Hm. cbn [kv_key] in Hm. by rewrite Hm.
  - right. subst C'. apply Forall_app in Hsh as [_ Hsh]. rewrite lookup_app_r, Nat.sub_diag in Hq by lia.
    assert (Hb : brings c k v) by (eapply written_brings; [by eapply Forall_lookup_1|by eapply (Forall_lookup_1 _ _ _ _ Hsh)|done]).
    destruct c; try done; cbn in Hb |- *; destruct Hb as [-> ->]; done.
Qed.
Lemma reply_old_or_put g w m t c c' C' fuel i r qt : WInv g w m t -> g i -> fits w 1 fuel -> (1 <= length (w_core w))%nat ->
  grows (written_by c) (w_core w) C' -> Forall (fun raw => u64 (blen raw)) C' -> kind c' r ->
  borne_out C' qt c' r -> seen_reply (ents t (length (w_core w)) c) r -> old_or_put fuel w i c r.
Proof.
  intros HI Hi Hfit Hlen Hg Hsh Hc Hb Hse. destruct r as [[[q v]|]| | | | | | |its b|]; try done; cbn in Hc.
  - destruct Hc as [k ->]. cbn in Hb. destruct Hb as (k' & Hb & _). exists k'. by eapply entry_old_or_put.
  - destruct Hc as [conf ->]. intros e He. destruct (Hb e He) as [Hb1 _]. eapply entry_old_or_put; [done..|]. by apply Hse.
Qed.

Definition spec_of (E : nat -> Prop) (x : nat * call * list fault) : bool * (reply -> Prop) := (false, fun r => seen_reply E r /\ kind (snd (fst x)) r).
Lemma readers_write_nothing xs c b : Forall (fun x : nat * call * list fault => reads_only (snd (fst x))) xs ->
  by_some (c :: map (fun x => snd (fst x)) xs) b -> written_by c b.
Proof.
  intros Hx (c' & [->|Hc]%elem_of_cons & Hw); [done|]. apply elem_of_list_fmap in Hc as (x & -> & Hx'). rewrite Forall_forall in Hx. specialize (Hx x Hx').
  by destruct (snd (fst x)).
Qed.

Section final.
  Context (fuel : nat) (l : list event) (H : history fuel 1 l) (Hlen : (1 <= length (w_core (world_after fuel l)))%nat) (Hf : (N.of_nat fuel < 2 ^ 50)%N).
  Let w := world_after fuel l.
  Let reader (x : nat * call * list fault) : Prop := usable l (fst (fst x)) /\ reads_only (snd (fst x)).

  Lemma beside_a_write i c o xs sched ts w' : usable l i -> Forall reader xs ->
    tasks_run sched (map (task fuel) ((i, c, o) :: xs)) w = (ts, w') -> Forall (fun raw => u64 (blen raw)) (w_core w') ->
    forall j i0 h r o', usable l i0 -> (j < length xs)%nat -> ts !! S j = Some (Thread h (Ret r) o') -> old_or_put fuel w i0 c r.
  Proof.
    intros Hi Hxs Hrun Hsh j i0 h r o' Hi0 Hj Ht. reach H. unfold w in *.
    assert (Hs : (N.of_nat (length (w_core (world_after fuel l))) < 2 ^ 50)%N) by (destruct Hfit as [_ Hfit]; unfold with_header in Hfit; lia).
    destruct (i_program _ _ _ _ HI c Hlen Hs fuel Hf) as [wr Hwr]. set (E := ents t (length (w_core (world_after fuel l))) c) in *.
    set (sps := (wr, fun _ : reply => True) :: map (spec_of E) xs).
    assert (Hone : one_writer sps).
    { intros j1 j2 Q1 Q2 J1 J2. assert (A : forall j Q, sps !! j = Some (true, Q) -> j = 0%nat) by
        (intros [|j0] Q J; [done|change ((spec_of E <$> xs) !! j0 = Some (true, Q)) in J; rewrite list_lookup_fmap in J; by destruct (xs !! j0)]). by rewrite (A _ _ J1), (A _ _ J2). }
    destruct (tasks_flow E _ _ Hlen (i_root _ _ _ _ HI) (i_new _ _) (w_core (world_after fuel l)) eq_refl (i_old _ _ _ _ HI c) (usable l) sps sched Hone
      (map (task fuel) ((i, c, o) :: xs)) (world_after fuel l)) as [_ Hall].
    - cbn. by rewrite !map_length.
    - by eapply i_world.
    - intros [|k] sp th S1 S2.
      + injection S1 as <-. injection S2 as <-. split; [done|]. exists nothing. split; [done|]. apply i_track.
      + change ((spec_of E <$> xs) !! k = Some sp) in S1. change ((task fuel <$> xs) !! k = Some th) in S2. rewrite list_lookup_fmap in S1. rewrite list_lookup_fmap in S2. destruct (xs !! k) as [[[i1 c1] o1]|] eqn:Ex; [|done]. injection S1 as <-. injection S2 as <-.
        rewrite Forall_forall in Hxs. destruct (Hxs (i1, c1, o1) (elem_of_list_lookup_2 _ _ _ Ex)) as [X1 X2]. cbn in X1, X2.
        split; [done|]. exists nothing. split; [by eapply i_reader|]. apply i_track_reader.
    - by rewrite Hrun.
    - rewrite Hrun in Hall. destruct (lookup_lt_is_Some_2 xs j Hj) as [[[i1 c1] o1] Ex]. cbn [fst snd] in Hall.
      destruct (Hall (S j) (spec_of E (i1, c1, o1)) _ ltac:(change ((spec_of E <$> xs) !! j = Some (spec_of E (i1, c1, o1))); by rewrite list_lookup_fmap, Ex) Ht) as (_ & K & [Hse Hk] & _). cbn in Hk.
      assert (Hg : grows (written_by c) (w_core (world_after fuel l)) (w_core w')).
      { pose proof (tasks_grow fuel ((i, c, o) :: xs) sched (world_after fuel l)) as Hg. rewrite Hrun in Hg. eapply grows_weaken; [|exact Hg].
        intros b Hb. eapply readers_write_nothing; [|exact Hb]. eapply Forall_impl; [exact Hxs|]. by intros x []. }
      eapply reply_old_or_put; [done..|exact Hk| |exact Hse].
      eapply (tasks_borne_out fuel [] l _ sched ts w' (fun _ => false)); [apply Forall_forall; done|unfold world_after in Hrun; exact Hrun| |exact Ht].
      cbn. exact Ex.
  Qed.

  Lemma after_giving_up i c o k xs sched ts w' : usable l i -> Forall reader xs ->
    tasks_run sched (map (task fuel) xs) (world_after fuel (l ++ [EvDrop i c o k])) = (ts, w') -> Forall (fun raw => u64 (blen raw)) (w_core w') ->
    forall j i0 h r o', usable l i0 -> ts !! j = Some (Thread h (Ret r) o') -> old_or_put fuel w i0 c r.
  Proof.
    intros Hi Hxs Hrun Hsh j i0 h r o' Hi0 Ht. reach H. unfold w in *.
    assert (Hs : (N.of_nat (length (w_core (world_after fuel l))) < 2 ^ 50)%N) by (destruct Hfit as [_ Hfit]; unfold with_header in Hfit; lia).
    destruct (i_program _ _ _ _ HI c Hlen Hs fuel Hf) as [wr Hwr]. set (E := ents t (length (w_core (world_after fuel l))) c) in *.
    set (s1 := snd (run_upto k (api fuel c) (view (world_after fuel l) i o))).
    assert (Ew1 : world_after fuel (l ++ [EvDrop i c o k]) = commit_view (world_after fuel l) i s1).
    { unfold world_after at 1. rewrite play_app, E1. done. }
    assert (Hg1 : grows (written_by c) (w_core (world_after fuel l)) (core s1)).
    { eapply writes_upto. eapply (api_says fuel c). }
    pose proof Hrun as Hrun'. rewrite Ew1 in Hrun.
    assert (Hg2 : grows (written_by c) (core s1) (w_core w')).
    { pose proof (tasks_grow fuel xs sched (commit_view (world_after fuel l) i s1)) as Hg. rewrite Hrun in Hg. eapply grows_weaken; [|exact Hg].
      intros b Hb. eapply (readers_write_nothing xs); [eapply Forall_impl; [exact Hxs|]; by intros x []|]. destruct Hb as (c' & B1 & B2). exists c'. split; [by right|done]. }
    destruct (flow_upto E _ _ Hlen (i_root _ _ _ _ HI) (i_new _ _) (w_core (world_after fuel l)) eq_refl (i_old _ _ _ _ HI c) wr k _ nothing _ (view (world_after fuel l) i o) Hwr) as (K1 & _ & HM).
    { apply i_track. } { by apply (wg_cache _ _ _ _ _ (i_world _ _ _ _ HI c)). } { by left. }
    { destruct Hg2 as (D & HD & _). rewrite HD in Hsh. by apply Forall_app in Hsh as [Hsh _]. }
    set (sps := map (spec_of E) xs).
    assert (Hone : one_writer sps).
    { intros j1 j2 Q1 Q2 J1 J2. unfold sps in *. rewrite list_lookup_fmap in J1. by destruct (xs !! j1). }
    destruct (tasks_flow E _ _ Hlen (i_root _ _ _ _ HI) (i_new _ _) (w_core (world_after fuel l)) eq_refl (i_old _ _ _ _ HI c) (usable l) sps sched Hone
      (map (task fuel) xs) (commit_view (world_after fuel l) i s1)) as [_ Hall].
    - unfold sps. by rewrite !map_length.
    - eapply commit_good; [by eapply i_world|exact HM].
    - intros k1 sp th S1 S2. unfold sps in S1.
      rewrite list_lookup_fmap in S1. rewrite list_lookup_fmap in S2. destruct (xs !! k1) as [[[i1 c1] o1]|] eqn:Ex; [|done]. injection S1 as <-. injection S2 as <-.
      rewrite Forall_forall in Hxs. destruct (Hxs (i1, c1, o1) (elem_of_list_lookup_2 _ _ _ Ex)) as [X1 X2]. cbn in X1, X2.
      split; [done|]. exists nothing. split; [by eapply i_reader|]. apply i_track_reader.
    - by rewrite Hrun.
    - rewrite Hrun in Hall. cbn [fst snd] in Hall.
      assert (Hj : (j < length xs)%nat).
      { apply lookup_lt_Some in Ht. pose proof (tasks_handles sched (map (task fuel) xs) (commit_view (world_after fuel l) i s1)) as HH. rewrite Hrun in HH.
        apply (f_equal length) in HH. rewrite !map_length in HH. cbn in HH. lia. }
      destruct (lookup_lt_is_Some_2 xs j Hj) as [[[i1 c1] o1] Ex].
      destruct (Hall j (spec_of E (i1, c1, o1)) _ ltac:(unfold sps; by rewrite list_lookup_fmap, Ex) Ht) as (_ & K & [Hse Hk] & _). cbn in Hk.
      eapply reply_old_or_put; [done|done|done|done|by eapply grows_trans|done|exact Hk| |exact Hse].
      eapply (tasks_borne_out fuel [] (l ++ [EvDrop i c o k]) _ sched ts w' (fun _ => false)); [apply Forall_forall; done|unfold world_after in Hrun'; exact Hrun'|exact Ex|exact Ht].
  Qed.
End final.
