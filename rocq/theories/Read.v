(** What the read operations return, for sequential use and for concurrent
    readers at once: the section below is instantiated with both. *)
From Coq.Strings Require Import Byte.
From Coq Require Import Lia Sorting.Sorted.
From stdpp Require Import prelude gmap.
From Verif Require Import Bytes Codec Model Order Wp Store Tree Iter.

Local Arguments decode_block : simpl never.
Local Arguments blocks_get : simpl never.

(** The key and value of sequence number [q] are known to be [D q]. *)
Definition kok (D : nat -> kvdata) (s : st) (q : nat) : Prop :=
  exists b, blk (core s) q = Some b /\ D q = KV q (b_key b) (b_value b).

(** The handle finds tree [t] below the reference of [t]. *)
Definition ready (D : nat -> kvdata) (s : st) (t : tree) : Prop :=
  forall u, u ∈ subs t -> hnode s (tref u) = Some (node_of u) /\ Forall (kok D s) (tkeys u).

(** The result of descending: the nodes passed, the last one first. *)
Inductive desc (D : nat -> kvdata) (key : limit) : tree -> option nat -> list (tree * nat) -> Prop :=
| desc_hit t q i : idx_ok D key (tkeys t) (Some q) i -> desc D key t (Some q) [(t, i)]
| desc_leaf t i : idx_ok D key (tkeys t) None i -> tkids t = [] -> desc D key t None [(t, i)]
| desc_step t i c m p :
    idx_ok D key (tkeys t) None i -> tkids t !! i = Some c -> desc D key c m p ->
    desc D key t m (p ++ [(t, i)]).

(** ** Traversal *)

(** The yielded items are the expected ones, where an error item stands for a
    failure and for missing ones: at most one key, a child ([K]), or the rest.  [o] and
    [o'] are the schedules before and after. *)
Inductive tr (D : nat -> kvdata) (K : list (nat * tree) -> Prop) (s : st) (o' : list fault)
    : list fault -> list (item * nid) -> list (nat * tree) -> bool -> Prop :=
| tr_nil o : o' `suffix_of` o -> tr D K s o' o [] [] false
| tr_ok o q u n its l b :
    heap s !! n = Some (node_of u) -> tr D K s o' o its l b -> tr D K s o' o ((IOk (D q), n) :: its) ((q, u) :: l) b
| tr_key o o1 e n seg its l b : hit e o o1 -> (length seg <= 1)%nat -> tr D K s o' o1 its l b ->
    tr D K s o' o ((IErr e, n) :: its) (seg ++ l) b
| tr_child o o1 e n seg its l b : hit e o o1 -> K seg -> tr D K s o' o1 its l b ->
    tr D K s o' o ((IErr (EGetChildInTraverse e), n) :: its) (seg ++ l) b
| tr_iter o e n l : hit e o o' -> tr D K s o' o [(IErr (EBuildIterator e), n)] l true.

Lemma tr_l D K s o o1 o' its l b : o1 `suffix_of` o -> tr D K s o' o1 its l b -> tr D K s o' o its l b.
Proof.
  intros Ho H. revert o Ho. induction H; intros o0 Ho.
  - constructor. by etransitivity.
  - constructor; auto.
  - eapply tr_key; [by eapply hit_l|done|]. by apply IHtr.
  - eapply tr_child; [by eapply hit_l|done|]. by apply IHtr.
  - constructor. by eapply hit_l.
Qed.
Lemma tr_r D K s o o1 o' its l b : o' `suffix_of` o1 -> tr D K s o1 o its l b -> tr D K s o' o its l b.
Proof.
  intros Ho H. induction H.
  - constructor. by etransitivity.
  - by constructor.
  - by eapply tr_key.
  - by eapply tr_child.
  - constructor. by eapply hit_r.
Qed.
Lemma tr_app D K s o1 o2 o a b l l' x : tr D K s o1 o a l false -> tr D K s o2 o1 b l' x -> tr D K s o2 o (a ++ b) (l ++ l') x.
Proof.
  remember false as y eqn:E. intros H. revert E. induction H; intros E Hb; simpl.
  - by eapply tr_l.
  - constructor; auto.
  - rewrite <-app_assoc. eapply tr_key; eauto.
  - rewrite <-app_assoc. eapply tr_child; eauto.
  - done.
Qed.
Lemma tr_more D K s o o' its l rest : tr D K s o' o its l true -> tr D K s o' o its (l ++ rest) true.
Proof.
  remember true as y eqn:E. intros H. revert E. induction H; intros E; simpl; [done|constructor; auto|..|by constructor].
  - rewrite <-app_assoc. eapply tr_key; eauto.
  - rewrite <-app_assoc. eapply tr_child; eauto.
Qed.
Lemma tr_K D (K K' : list (nat * tree) -> Prop) s o o' its l b : (forall x, K x -> K' x) -> tr D K s o' o its l b -> tr D K' s o' o its l b.
Proof. intros HK. induction 1; eauto using tr_nil, tr_ok, tr_key, tr_child, tr_iter. Qed.

(** The part of a traversal below a child. *)
Definition kids_of (D : nat -> kvdata) (conf : config) (T : tree) (seg : list (nat * tree)) : Prop :=
  exists v c, v ∈ subs T /\ c ∈ tkids v /\ seg = expected D conf c.

Definition is_err (x : item * nid) : Prop := exists e, fst x = IErr e.

Lemma tr_no_err D K s o' o its l b :
  tr D K s o' o its l b -> ~ Exists is_err its -> map fst its = map (fun x => IOk (D (fst x))) l.
Proof.
  induction 1 as [|? q u n its l b Hn H IH|? ? e n seg its l b H1 H2 H IH|? ? e n seg its l b H1 H2 H IH|]; intros He; simpl; [done| |..].
  - f_equal. apply IH. intros Hx. apply He. by right.
  - exfalso. apply He. left. by eexists.
  - exfalso. apply He. left. by eexists.
  - exfalso. apply He. left. by eexists.
Qed.
Lemma tr_faulty D K s o' o its l b : tr D K s o' o its l b -> b = true \/ Exists is_err its -> faulty o.
Proof.
  assert (forall e o o1, hit e o o1 -> faulty o) as Hh by (intros; by eapply failing_faulty, hit_failing).
  induction 1 as [|? q u n its l b Hn H IH|? ? e n seg its l b H1 H2 H IH|? ? e n seg its l b H1 H2 H IH|]; intros He; eauto.
  - destruct He as [He|He]; [done|inversion He].
  - apply IH. destruct He as [He|He]; [by left|right]. inversion He as [?? Hx|?? Hx]; subst; [by destruct Hx|done].
Qed.

(** A program after its first command, when that reads the length of the core. *)
Definition started {A} (n : nat) (p : prog A) : prog A := match p with CoreLen k => k n | _ => p end.
Lemma started_get_root {A} n (f : option nid -> prog A) :
  started n (pbind (get_root false) f) = pbind (started n (get_root false)) f.
Proof. done. Qed.

Section read.
  Context (R G X : st -> st -> Prop) (W : st -> Prop) (L : st -> ref -> nid -> Prop).
  Context (Rrefl : forall s, R s s) (RX : forall s s', R s s' -> X s s').
  Context (Xrefl : forall s, X s s) (Xtrans : forall s1 s2 s3, X s1 s2 -> X s2 s3 -> X s1 s3).
  Context (XW : forall s s', X s s' -> W s -> W s').
  Context (Xheap : forall s s' n nd, X s s' -> heap s !! n = Some nd -> heap s' !! n = Some nd).
  Context (Xblk : forall s s' q b, X s s' -> blk (core s) q = Some b -> blk (core s') q = Some b).
  Context (Xhnode : forall s s' r nd, X s s' -> W s -> hnode s r = Some nd -> hnode s' r = Some nd).
  Context (XL : forall s s' r n, X s s' -> L s r n -> L s' r n).
  Context (Xora : forall s s', X s s' -> oracle s' `suffix_of` oracle s).
  Context (Hget : forall q b s (Q : entry -> st -> Prop) (E : stop -> st -> Prop),
    W s -> blk (core s) q = Some b ->
    (forall e s', X s s' -> W s' -> e_key e = b_key b -> e_value e = b_value b ->
       (forall off nd, hnode s (q, off) = Some nd ->
          exists n, e_nodes e !! off = Some n /\ heap s' !! n = Some nd /\ L s' (q, off) n) ->
       Q e s') ->
    (forall e s', X s s' -> W s' -> hit e (oracle s) (oracle s') -> E (SErr e) s') ->
    rwp R G (blocks_get q) Q E s).

  Local Notation wp := (rwp R G).

  Definition Eok (E : stop -> st -> Prop) (s : st) : Prop :=
    forall e s', X s s' -> W s' -> hit e (oracle s) (oracle s') -> E (SErr e) s'.

  Lemma Eok_mono E s s1 : X s s1 -> Eok E s -> Eok E s1.
  Proof.
    intros Hx HE e s' Hx' Hw Hf. apply HE; [by eapply Xtrans|done|].
    eapply hit_l; [by apply Xora|done].
  Qed.

  Lemma faulty_X s s' : X s s' -> faulty (oracle s') -> faulty (oracle s).
  Proof. intros Hx. apply faulty_suffix. by apply Xora. Qed.

  Lemma kok_mono D s s' q : X s s' -> kok D s q -> kok D s' q.
  Proof. intros Hx (b & H1 & H2). exists b. split; [by eapply Xblk|done]. Qed.
  Lemma koks_mono D s s' l : X s s' -> Forall (kok D s) l -> Forall (kok D s') l.
  Proof. intros Hx H. eapply Forall_impl; [exact H|]. intros. by eapply kok_mono. Qed.
  Lemma ready_mono D s s' t : X s s' -> W s -> ready D s t -> ready D s' t.
  Proof.
    intros Hx Hw Hr u Hu. destruct (Hr u Hu) as [H1 H2].
    split; [by eapply Xhnode|by eapply koks_mono].
  Qed.
  Lemma ready_kid D s t c : c ∈ tkids t -> ready D s t -> ready D s c.
  Proof. intros Hc Hr u Hu. apply Hr. by eapply subs_kid. Qed.

  Lemma tr_mono D K s s' o' o its l b : X s s' -> tr D K s o' o its l b -> tr D K s' o' o its l b.
  Proof. intros Hx. induction 1; eauto using tr_nil, tr_ok, tr_key, tr_child, tr_iter. Qed.

  (** Basic commands. *)
  Lemma wp_ret {A} (a : A) (Q : A -> st -> Prop) (E : stop -> st -> Prop) s :
    (forall s', X s s' -> Q a s') -> wp (Ret a) Q E s.
  Proof. intros H s1 H1. apply H. by apply RX. Qed.

  Lemma wp_node_get n nd (Q : node -> st -> Prop) (E : stop -> st -> Prop) s :
    heap s !! n = Some nd -> (forall s', X s s' -> Q nd s') -> wp (node_get n) Q E s.
  Proof.
    intros Hn HQ. unfold node_get. simpl. intros s1 H1. apply RX in H1.
    rewrite (Xheap _ _ _ _ H1 Hn). intros s2 H2. apply RX in H2. apply HQ. by eapply Xtrans.
  Qed.

  Lemma wp_num_keys n nd (Q : nat -> st -> Prop) (E : stop -> st -> Prop) s :
    heap s !! n = Some nd -> (forall s', X s s' -> Q (length (n_keys nd)) s') ->
    wp (num_keys n) Q E s.
  Proof.
    intros Hn HQ. unfold num_keys. apply rwp_bind; [done|]. eapply wp_node_get; [done|]. intros s1 H1.
    apply wp_ret. intros s2 H2. apply HQ. by eapply Xtrans.
  Qed.
  Lemma wp_num_children n nd (Q : nat -> st -> Prop) (E : stop -> st -> Prop) s :
    heap s !! n = Some nd -> (forall s', X s s' -> Q (length (n_children nd)) s') ->
    wp (num_children n) Q E s.
  Proof.
    intros Hn HQ. unfold num_children. apply rwp_bind; [done|]. eapply wp_node_get; [done|]. intros s1 H1.
    apply wp_ret. intros s2 H2. apply HQ. by eapply Xtrans.
  Qed.
  Lemma wp_is_leaf n nd (Q : bool -> st -> Prop) (E : stop -> st -> Prop) s :
    heap s !! n = Some nd ->
    (forall s', X s s' -> Q (length (n_children nd) =? 0)%nat s') ->
    wp (is_leaf n) Q E s.
  Proof.
    intros Hn HQ. unfold is_leaf. apply rwp_bind; [done|]. eapply wp_num_children; [done|]. intros s1 H1.
    apply wp_ret. intros s2 H2. apply HQ. by eapply Xtrans.
  Qed.

  Lemma wp_get_key_value D n nd i q (Q : kvdata -> st -> Prop) (E : stop -> st -> Prop) s :
    W s -> heap s !! n = Some nd -> n_keys nd !! i = Some q -> kok D s q ->
    (forall s', X s s' -> W s' -> Q (D q) s') -> Eok E s ->
    wp (get_key_value n i) Q E s.
  Proof.
    intros Hw Hn Hi (b & Hb & HD) HQ HE. unfold get_key_value. apply rwp_bind; [done|].
    eapply wp_node_get; [done|]. intros s1 H1. rewrite Hi. cbn [unwrap pbind].
    apply rwp_bind; [done|].
    eapply (Hget q b); [by eapply XW|by eapply Xblk| |].
    2:{ intros e s' Hx Hw' Hf. eapply Eok_mono; [exact H1|exact HE|..]; done. }
    intros e1 s2 H2 Hw2 Hk1 _ _. apply rwp_bind; [done|].
    assert (X s s2) as H02 by (by eapply Xtrans).
    eapply (Hget q b); [done|by eapply Xblk| |].
    2:{ intros e s' Hx Hw' Hf. eapply Eok_mono; [exact H02|exact HE|..]; done. }
    intros e2 s3 H3 Hw3 _ Hv2 _. apply wp_ret. intros s4 H4.
    rewrite Hk1, Hv2, <-HD. apply HQ; [|by eapply XW]. eauto.
  Qed.

  Lemma wp_get_child n nd i r cnd (Q : nid -> st -> Prop) (E : stop -> st -> Prop) s :
    W s -> heap s !! n = Some nd -> n_children nd !! i = Some r ->
    hnode s r = Some cnd -> is_Some (blk (core s) (fst r)) ->
    (forall c s', X s s' -> W s' -> heap s' !! c = Some cnd -> L s' r c -> Q c s') -> Eok E s ->
    wp (get_child n i) Q E s.
  Proof.
    intros Hw Hn Hi Hr [b Hb] HQ HE. unfold get_child. apply rwp_bind; [done|].
    eapply wp_node_get; [done|]. intros s1 H1. rewrite Hi. cbn [unwrap pbind].
    apply rwp_bind; [done|].
    eapply (Hget (fst r) b); [by eapply XW|by eapply Xblk| |].
    2:{ intros e s' Hx Hw' Hf. eapply Eok_mono; [exact H1|exact HE|..]; done. }
    intros e s2 H2 Hw2 _ _ Hnodes.
    assert (hnode s1 (fst r, snd r) = Some cnd) as Hr1.
    { destruct r. simpl. by eapply Xhnode. }
    destruct (Hnodes _ _ Hr1) as (c & Hc & Hh & HL).
    unfold get_tree_node. rewrite Hc. cbn [unwrap]. intros s3 H3. apply RX in H3. apply HQ.
    - eauto.
    - by eapply XW.
    - by eapply Xheap.
    - eapply XL; [done|]. by destruct r.
  Qed.

  Lemma hnode_blk s r nd : cwf s -> hnode s r = Some nd -> is_Some (blk (core s) (fst r)).
  Proof.
    intros Hw. unfold hnode. destruct (cache s !! fst r) as [e|] eqn:E.
    - intros _. destruct (Hw _ _ E) as (b & Hb & _). by exists b.
    - unfold cnode. destruct (blk (core s) (fst r)) as [b|]; [|done]. by intros _; exists b.
  Qed.

  Context (Wcwf : forall s, W s -> cwf s).

  Lemma wp_get_child_tree D n u i c (Q : nid -> st -> Prop) (E : stop -> st -> Prop) s :
    W s -> heap s !! n = Some (node_of u) -> tkids u !! i = Some c -> ready D s c ->
    (forall cn s', X s s' -> W s' -> heap s' !! cn = Some (node_of c) -> L s' (tref c) cn -> Q cn s') ->
    Eok E s ->
    wp (get_child n i) Q E s.
  Proof.
    intros Hw Hn Hi Hr HQ HE. destruct (Hr c (subs_self c)) as [Hc _].
    eapply wp_get_child; [done|exact Hn| |exact Hc| |exact HQ|exact HE].
    - simpl. rewrite list_lookup_fmap, Hi. done.
    - eapply hnode_blk; [by apply Wcwf|exact Hc].
  Qed.

  (** ** Searching a node *)
  Lemma wp_search_loop D n nd key (Q : option nat * nat -> st -> Prop) (E : stop -> st -> Prop) fuel :
    forall low high s,
    W s -> heap s !! n = Some nd -> Forall (kok D s) (n_keys nd) -> ksorted D (n_keys nd) ->
    (high < length (n_keys nd))%nat -> (low <= high + 1)%nat -> (high + 1 - low < fuel)%nat ->
    (forall j q, (j < low)%nat -> n_keys nd !! j = Some q -> limit_cmp key (keyof D q) = Gt) ->
    (forall j q, (high < j)%nat -> n_keys nd !! j = Some q -> limit_cmp key (keyof D q) = Lt) ->
    (forall m i s', X s s' -> W s' -> idx_ok D key (n_keys nd) m i -> Q (m, i) s') -> Eok E s ->
    wp (search_loop fuel n key low high) Q E s.
  Proof.
    induction fuel as [|fuel IH]; intros low high s Hw Hn Hk Hsort Hh Hl Hf Hlow Hhigh HQ HE; [lia|].
    cbn [search_loop]. destruct (Nat.leb_spec low high) as [Hle|Hgt].
    2:{ apply wp_ret. intros s' H'. apply HQ; [done|by eapply XW|].
        split; [lia|]. split; [done|]. intros j q Hj. apply Hhigh. lia. }
    set (mid := (low + Nat.div2 (high - low))%nat).
    assert (low <= mid <= high)%nat as Hmid.
    { unfold mid. pose proof (Nat.div2_decr (high - low) (high - low)). lia. }
    destruct (lookup_lt_is_Some_2 (n_keys nd) mid ltac:(lia)) as [q Hq].
    apply rwp_bind; [done|].
    eapply (wp_get_key_value D); [done|exact Hn|exact Hq| | |exact HE].
    { rewrite Forall_forall in Hk. apply Hk. by eapply elem_of_list_lookup_2. }
    intros s1 H1 Hw1. assert (HQ1 := HQ). assert (Hk1 := koks_mono _ _ _ _ H1 Hk).
    change (kv_key (D q)) with (keyof D q).
    destruct (limit_eq key (keyof D q)) eqn:Eeq.
    { apply limit_eq_cmp in Eeq. apply wp_ret. intros s2 H2.
      assert (X s s2) as H02 by eauto.
      assert (kok D s q) as (b & _ & HD).
      { rewrite Forall_forall in Hk. apply Hk. by eapply elem_of_list_lookup_2. }
      rewrite HD. simpl. apply HQ; [done|by eapply XW|]. done. }
    assert (limit_cmp key (keyof D q) <> Eq) as Hneq.
    { intros Hc. apply limit_eq_cmp in Hc. congruence. }
    destruct (limit_lt key (keyof D q)) eqn:Elt.
    - apply limit_lt_cmp in Elt.
      assert (forall j q', (mid <= j)%nat -> n_keys nd !! j = Some q' -> limit_cmp key (keyof D q') = Lt) as Hge.
      { intros j q' Hj Hq'. destruct (decide (j = mid)) as [->|]; [congruence|].
        eapply limit_cmp_mono_lt; [|eapply (ksorted_lookup D _ mid j); [done|lia|done|done]].
        congruence. }
      destruct (Nat.eqb_spec mid 0) as [Hz|Hnz].
      + apply wp_ret. intros s2 H2. assert (X s s2) as H02 by eauto.
        apply HQ; [done|by eapply XW|]. split; [lia|]. split; [done|].
        intros j q' Hj. apply Hge. lia.
      + apply IH; [done|by eapply Xheap|done|done|lia|lia|lia|done| | |].
        * intros j q' Hj. apply Hge. lia.
        * intros m i s' Hx. apply HQ. by eapply Xtrans.
        * by eapply Eok_mono.
    - assert (limit_cmp key (keyof D q) = Gt) as Hgt.
      { destruct (limit_cmp key (keyof D q)) eqn:Ec; try done. apply limit_lt_cmp in Ec. congruence. }
      apply IH; [done|by eapply Xheap|done|done|lia|lia|lia| |done| |].
      + intros j q' Hj Hq'. destruct (decide (j = mid)) as [->|]; [congruence|].
        eapply limit_cmp_mono_gt; [|eapply (ksorted_lookup D _ j mid); [done|lia|done|done]].
        congruence.
      + intros m i s' Hx. apply HQ. by eapply Xtrans.
      + by eapply Eok_mono.
  Qed.

  Lemma wp_get_index_of_key D n nd key (Q : option nat * nat -> st -> Prop) (E : stop -> st -> Prop) s :
    W s -> heap s !! n = Some nd -> Forall (kok D s) (n_keys nd) -> ksorted D (n_keys nd) ->
    (forall m i s', X s s' -> W s' -> idx_ok D key (n_keys nd) m i -> Q (m, i) s') -> Eok E s ->
    wp (get_index_of_key n key) Q E s.
  Proof.
    intros Hw Hn Hk Hsort HQ HE. unfold get_index_of_key. apply rwp_bind; [done|].
    eapply wp_num_keys; [done|]. intros s1 H1.
    destruct (Nat.eqb_spec (length (n_keys nd)) 0) as [Hz|Hnz].
    - apply wp_ret. intros s2 H2. assert (X s s2) as H02 by eauto.
      apply HQ; [done|by eapply XW|]. apply nil_length_inv in Hz. rewrite Hz.
      split; [simpl; lia|]. split; intros j q _ Hq; by rewrite lookup_nil in Hq.
    - eapply wp_search_loop; [by eapply XW|by eapply Xheap|by eapply koks_mono|done|lia|lia|lia| | | |].
      + intros j q Hj. lia.
      + intros j q Hj Hq. apply lookup_lt_Some in Hq. lia.
      + intros m i s' Hx. apply HQ. by eapply Xtrans.
      + by eapply Eok_mono.
  Qed.

  (** ** Descending *)
  Definition path_ok (s : st) (p : path) (tp : list (tree * nat)) : Prop :=
    Forall2 (fun (x : nid * nat) (y : tree * nat) =>
      snd x = snd y /\ heap s !! fst x = Some (node_of (fst y)) /\ L s (tref (fst y)) (fst x)) p tp.

  Lemma path_ok_mono s s' p tp : X s s' -> path_ok s p tp -> path_ok s' p tp.
  Proof.
    intros Hx H. eapply Forall2_impl; [exact H|]. intros x y (H1 & H2 & H3). eauto.
  Qed.

  Lemma wp_nearest_loop D key (Q : option nat * path -> st -> Prop) (E : stop -> st -> Prop) fuel :
    forall t h n acc s,
    W s -> ready D s t -> shape h t -> ksorted D (flat t) -> (h < fuel)%nat ->
    heap s !! n = Some (node_of t) -> L s (tref t) n ->
    (forall m p tp s', X s s' -> W s' -> desc D key t m tp -> path_ok s' p tp -> Q (m, p ++ acc) s') ->
    Eok E s ->
    wp (nearest_loop fuel n key acc) Q E s.
  Proof.
    induction fuel as [|fuel IH]; intros t h n acc s Hw Hr Hs Hsort Hf Hn HL HQ HE; [lia|].
    cbn [nearest_loop]. apply rwp_bind; [done|].
    eapply (wp_get_index_of_key D); [done|exact Hn| | | |exact HE].
    { apply (Hr t (subs_self t)). }
    { eapply ksorted_sublist; [by eapply tkeys_sublist|done]. }
    intros m i s1 H1 Hw1 Hidx. simpl in Hidx.
    assert (Hn1 := Xheap _ _ _ _ H1 Hn). assert (HL1 := XL _ _ _ _ H1 HL).
    destruct m as [q|].
    { apply wp_ret. intros s2 H2. assert (X s s2) as H02 by eauto.
      eapply (HQ _ [(n, i)]); [done|by eapply XW|by apply desc_hit|].
      constructor; [|constructor]. eauto. }
    apply rwp_bind; [done|]. eapply wp_is_leaf; [exact Hn1|]. intros s2 H2.
    unfold node_of at 1. cbn [n_children].
    assert (X s s2) as H02 by eauto. rewrite map_length.
    destruct (Nat.eqb_spec (length (tkids t)) 0) as [Hz|Hnz].
    { apply nil_length_inv in Hz. apply wp_ret. intros s3 H3. assert (X s s3) as H03 by eauto.
      eapply (HQ _ [(n, i)]); [done|by eapply XW|by apply desc_leaf|].
      constructor; [|constructor]. eauto. }
    destruct h as [|h]; [apply shape_leaf in Hs; by rewrite Hs in Hnz|].
    destruct Hidx as (Hi & Hlt & Hge).
    destruct (lookup_lt_is_Some_2 (tkids t) i) as [c Hc].
    { rewrite (shape_kids_length _ _ Hs). lia. }
    assert (c ∈ tkids t) as Hcin by (by eapply elem_of_list_lookup_2).
    apply rwp_bind; [done|].
    eapply (wp_get_child_tree D); [by eapply XW|eapply Xheap; [exact H02|exact Hn]|exact Hc| | |by eapply Eok_mono].
    { eapply ready_mono; [exact H02|done|]. by eapply ready_kid. }
    intros cn s3 H3 Hw3 Hcn HLc. assert (X s s3) as H03 by eauto.
    eapply (IH c h); [done| |by eapply shape_kids| |lia|done|done| |].
    - eapply ready_mono; [exact H03|done|]. by eapply ready_kid.
    - eapply ksorted_sublist; [by eapply kid_sublist|done].
    - intros m p tp s4 H4 Hw4 Hd Hp. assert (X s s4) as H04 by eauto.
      replace (p ++ (n, i) :: acc) with ((p ++ [(n, i)]) ++ acc) by (by rewrite <-app_assoc).
      eapply HQ; [done|done|by eapply desc_step|].
      apply Forall2_app; [done|]. constructor; [|constructor]. split; [done|]. eauto.
    - by eapply Eok_mono.
  Qed.

  Lemma wp_nearest_node D key (Q : option nat * path -> st -> Prop) (E : stop -> st -> Prop) fuel t h n s :
    W s -> ready D s t -> shape h t -> ksorted D (flat t) -> (h < fuel)%nat ->
    heap s !! n = Some (node_of t) -> L s (tref t) n ->
    (forall m p tp s', X s s' -> W s' -> desc D key t m tp -> path_ok s' p tp -> Q (m, p) s') ->
    Eok E s ->
    wp (nearest_node fuel n key) Q E s.
  Proof.
    intros Hw Hr Hs Hsort Hf Hn HL HQ HE. eapply wp_nearest_loop; try done.
    intros m p tp s' Hx Hw' Hd Hp. rewrite app_nil_r. by eapply HQ.
  Qed.

  (** A consumer that sees the items of a whole tree, and that gives up at the first error.
      [Inv l acc]: the consumer has seen the keys [l]. *)
  Lemma all_default D (l : list (nat * tree)) : dl default_config (List.filter (inr D default_config) l) = l.
  Proof. unfold dl. cbn [default_config t_rev]. induction l as [|x l IH]; [done|]. cbn [List.filter]. by rewrite IH. Qed.

  Lemma wp_each_loop {A} D o0 u h n (Inv : list (nat * tree) -> A -> Prop) (body : item * nid -> A -> prog A)
      (rec : nid -> A -> prog (A * bool)) (E : stop -> st -> Prop) :
    shape h u -> ksorted D (flat u) ->
    (forall q acc l s (Q : A -> st -> Prop), q ∈ tkeys u -> W s -> oracle s `suffix_of` o0 -> ready D s u -> heap s !! n = Some (node_of u) -> Inv l acc ->
       (forall acc' s', X s s' -> W s' -> Inv (l ++ [(q, u)]) acc' -> Q acc' s') -> wp (body (IOk (D q), n) acc) Q E s) ->
    (forall e acc s (Q : A -> st -> Prop), faulty o0 -> W s -> oracle s `suffix_of` o0 -> ready D s u -> heap s !! n = Some (node_of u) ->
       wp (body (IErr e, n) acc) Q E s) ->
    (forall c cn acc l s (Q : A * bool -> st -> Prop), c ∈ tkids u -> W s -> oracle s `suffix_of` o0 -> ready D s c ->
       heap s !! cn = Some (node_of c) -> Inv l acc ->
       (forall acc' s', X s s' -> W s' -> Inv (l ++ flatn c) acc' -> Q (acc', false) s') -> wp (rec cn acc) Q E s) ->
    forall idxs l acc s (Q : A * bool -> st -> Prop),
    W s -> oracle s `suffix_of` o0 -> ready D s u -> heap s !! n = Some (node_of u) -> Forall (idx_valid u) idxs -> Inv l acc ->
    (forall acc' s', X s s' -> W s' -> Inv (l ++ expect_idxs D default_config u idxs) acc' -> Q (acc', false) s') ->
    wp (each_loop body rec default_config n idxs acc) Q E s.
  Proof.
    intros Hs Hsort Hbody Herr Hrec.
    assert (forall s s', X s s' -> oracle s `suffix_of` o0 -> oracle s' `suffix_of` o0) as Hff.
    { intros s s' Hx Hnf. etrans; [by apply Xora|done]. }
    induction idxs as [|i idxs IH]; intros l acc s Q Hw Hnf Hr Hn Hv HI HQ.
    { cbn [each_loop]. apply wp_ret. intros s1 H1. apply HQ; [done|by eapply XW|]. unfold expect_idxs. cbn [map concat]. by rewrite app_nil_r. }
    inversion Hv as [|?? Hvi Hv']; subst.
    assert (forall l' acc' s', X s s' -> W s' -> Inv (l ++ l') acc' ->
      expect_at D default_config u i = l' ->
      wp (each_loop body rec default_config n idxs acc') Q E s') as IH'.
    { intros l' acc' s' Hx Hw' HI' El. eapply (IH (l ++ l')); [done|by eapply Hff|by eapply ready_mono|by eapply Xheap|done|done|].
      intros acc2 s2 H2 Hw2 HI2. apply HQ; [eauto|done|]. unfold expect_idxs. cbn [map concat]. rewrite El, app_assoc. exact HI2. }
    cbn [each_loop]. unfold expect_at in IH'. setoid_rewrite all_default in IH'. unfold idx_valid in Hvi.
    destruct (parity i) as [[j ->]|[j ->]].
    - rewrite even_2, div2_2 in *. destruct Hvi as [c Hc]. rewrite segl_even, Hc in IH'.
      assert (c ∈ tkids u) as Hcin by (by eapply elem_of_list_lookup_2).
      apply rwp_bind; [done|]. apply rwp_catch.
      eapply (wp_get_child_tree D); [done|exact Hn|exact Hc|by eapply ready_kid| |].
      + intros cn s1 H1 Hw1 Hcn _. apply rwp_bind; [done|].
        eapply (Hrec c _ _ l); [done|done|by eapply Hff| |done|done|].
        { eapply ready_mono; [exact H1|done|]. by eapply ready_kid. }
        intros acc' s2 H2 Hw2 HI2. cbn beta iota. eapply IH'; [eauto|done|exact HI2|done].
      + intros e s1 H1 Hw1 Hf. apply rwp_bind; [done|]. apply Herr; [|done|by eapply Hff|by eapply ready_mono|by eapply Xheap].
        eapply faulty_suffix; [exact Hnf|]. by eapply failing_faulty, hit_failing.
    - rewrite even_2_1, div2_2_1 in *. destruct Hvi as [q Hq]. rewrite segl_odd, Hq in IH'.
      assert (kok D s q) as Hk.
      { destruct (Hr u (subs_self u)) as [_ Hk]. rewrite Forall_forall in Hk. apply Hk.
        by eapply elem_of_list_lookup_2. }
      apply rwp_bind; [done|]. apply rwp_catch.
      eapply (wp_get_key_value D); [done|exact Hn|exact Hq|done| |].
      + intros s1 H1 Hw1. replace (in_bounds default_config (kv_key (D q))) with true by done.
        apply rwp_bind; [done|]. eapply (Hbody q _ l); [by eapply elem_of_list_lookup_2|done|by eapply Hff|by eapply ready_mono|by eapply Xheap|done|].
        intros acc' s2 H2 Hw2 HI2. eapply IH'; [eauto|done|exact HI2|done].
      + intros e s1 H1 Hw1 Hf. apply rwp_bind; [done|]. apply Herr; [|done|by eapply Hff|by eapply ready_mono|by eapply Xheap].
        eapply faulty_suffix; [exact Hnf|]. by eapply failing_faulty, hit_failing.
  Qed.

  Lemma wp_each {A} D o0 T hT (Inv : list (nat * tree) -> A -> Prop) (body : item * nid -> A -> prog A) (E : stop -> st -> Prop) fuel :
    (forall q u h n acc l s (Q : A -> st -> Prop), u ∈ subs T -> q ∈ tkeys u -> shape h u -> (h <= hT)%nat ->
       W s -> oracle s `suffix_of` o0 -> ready D s u -> heap s !! n = Some (node_of u) -> Inv l acc ->
       (forall acc' s', X s s' -> W s' -> Inv (l ++ [(q, u)]) acc' -> Q acc' s') -> wp (body (IOk (D q), n) acc) Q E s) ->
    (forall e u h n acc s (Q : A -> st -> Prop), faulty o0 -> u ∈ subs T -> shape h u -> (h <= hT)%nat ->
       W s -> oracle s `suffix_of` o0 -> ready D s u -> heap s !! n = Some (node_of u) -> wp (body (IErr e, n) acc) Q E s) ->
    forall u h n l acc s (Q : A * bool -> st -> Prop),
    u ∈ subs T -> (h <= hT)%nat -> W s -> oracle s `suffix_of` o0 -> ready D s u -> shape h u -> ksorted D (flat u) -> (h < fuel)%nat ->
    heap s !! n = Some (node_of u) -> Inv l acc ->
    (forall acc' s', X s s' -> W s' -> Inv (l ++ flatn u) acc' -> Q (acc', false) s') ->
    wp (each body fuel default_config n acc) Q E s.
  Proof.
    intros Hbody Herr.
    assert (forall s s', X s s' -> oracle s `suffix_of` o0 -> oracle s' `suffix_of` o0) as Hff.
    { intros s s' Hx Hnf. etrans; [by apply Xora|done]. }
    induction fuel as [|fuel IH]; intros u h n l acc s Q Hu HhT Hw Hnf Hr Hs Hsort Hf Hn HI HQ; [lia|].
    cbn [each]. apply rwp_bind; [done|]. eapply wp_num_keys; [exact Hn|]. intros s1 H1.
    apply rwp_bind; [done|]. eapply wp_num_children; [by eapply Xheap|]. intros s2 H2.
    assert (X s s2) as H02 by eauto.
    unfold node_of at 1 2. cbn [n_keys n_children]. rewrite map_length.
    apply rwp_bind; [done|]. apply rwp_catch. unfold make_iter. apply rwp_bind; [done|].
    eapply (wp_get_index_of_key D); [by eapply XW|eapply Xheap; [exact H02|exact Hn]| | | |].
    { eapply koks_mono; [exact H02|]. apply (Hr u (subs_self u)). }
    { eapply ksorted_sublist; [by eapply tkeys_sublist|done]. }
    2:{ intros e s3 H3 Hw3 Hfl. apply rwp_bind; [done|].
        eapply (Herr _ u h); [|done|done|done|done|eapply Hff; [|exact Hnf]; eauto|eapply ready_mono; [|exact Hw|done]; eauto|eapply Xheap; [|exact Hn]; eauto].
        eapply faulty_suffix; [eapply Hff; [exact H02|exact Hnf]|]. by eapply failing_faulty, hit_failing. }
    intros m i s3 H3 Hw3 Hidx. unfold node_of in Hidx. cbn [n_keys] in Hidx.
    assert (X s s3) as H03 by eauto.
    apply wp_ret. intros s4 H4. assert (X s s4) as H04 by eauto.
    destruct (iter_spec D default_config u h m i Hs Hsort Hidx) as (I1 & I2 & I3 & I4).
    eapply (wp_each_loop D o0 u h n Inv) with (l := l); [done|done| | | |by eapply XW|by eapply Hff|by eapply ready_mono|by eapply Xheap|exact I2|done|].
    - intros q acc' l' s' Q' Hq Hw' Hnf' Hr' Hn' HI'. by eapply (Hbody q u h).
    - intros e acc' s' Q' Hfl Hw' Hnf' Hr' Hn'. by eapply (Herr e u h).
    - intros c cn acc' l' s5 Q5 Hc Hw5 Hnf5 Hr5 Hn5 HI5 HQ5. destruct h as [|h]; [rewrite (shape_leaf _ Hs) in Hc; by apply elem_of_nil in Hc|].
      eapply (IH c h); [eapply subs_trans; [exact Hu|]; eapply subs_kid; [exact Hc|apply subs_self]|lia|done|done|done| | |lia|done|done|done].
      + by eapply shape_kids.
      + apply elem_of_list_lookup in Hc as [k Hk]. eapply ksorted_sublist; [by eapply kid_sublist|done].
    - intros acc' s5 H5 Hw5 HI5. apply HQ; [eauto|done|].
      rewrite <-(expect_all D default_config u h _ Hs I1 I2 I4) in HI5. unfold expected in HI5. by rewrite all_default in HI5.
  Qed.

  (** ** Height *)
  Lemma wp_node_height D (Q : nat -> st -> Prop) (E : stop -> st -> Prop) fuel :
    forall t h n s,
    W s -> ready D s t -> shape h t -> (h < fuel)%nat -> heap s !! n = Some (node_of t) ->
    (forall s', X s s' -> W s' -> Q (S h) s') -> Eok E s ->
    wp (node_height fuel n) Q E s.
  Proof.
    revert Q. induction fuel as [|fuel IH]; intros Q t h n s Hw Hr Hs Hf Hn HQ HE; [lia|].
    cbn [node_height]. apply rwp_bind; [done|]. eapply wp_is_leaf; [exact Hn|]. intros s1 H1.
    unfold node_of at 1. cbn [n_children].
    rewrite map_length.
    destruct (Nat.eqb_spec (length (tkids t)) 0) as [Hz|Hnz].
    { apply nil_length_inv in Hz. destruct h as [|h]; [|by apply shape_nonleaf in Hs].
      apply wp_ret. intros s2 H2. assert (X s s2) as H02 by eauto. apply HQ; [done|by eapply XW]. }
    destruct h as [|h]; [apply shape_leaf in Hs; by rewrite Hs in Hnz|].
    destruct (lookup_lt_is_Some_2 (tkids t) 0) as [c Hc]; [lia|].
    assert (c ∈ tkids t) as Hcin by (by eapply elem_of_list_lookup_2).
    apply rwp_bind; [done|].
    eapply (wp_get_child_tree D); [by eapply XW|by eapply Xheap|exact Hc| | |by eapply Eok_mono].
    { eapply ready_mono; [exact H1|done|]. by eapply ready_kid. }
    intros cn s2 H2 Hw2 Hcn _. assert (X s s2) as H02 by eauto.
    apply rwp_bind; [done|]. eapply (IH _ c h); [done| |by eapply shape_kids|lia|done| |by eapply Eok_mono].
    { eapply ready_mono; [exact H02|done|]. by eapply ready_kid. }
    intros s3 H3 Hw3. assert (X s s3) as H03 by eauto.
    apply wp_ret. intros s4 H4. apply HQ; [eauto|by eapply XW].
  Qed.

  (** ** Traversal *)
  Definition tpost (D : nat -> kvdata) (K : list (nat * tree) -> Prop) (s : st) (its : list (item * nid)) (b : bool)
      (l : list (nat * tree)) (s' : st) : Prop :=
    tr D K s' (oracle s') (oracle s) its l b.

  Lemma tpost_mono D K s s0 its b l s' : X s s0 -> tpost D K s0 its b l s' -> tpost D K s its b l s'.
  Proof. intros Hx H. eapply tr_l; [by apply Xora|done]. Qed.
  Lemma tpost_step D K s its b l s1 s' : X s1 s' -> tpost D K s its b l s1 -> tpost D K s its b l s'.
  Proof. intros Hx H. eapply tr_r; [by apply Xora|]. by eapply tr_mono. Qed.

  Lemma wp_trav_loop D (K : list (nat * tree) -> Prop) conf u h n (rec : nid -> prog stream_result) (E : stop -> st -> Prop) :
    shape h u -> ksorted D (flat u) -> (forall c, c ∈ tkids u -> K (expected D conf c)) ->
    (forall c cn s (Q : stream_result -> st -> Prop), c ∈ tkids u -> W s -> ready D s c ->
       heap s !! cn = Some (node_of c) ->
       (forall its b s', X s s' -> W s' -> tpost D K s its b (expected D conf c) s' -> Q (its, b) s') ->
       wp (rec cn) Q E s) ->
    forall idxs s (Q : stream_result -> st -> Prop),
    W s -> ready D s u -> heap s !! n = Some (node_of u) ->
    StronglySorted (idx_order conf) idxs -> Forall (idx_valid u) idxs ->
    (forall j x, j ∈ idxs -> Nat.even j = false -> x ∈ segl u j -> near conf (nkey D x) = true) ->
    (forall its b s', X s s' -> W s' -> tpost D K s its b (expect_idxs D conf u idxs) s' -> Q (its, b) s') ->
    wp (trav_loop rec conf n idxs) Q E s.
  Proof.
    intros Hs Hsort HK Hrec. induction idxs as [|i idxs IH]; intros s Q Hw Hr Hn Hso Hv Hnear HQ.
    { cbn [trav_loop]. apply wp_ret. intros s1 H1. apply HQ; [done|by eapply XW|].
      by constructor; apply Xora. }
    apply StronglySorted_cons in Hso as [Hso Hlt]. inversion Hv as [|?? Hvi Hv']; subst.
    assert (forall s' (Q : stream_result -> st -> Prop), X s s' -> W s' ->
      (forall its b s'', X s' s'' -> W s'' -> tpost D K s' its b (expect_idxs D conf u idxs) s'' -> Q (its, b) s'') ->
      wp (trav_loop rec conf n idxs) Q E s') as IH'.
    { intros s' Q' Hx Hw' HQ'. apply IH; [done|by eapply ready_mono|by eapply Xheap|done|done| |done].
      intros j x Hj. apply Hnear. by right. }
    cbn [trav_loop]. unfold expect_idxs in HQ. cbn [map concat] in HQ. fold (expect_idxs D conf u idxs) in HQ.
    unfold expect_at in HQ. unfold idx_valid in Hvi.
    destruct (parity i) as [[j ->]|[j ->]].
    - rewrite even_2, div2_2 in *. destruct Hvi as [c Hc]. rewrite segl_even, Hc in HQ.
      assert (c ∈ tkids u) as Hcin by (by eapply elem_of_list_lookup_2).
      apply rwp_bind; [done|]. apply rwp_catch.
      eapply (wp_get_child_tree D); [done|exact Hn|exact Hc|by eapply ready_kid| |].
      + intros cn s1 H1 Hw1 Hcn _. apply rwp_bind; [done|].
        apply (Hrec c); [done|done| |done|].
        { eapply ready_mono; [exact H1|done|]. by eapply ready_kid. }
        intros its1 b1 s2 H2 Hw2 Hp. assert (X s s2) as H02 by eauto.
        apply (tpost_mono _ _ _ _ _ _ _ _ H1) in Hp.
        destruct b1.
        * apply wp_ret. intros s3 H3. apply HQ; [eauto|by eapply XW|].
          eapply tpost_step; [exact H3|]. by apply tr_more.
        * apply rwp_bind; [done|]. apply IH'; [done|done|].
          intros its2 b2 s3 H3 Hw3 Hp2. apply wp_ret. intros s4 H4.
          apply HQ; [eauto|by eapply XW|].
          eapply tpost_step; [exact H4|].
          eapply tr_app; [|exact Hp2]. by eapply tr_mono.
      + intros e s1 H1 Hw1 Hf. apply rwp_bind; [done|]. apply IH'; [done|done|].
        intros its b s2 H2 Hw2 Hp. apply wp_ret. intros s3 H3. apply HQ; [eauto|by eapply XW|].
        eapply tpost_step; [exact H3|]. eapply tr_child; [exact Hf|by apply HK|exact Hp].
    - rewrite even_2_1, div2_2_1 in *. destruct Hvi as [q Hq]. rewrite segl_odd, Hq in HQ.
      assert (kok D s q) as Hk.
      { destruct (Hr u (subs_self u)) as [_ Hk]. rewrite Forall_forall in Hk. apply Hk.
        by eapply elem_of_list_lookup_2. }
      assert ((q, u) ∈ segl u (2 * j + 1)) as Hin. { rewrite segl_odd, Hq. left. }
      assert (near conf (keyof D q) = true) as Hne.
      { eapply (Hnear _ (q, u)); [left|apply even_2_1|done]. }
      assert (dl conf (List.filter (inr D conf) [(q, u)]) =
              if in_bounds conf (keyof D q) then [(q, u)] else []) as Hdl.
      { rewrite (near_in_bounds _ _ Hne). unfold dl, inr. simpl.
        destruct (rng conf (keyof D q)), (t_rev conf); done. }
      rewrite Hdl in HQ.
      apply rwp_bind; [done|]. apply rwp_catch.
      eapply (wp_get_key_value D); [done|exact Hn|exact Hq|done| |].
      + intros s1 H1 Hw1. change (kv_key (D q)) with (keyof D q).
        destruct (in_bounds conf (keyof D q)) eqn:Eb.
        * apply rwp_bind; [done|]. apply IH'; [done|done|].
          intros its b s2 H2 Hw2 Hp. apply wp_ret. intros s3 H3. apply HQ; [eauto|by eapply XW|].
          eapply tpost_step; [exact H3|]. apply (tpost_mono _ _ _ _ _ _ _ _ H1) in Hp.
          assert (heap s2 !! n = Some (node_of u)) as Hn2. { eapply Xheap; [|exact Hn]. eauto. }
          by constructor.
        * apply wp_ret. intros s2 H2. apply HQ; [eauto|eapply XW; [|exact Hw]; eauto|].
          assert (expect_idxs D conf u idxs = []) as Hnil.
          { unfold expect_idxs. clear IH IH' Hv Hv' HQ Hso.
            assert (forall i', i' ∈ idxs -> expect_at D conf u i' = []) as Hz.
            { intros i' Hi'. specialize (Hlt i' Hi'). unfold expect_at.
              assert (List.filter (inr D conf) (segl u i') = []) as ->; [|unfold dl; by destruct (t_rev conf)].
              assert (forall y, y ∈ segl u i' -> inr D conf y = false) as Hall.
              { intros y Hy. unfold inr. eapply near_further; [exact Hne|exact Eb|].
                unfold further, idx_order in *. destruct (t_rev conf).
                - by apply (segl_order D u h i' (2 * j + 1) y (q, u)).
                - by apply (segl_order D u h (2 * j + 1) i' (q, u) y). }
              clear Hi' Hlt. induction (segl u i') as [|y l IHl]; [done|]. simpl.
              rewrite (Hall y) by left. apply IHl. intros y' Hy'. apply Hall. by right. }
            clear Hlt Hnear. induction idxs as [|i' l IHl]; [done|]. simpl.
            rewrite (Hz i') by left. apply IHl. intros i'' Hi''. apply Hz. by right. }
          rewrite Hnil. constructor. apply Xora. eauto.
      + intros e s1 H1 Hw1 Hf. apply rwp_bind; [done|]. apply IH'; [done|done|].
        intros its b s2 H2 Hw2 Hp. apply wp_ret. intros s3 H3. apply HQ; [eauto|by eapply XW|].
        eapply tpost_step; [exact H3|]. eapply tr_key; [exact Hf| |exact Hp].
        destruct (in_bounds conf (keyof D q)); simpl; lia.
  Qed.

  Lemma wp_trav D (K : list (nat * tree) -> Prop) conf (E : stop -> st -> Prop) fuel : forall u h n s (Q : stream_result -> st -> Prop),
    W s -> ready D s u -> shape h u -> ksorted D (flat u) -> (h < fuel)%nat ->
    heap s !! n = Some (node_of u) ->
    (forall v c, v ∈ subs u -> c ∈ tkids v -> K (expected D conf c)) ->
    (forall its b s', X s s' -> W s' -> tpost D K s its b (expected D conf u) s' -> Q (its, b) s') ->
    wp (trav fuel conf n) Q E s.
  Proof.
    induction fuel as [|fuel IH]; intros u h n s Q Hw Hr Hs Hsort Hf Hn HK HQ; [lia|].
    cbn [trav]. apply rwp_bind; [done|]. eapply wp_num_keys; [exact Hn|]. intros s1 H1.
    apply rwp_bind; [done|]. eapply wp_num_children; [by eapply Xheap|]. intros s2 H2.
    assert (X s s2) as H02 by eauto.
    unfold node_of at 1 2. cbn [n_keys n_children]. rewrite map_length.
    apply rwp_bind; [done|]. apply rwp_catch. unfold make_iter. apply rwp_bind; [done|].
    eapply (wp_get_index_of_key D); [by eapply XW|eapply Xheap; [exact H02|exact Hn]| | | |].
    { eapply koks_mono; [exact H02|]. apply (Hr u (subs_self u)). }
    { eapply ksorted_sublist; [by eapply tkeys_sublist|done]. }
    2:{ intros e s3 H3 Hw3 Hfl. apply wp_ret. intros s4 H4. apply HQ; [eauto|by eapply XW|].
        constructor. eapply hit_l; [by apply Xora|]. eapply hit_r; [by apply Xora|done]. }
    intros m i s3 H3 Hw3 Hidx. unfold node_of in Hidx. cbn [n_keys] in Hidx.
    assert (X s s3) as H03 by eauto.
    apply wp_ret. intros s4 H4. assert (X s s4) as H04 by eauto.
    destruct (iter_spec D conf u h m i Hs Hsort Hidx) as (I1 & I2 & I3 & I4).
    eapply (wp_trav_loop D K conf u h n).
    - done.
    - done.
    - intros c Hc. eapply HK; [apply subs_self|done].
    - intros c cn s5 Q5 Hc Hw5 Hr5 Hn5 HQ5. destruct h as [|h]; [rewrite (shape_leaf _ Hs) in Hc; by apply elem_of_nil in Hc|].
      apply elem_of_list_lookup in Hc as [k Hk]. eapply (IH c h); [done|done| | |lia|done| |done].
      + eapply shape_kids; [exact Hs|]. by eapply elem_of_list_lookup_2.
      + eapply ksorted_sublist; [by eapply kid_sublist|done].
      + intros v c' Hv. apply HK. eapply subs_kid; [by eapply elem_of_list_lookup_2|done].
    - by eapply XW.
    - by eapply ready_mono.
    - by eapply Xheap.
    - exact I1.
    - exact I2.
    - exact I3.
    - intros its b s5 H5 Hw5 Hp. apply HQ; [eauto|done|].
      rewrite (expect_all D conf u h _ Hs I1 I2 I4). by eapply tpost_mono.
  Qed.

  (** ** The read calls of the tree *)

  (** When the version is read, the tree stored at that version is [T]. *)
  Definition root_at (s1 : st) (D : nat -> kvdata) (T : tree) : Prop :=
    tref T = (length (core s1) - 1, 0)%nat /\ ready D s1 T.

  Lemma wp_get_root_from (Q : option nid -> st -> Prop) (E : stop -> st -> Prop) s1 :
    W s1 ->
    (forall s2, X s1 s2 -> W s2 -> (length (core s1) <= 1)%nat -> Q None s2) ->
    ((2 <= length (core s1))%nat -> exists T D, root_at s1 D T /\
       forall n s2, X s1 s2 -> W s2 -> heap s2 !! n = Some (node_of T) -> L s2 (tref T) n -> Q (Some n) s2) ->
    Eok E s1 -> wp (started (length (core s1)) (get_root false)) Q E s1.
  Proof.
    intros Hw1 HQ0 HQ1 HE. unfold get_root, version, core_len. cbn [pbind started].
    destruct (Nat.leb_spec (length (core s1)) 1) as [Hl|Hl].
    - rewrite andb_false_r. intros s2 H2. apply RX in H2. eapply HQ0; [done|by eapply XW|lia].
    - destruct (HQ1 ltac:(lia)) as (T & D & [HT Hr] & HQ). apply rwp_bind; [done|].
      destruct (Hr T (subs_self T)) as [HnT _].
      destruct (hnode_blk s1 _ _ (Wcwf _ Hw1) HnT) as [b Hb]. rewrite HT in Hb. cbn [fst] in Hb.
      eapply (Hget _ b); [done|exact Hb| |done].
      intros e s2 H2 Hw2 _ _ Hnodes. rewrite HT in HnT. destruct (Hnodes 0 _ HnT) as (n & Hn & Hh & HL).
      apply rwp_bind; [done|]. unfold get_tree_node. rewrite Hn. cbn [unwrap]. intros s3 H3. apply RX in H3.
      intros s4 H4. apply RX in H4. assert (X s2 s4) as H24 by eauto.
      apply HQ; [eauto|eauto|by eapply Xheap|]. rewrite HT. by eapply XL.
  Qed.

  Lemma wp_get_root (Q : option nid -> st -> Prop) (E : stop -> st -> Prop) s :
    W s ->
    (forall s1 s2, X s s1 -> X s1 s2 -> W s2 -> (length (core s1) <= 1)%nat -> Q None s2) ->
    (forall s1, X s s1 -> W s1 -> (2 <= length (core s1))%nat -> exists T D, root_at s1 D T /\
       forall n s2, X s1 s2 -> W s2 -> heap s2 !! n = Some (node_of T) -> L s2 (tref T) n -> Q (Some n) s2) ->
    Eok E s -> wp (get_root false) Q E s.
  Proof.
    intros Hw HQ0 HQ1 HE s1 H1. apply RX in H1. assert (W s1) as Hw1 by (by eapply XW).
    apply (wp_get_root_from Q E s1); [done| | |by eapply Eok_mono].
    - intros s2 H2 Hw2 Hl. by eapply HQ0.
    - intros Hl. by apply HQ1.
  Qed.

  Definition found (D : nat -> kvdata) (m : option nat) : option (nat * option bytes) :=
    match m with Some q => Some (kv_seq (D q), kv_value (D q)) | None => None end.

  Lemma wp_tree_get_from fuel key (Q : option (nat * option bytes) -> st -> Prop) (E : stop -> st -> Prop) s1 :
    W s1 ->
    (forall s2, X s1 s2 -> W s2 -> (length (core s1) <= 1)%nat -> Q None s2) ->
    ((2 <= length (core s1))%nat -> exists T D h, root_at s1 D T /\
       shape h T /\ ksorted D (flat T) /\ (h < fuel)%nat /\
       forall m tp s2, X s1 s2 -> W s2 -> desc D (Finite key) T m tp -> Q (found D m) s2) ->
    Eok E s1 -> wp (started (length (core s1)) (tree_get fuel key)) Q E s1.
  Proof.
    intros Hw1 HQ0 HQ1 HE. unfold tree_get. rewrite started_get_root. apply rwp_bind; [done|]. apply wp_get_root_from; [done| | |done].
    { intros s2 H2 Hw2 Hl. apply wp_ret. intros s3 H3. eapply HQ0; [eauto|by eapply XW|done]. }
    intros Hl. destruct (HQ1 Hl) as (T & D & h & [HT Hr] & Hs & Hso & Hf & HQ).
    exists T, D. split; [done|]. intros n s2 H2 Hw2 Hn HL. apply rwp_bind; [done|].
    eapply (wp_nearest_node D); [done|eapply ready_mono; [exact H2|done|done]|exact Hs|done|done|done|done| |].
    2:{ eapply Eok_mono; [|exact HE]. eauto. }
    intros m p tp s3 H3 Hw3 Hd Hp. assert (X s1 s3) as H13 by eauto. destruct m as [q|].
    2:{ apply wp_ret. intros s4 H4. eapply (HQ None tp); [eauto|by eapply XW|done]. }
    assert (exists u i tp', tp = (u, i) :: tp' /\ tkeys u !! i = Some q /\ u ∈ subs T) as (u & i & tp' & -> & Hi & Hu).
    { clear -Hd. remember (Some q) as m eqn:Em. revert Em.
      induction Hd as [t q' i Hi|t i Hi Hl|t i c m p Hi Hc Hd IH]; intros Em.
      - injection Em as ->. exists t, i, []. split_and!; [done|by destruct Hi|apply subs_self].
      - done.
      - destruct (IH Em) as (u & j & tp' & -> & Hj & Hu). exists u, j, (tp' ++ [(t, i)]). split_and!; try done.
        eapply subs_kid; [by eapply elem_of_list_lookup_2|done]. }
    inversion Hp as [|[n' i'] ? p' ? (Hi' & Hn' & _) Hp']; subst. cbn [fst snd] in *. subst i'. cbn [head unwrap pbind].
    apply rwp_bind; [done|]. eapply (wp_get_key_value D); [done|exact Hn'|exact Hi| | |].
    { eapply kok_mono; [exact H13|]. destruct (Hr u Hu) as [_ Hk]. rewrite Forall_forall in Hk. apply Hk.
      by eapply elem_of_list_lookup_2. }
    2:{ eapply Eok_mono; [|exact HE]. eauto. }
    intros s4 H4 Hw4. apply wp_ret. intros s5 H5. eapply (HQ (Some q)); [|by eapply XW|exact Hd]. eauto.
  Qed.

  Lemma wp_tree_get fuel key (Q : option (nat * option bytes) -> st -> Prop) (E : stop -> st -> Prop) s :
    W s ->
    (forall s1 s2, X s s1 -> X s1 s2 -> W s2 -> (length (core s1) <= 1)%nat -> Q None s2) ->
    (forall s1, X s s1 -> W s1 -> (2 <= length (core s1))%nat -> exists T D h, root_at s1 D T /\
       shape h T /\ ksorted D (flat T) /\ (h < fuel)%nat /\
       forall m tp s2, X s1 s2 -> W s2 -> desc D (Finite key) T m tp -> Q (found D m) s2) ->
    Eok E s -> wp (tree_get fuel key) Q E s.
  Proof.
    intros Hw HQ0 HQ1 HE s1 H1. apply RX in H1. assert (W s1) as Hw1 by (by eapply XW).
    apply (wp_tree_get_from fuel key Q E s1); [done| | |by eapply Eok_mono].
    - intros s2 H2 Hw2 Hl. by eapply HQ0.
    - intros Hl. by apply HQ1.
  Qed.

  Lemma wp_tree_traverse_from fuel conf (Q : list item * bool -> st -> Prop) (E : stop -> st -> Prop) s1 :
    W s1 ->
    (forall s2, X s1 s2 -> W s2 -> (length (core s1) <= 1)%nat -> E (SErr ENoRoot) s2) ->
    ((2 <= length (core s1))%nat -> exists T D h, root_at s1 D T /\
       shape h T /\ ksorted D (flat T) /\ (h < fuel)%nat /\
       forall its b s2, X s1 s2 -> W s2 -> tr D (kids_of D conf T) s2 (oracle s2) (oracle s1) its (expected D conf T) b -> Q (map fst its, b) s2) ->
    Eok E s1 -> wp (started (length (core s1)) (tree_traverse fuel conf)) Q E s1.
  Proof.
    intros Hw1 HQ0 HQ1 HE. unfold tree_traverse. rewrite started_get_root. apply rwp_bind; [done|]. apply wp_get_root_from; [done| | |done].
    { intros s2 H2 Hw2 Hl. intros s3 H3. apply RX in H3. eapply HQ0; [eauto|by eapply XW|done]. }
    intros Hl. destruct (HQ1 Hl) as (T & D & h & [HT Hr] & Hs & Hso & Hf & HQ).
    exists T, D. split; [done|]. intros n s2 H2 Hw2 Hn HL. apply rwp_bind; [done|].
    eapply (wp_trav D (kids_of D conf T)); [done|eapply ready_mono; [exact H2|done|done]|exact Hs|done|done|done| |].
    { intros v c Hv Hc. by exists v, c. }
    intros its b s3 H3 Hw3 Hp. apply wp_ret. intros s4 H4. apply HQ; [eauto|by eapply XW|].
    eapply tpost_step; [exact H4|]. by eapply tpost_mono.
  Qed.

  Lemma wp_tree_traverse fuel conf (Q : list item * bool -> st -> Prop) (E : stop -> st -> Prop) s :
    W s ->
    (forall s1 s2, X s s1 -> X s1 s2 -> W s2 -> (length (core s1) <= 1)%nat -> E (SErr ENoRoot) s2) ->
    (forall s1, X s s1 -> W s1 -> (2 <= length (core s1))%nat -> exists T D h, root_at s1 D T /\
       shape h T /\ ksorted D (flat T) /\ (h < fuel)%nat /\
       forall its b s2, X s1 s2 -> W s2 -> tr D (kids_of D conf T) s2 (oracle s2) (oracle s) its (expected D conf T) b -> Q (map fst its, b) s2) ->
    Eok E s -> wp (tree_traverse fuel conf) Q E s.
  Proof.
    intros Hw HQ0 HQ1 HE s1 H1. apply RX in H1. assert (W s1) as Hw1 by (by eapply XW).
    apply (wp_tree_traverse_from fuel conf Q E s1); [done| | |by eapply Eok_mono].
    - intros s2 H2 Hw2 Hl. by eapply HQ0.
    - intros Hl. destruct (HQ1 s1 H1 Hw1 Hl) as (T & D & h & Hr & Hs & Hso & Hf & HQ).
      exists T, D, h. split_and!; try done. intros its b s2 H2 Hw2 Hb. apply HQ; [done|done|].
      by eapply tpost_mono.
  Qed.

  Lemma wp_tree_height fuel (Q : nat -> st -> Prop) (E : stop -> st -> Prop) s :
    W s ->
    (forall s1 s2, X s s1 -> X s1 s2 -> W s2 -> (length (core s1) <= 1)%nat -> Q 0 s2) ->
    (forall s1, X s s1 -> W s1 -> (2 <= length (core s1))%nat -> exists T D h, root_at s1 D T /\
       shape h T /\ (h < fuel)%nat /\ forall s2, X s1 s2 -> W s2 -> Q (S h) s2) ->
    Eok E s -> wp (tree_height fuel) Q E s.
  Proof.
    intros Hw HQ0 HQ1 HE. unfold tree_height. apply rwp_bind; [done|]. apply wp_get_root; [done| | |done].
    { intros s1 s2 H1 H2 Hw2 Hl. apply wp_ret. intros s3 H3. eapply HQ0; [exact H1|eauto|by eapply XW|done]. }
    intros s1 H1 Hw1 Hl. destruct (HQ1 s1 H1 Hw1 Hl) as (T & D & h & [HT Hr] & Hs & Hf & HQ).
    exists T, D. split; [done|]. intros n s2 H2 Hw2 Hn HL.
    eapply (wp_node_height D); [done|eapply ready_mono; [exact H2|done|done]|exact Hs|done|done| |].
    - intros s3 H3 Hw3. apply HQ; [eauto|done].
    - eapply Eok_mono; [|exact HE]. eauto.
  Qed.
End read.
