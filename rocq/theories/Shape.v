(** The tree in the core, in the terms of [Spec]. *)
From Coq.Strings Require Import Byte.
From Coq Require Import Lia Sorting.Sorted.
From stdpp Require Import prelude gmap.
From Verif Require Import Bytes Codec Model CodecProofs Order Wp Store Tree Iter Read Zip Pure Seq Mut MutDel MutTop Commit Spec OrderProofs Client Abs Api Call Det Hist Main.

Lemma block_at_blk C q : block_at C q = blk C q.
Proof. unfold block_at, blk. by destruct (C !! q). Qed.

(** The tree with keys in place of sequence numbers. *)
Fixpoint erase (C : list bytes) (T : tree) : stree :=
  match T with Nd _ ks cs => SNode (map (keyof (kd C)) ks) (map (erase C) cs) end.

Lemma mapM_map {A B} (f : A -> option B) (g : A -> B) l : (forall x, x ∈ l -> f x = Some (g x)) -> mapM f l = Some (map g l).
Proof.
  induction l as [|x l IH]; intros H; [done|]. cbn. rewrite (H x) by (by left). cbn. rewrite IH; [done|]. intros y Hy. apply H. by right.
Qed.

Lemma read_erase C n : forall h T, shape h T -> (h < n)%nat ->
  (forall u, u ∈ subs T -> cnode C (tref u) = Some (node_of u)) ->
  (forall k, k ∈ flat T -> is_Some (blk C k)) ->
  read_tree n C (tref T) = Some (erase C T).
Proof.
  induction n as [|n IH]; intros h T Hs Hn Hc Hk; [lia|]. cbn [read_tree].
  pose proof (Hc T (subs_self T)) as HT. unfold cnode in HT. rewrite block_at_blk.
  destruct (blk C (fst (tref T))) as [b|]; [|done]. cbn. rewrite HT. cbn. destruct T as [r ks cs]. cbn [node_of n_keys n_children tkeys tkids].
  rewrite (mapM_map _ (keyof (kd C))); cbn.
  2:{ intros q Hq. rewrite block_at_blk. destruct (Hk q) as [b' Hb']; [by eapply elem_of_flat_keys|]. rewrite Hb'. cbn.
      unfold keyof. by rewrite (kd_key _ _ _ Hb'). }
  assert (mapM (read_tree n C) (map tref cs) = Some (map (erase C) cs)) as ->; [|done].
  assert (forall c, c ∈ cs -> read_tree n C (tref c) = Some (erase C c)) as Hcs.
  { intros c Hin. destruct h as [|h]; [destruct Hs as [-> _]; by apply elem_of_nil in Hin|].
    destruct (shape_kids _ _ c Hs Hin) as [_ Hsc]. apply (IH h c Hsc); [lia| |].
    - intros u Hu. apply Hc. by eapply (subs_kid (Nd r ks cs)).
    - intros k Hk'. apply Hk. apply (elem_of_flat_sub _ _ _ Hs). apply (elem_of_flat_sub _ _ _ Hsc) in Hk' as (u & Hu & Hku).
      exists u. split; [by eapply (subs_kid (Nd r ks cs))|done]. }
  clear -Hcs. induction cs as [|c cs IHc]; [done|]. cbn. rewrite Hcs by (by left). cbn. rewrite IHc; [done|]. intros. apply Hcs. by right.
Qed.

Lemma interleave_inter {A} (cs : list (list A)) ks : interleave cs ks = inter cs ks.
Proof. revert ks. induction cs as [|c cs IH]; intros [|k ks]; cbn; [done|done|done|by rewrite IH]. Qed.

Lemma inorder_erase C T : inorder (erase C T) = map (keyof (kd C)) (flat T).
Proof.
  induction T as [r ks cs IH] using tree_ind'. cbn. rewrite interleave_inter, inter_map, !map_map. f_equal.
  induction IH as [|c cs Hc _ IHc]; [done|]. cbn. by rewrite Hc, IHc.
Qed.

Lemma balanced_erase C root h : forall T, shape h T -> (h = 0 \/ tkeys T <> []) -> (root = false -> (4 <= length (tkeys T))%nat) ->
  balanced root h (erase C T).
Proof.
  revert root. induction h as [|h IH]; intros root [r ks cs] Hs Hr H4; cbn in *; rewrite !map_length.
  - destruct Hs as [-> H8]. done.
  - destruct Hs as (H1 & H8 & Hcs). split_and!; [done|done| |by rewrite H1|].
    { destruct Hr as [?|Hr]; [done|]. destruct ks; [done|]. cbn. lia. }
    apply Forall_fmap. eapply Forall_impl; [exact Hcs|]. intros c [Hc4 Hsc]. apply IH; [done| |done]. right. intros E. rewrite E in Hc4. cbn in Hc4. lia.
Qed.

(** *** C09, C10 *)
Lemma version_tree C v h T : wft C v h T -> read_tree (S h) C (v, 0) = Some (erase C T) /\ balanced true h (erase C T) /\
  StronglySorted key_lt (inorder (erase C T)) /\ (h = 0 \/ 2 * 5 ^ h <= length (inorder (erase C T)) + 1)%nat.
Proof.
  intros HW. pose proof (wf_shape _ _ _ _ HW) as [Hs Hr]. split_and!.
  - rewrite <-(wf_tref _ _ _ _ HW). eapply read_erase; [done|lia|apply HW|]. intros k Hk. by apply HW.
  - by apply balanced_erase.
  - rewrite inorder_erase. pose proof (wf_sort _ _ _ _ HW) as H. unfold ksorted in H.
    induction H as [|x l _ IH Hx]; constructor; [done|]. eapply Forall_impl; [exact Hx|]. intros y. apply key_lt_blt.
  - rewrite inorder_erase, map_length. destruct (rshape_size h T (conj Hs Hr)); [by left|right; lia].
Qed.

Lemma btree_shape fuel l v : history fuel 0 l -> (1 <= v < length (w_core (world_after fuel l)))%nat ->
  exists h T, read_tree (S h) (w_core (world_after fuel l)) (v, 0) = Some T /\ balanced true h T /\
    StronglySorted key_lt (inorder T) /\ (h = 0 \/ 2 * 5 ^ h <= length (inorder T) + 1)%nat.
Proof.
  intros H Hv. reach H. destruct (proj2 (wi_own _ _ _ _ HI) v Hv) as (h & T & _ & _ & _ & HW & _).
  exists h, (erase (w_core (world_after fuel l)) T). by apply version_tree.
Qed.

(** The last version holds the map. *)
Lemma stored_keys good w m T h fuel i k : WInv good w m (Some T) -> good i -> fits w 1 fuel -> wft (w_core w) (length (w_core w) - 1) h T ->
  k ∈ inorder (erase (w_core w) T) <-> exists x, fst (do_call fuel i (CGet k) [] w) = inl (RGet (Some x)).
Proof.
  intros HI Hi Hfit HW. destruct (wi_rep _ _ _ _ HI) as (_ & h' & HW' & Em).
  destruct (call_clean _ _ _ _ _ _ i (CGet k) HI Hi Hfit I) as (w1 & D1 & _ & _). rewrite D1. cbn [fst spec_call s_entries].
  rewrite inorder_erase. pose proof (rep_sorted _ _ _ (wi_rep _ _ _ _ HI)) as Hs. split.
  - intros (q & -> & Hq)%elem_of_list_fmap. assert (kd (w_core w) q ∈ m) as Hm by (rewrite Em; by apply elem_of_list_fmap_1).
    apply (sorted_lookup _ _ Hs) in Hm. unfold keyof. rewrite Hm. by eexists.
  - intros [x Hx]. destruct (lookup_key k m) as [e|] eqn:Ek; [|done]. apply lookup_key_spec in Ek as [Ek <-].
    rewrite Em in Ek. apply elem_of_list_fmap in Ek as (q & -> & Hq). apply elem_of_list_fmap. by exists q.
Qed.

Lemma current_tree fuel l i : history fuel 1 l -> usable l i -> (2 <= length (w_core (world_after fuel l)))%nat ->
  let C := w_core (world_after fuel l) in
  exists h T, read_tree (S h) C (length C - 1, 0) = Some T /\
    forall k, k ∈ inorder T <-> exists x, fst (do_call fuel i (CGet k) [] (world_after fuel l)) = inl (RGet (Some x)).
Proof.
  intros H Hi H2. reach H. cbn zeta. destruct t as [T|]; [|destruct (wi_rep _ _ _ _ HI); lia].
  destruct (wi_rep _ _ _ _ HI) as (_ & h & HW & Em). destruct (version_tree _ _ _ _ HW) as (HT & _).
  exists h, (erase (w_core (world_after fuel l)) T). split; [done|]. intros k. by eapply stored_keys.
Qed.

(** *** C30 *)
Lemma below_erase C T v c : v ∈ subs T -> c ∈ tkids v -> below (erase C c) (erase C T).
Proof.
  induction T as [r ks cs IH] using tree_ind'. rewrite Forall_forall in IH. intros Hv Hc. cbn [erase].
  cbn [subs] in Hv. apply elem_of_cons in Hv as [->|Hv]; [constructor; by apply elem_of_list_fmap_1|].
  apply elem_of_list_In, in_concat in Hv as (l & Hl & Hv). apply elem_of_list_In in Hv. apply elem_of_list_In in Hl.
  apply elem_of_list_fmap in Hl as (u & -> & Hu). eapply below_down; [by eapply (IH u)|]. by apply elem_of_list_fmap_1.
Qed.

Lemma filter_map_key conf (D : nat -> kvdata) l :
  map kv_key (List.filter (within conf) (map D l)) = List.filter (fun k => above_min conf k && below_max conf k) (map (keyof D) l).
Proof.
  induction l as [|q l IH]; [done|]. cbn [map List.filter]. unfold within at 1, keyof at 1.
  destruct (_ && _); cbn [map]; by rewrite IH.
Qed.

Lemma parts_child C T conf seg : bounds_ok conf -> parts C (Some T) conf seg -> child_part (erase C T) conf seg.
Proof.
  intros Hb (T' & l & [= <-] & (v & c & Hv & Hc & ->) & ->). exists (erase C c). split; [by eapply below_erase|].
  rewrite expected_gen by (intros; by apply bounds_ok_rng). rewrite inorder_erase. unfold range, in_order.
  destruct (t_rev conf); [rewrite map_rev|unfold id]; by rewrite filter_map_key.
Qed.

Lemma torn_traversal fuel l i conf o : history fuel 3 l -> usable l i -> bounds_ok conf ->
  (2 <= length (w_core (world_after fuel l)))%nat ->
  let w := world_after fuel l in
  exists h T es, read_tree (S h) (w_core w) (length (w_core w) - 1, 0) = Some T /\
    fst (do_call fuel i (CTraverse conf) [] w) = inl (RItems (map IOk es) false) /\
    ((exists e, fst (do_call fuel i (CTraverse conf) o w) = inl (RErr e) /\ Exists (reports e) o) \/
     exists its b, fst (do_call fuel i (CTraverse conf) o w) = inl (RItems its b) /\ gappy (child_part T conf) o its es b).
Proof.
  intros H Hi Hc H2. reach H. cbn zeta. set (w := world_after fuel l) in *.
  destruct t as [T|]; [|destruct (wi_rep _ _ _ _ HI); lia].
  destruct (wi_rep _ _ _ _ HI) as (_ & h & HW & Em). destruct (version_tree _ _ _ _ HW) as (HT & _).
  destruct (call_clean _ _ _ _ _ _ i (CTraverse conf) HI Hi Hfit Hc) as (w0 & D0 & _). rewrite D0.
  pose proof Hfit as [Hf1 Hf2].
  destruct (do_call_spec _ _ _ _ fuel i (CTraverse conf) o HI Hi) as (r & w1 & D1 & Hout);
    [unfold chain_small; unfold with_header in *; lia|unfold with_header in *; lia|done|]. rewrite D1. cbn [fst].
  assert (forall n, (2 <= n)%nat -> fst (spec_call (CTraverse conf) (Store n m)) = RItems (map IOk (range conf m)) false) as Es.
  { intros n Hn. cbn [spec_call s_blocks]. destruct (Nat.leb_spec n 1); [lia|done]. }
  rewrite Es in * by done.
  exists h, (erase (w_core w) T), (range conf m). split_and!; [done|done|].
  destruct Hout as [[-> _]|(_ & [He|(conf' & its & b & [= <-] & -> & Hg)] & _)].
  - right. eexists _, _. split; [done|]. clear. induction (range conf m); cbn [map]; by constructor.
  - left. destruct He as (e & -> & He). by exists e.
  - right. eexists _, _. split; [done|]. eapply gappy_K; [|exact Hg]. intros seg. by apply parts_child.
Qed.

(** *** C32 *)
Lemma preorder_newsubs nds v n : forall h T, shape h T -> (h < n)%nat -> fst (tref T) = v ->
  (forall u, u ∈ newsubs v T -> nds !! snd (tref u) = Some (node_of u)) ->
  preorder n nds v (snd (tref T)) = Some (map (fun u => snd (tref u)) (newsubs v T)).
Proof.
  induction n as [|n IH]; intros h T Hs Hn Hv Hu; [lia|]. cbn [preorder].
  destruct T as [r ks cs]. cbn [tref] in *. rewrite (newsubs_new v r ks cs Hv) in *.
  pose proof (Hu (Nd r ks cs) ltac:(by left)) as Hr. cbn [tref] in Hr. rewrite Hr. cbn [mbind option_bind node_of n_children tkids].
  assert (forall c, c ∈ cs -> (if (fst (tref c) =? v)%nat then preorder n nds v (snd (tref c)) else Some []) = Some (map (fun u => snd (tref u)) (newsubs v c))) as Hcs.
  { intros c Hin. destruct (Nat.eqb_spec (fst (tref c)) v) as [E|E]; [|by rewrite newsubs_old].
    destruct h as [|h]; [destruct Hs as [-> _]; by apply elem_of_nil in Hin|]. destruct (shape_kids _ _ c Hs Hin) as [_ Hsc].
    apply (IH h c Hsc); [lia|done|]. intros u Hu'. apply Hu. right. apply elem_of_list_In, in_concat. exists (newsubs v c).
    split; [apply in_map; by apply elem_of_list_In|by apply elem_of_list_In]. }
  assert (mapM (fun r : ref => if (fst r =? v)%nat then preorder n nds v (snd r) else Some []) (map tref cs) =
    Some (map (fun c => map (fun u => snd (tref u)) (newsubs v c)) cs)) as ->.
  { clear -Hcs. induction cs as [|c cs IHc]; [done|]. cbn. rewrite Hcs by (by left). cbn. rewrite IHc; [done|]. intros. apply Hcs. by right. }
  cbn. by rewrite concat_map, map_map.
Qed.

Lemma newsubs_segment v T : forall i u, newsubs v T !! i = Some u -> exists pre post, newsubs v T = pre ++ newsubs v u ++ post /\ length pre = i.
Proof.
  induction T as [r ks cs IH] using tree_ind'. intros i u. destruct (Nat.eq_dec (fst r) v) as [E|E]; [|by rewrite (newsubs_old v (Nd r ks cs))].
  destruct i as [|i].
  { rewrite (newsubs_new v r ks cs E) at 1. intros [= <-]. exists [], []. by rewrite app_nil_r. }
  rewrite (newsubs_new v r ks cs E). cbn [lookup list_lookup]. intros Hi.
  assert (exists pre post, concat (map (newsubs v) cs) = pre ++ newsubs v u ++ post /\ length pre = i) as (pre & post & -> & <-).
  2:{ by exists (Nd r ks cs :: pre), post. }
  revert i Hi. induction IH as [|c cs Hc _ IHc]; intros i Hi; [done|]. cbn [map concat] in *.
  apply lookup_app_Some in Hi as [Hi|[Hl Hi]].
  - destruct (Hc _ _ Hi) as (pre & post & -> & <-). exists pre, (post ++ concat (map (newsubs v) cs)). by rewrite <-!app_assoc.
  - destruct (IHc _ Hi) as (pre & post & -> & E2). exists (newsubs v c ++ pre), post. rewrite app_assoc, app_length. split; [done|]. lia.
Qed.

Lemma block_layout fuel l v : history fuel 0 l -> (1 <= v < length (w_core (world_after fuel l)))%nat ->
  let C := w_core (world_after fuel l) in
  exists nds key value h T, block_at C v = Some (Block nds key value) /\
    read_tree (S h) C (v, 0) = Some T /\ balanced true h T /\ (length nds <= 2 * h + 3)%nat /\
    preorder (S h) nds v 0 = Some (seq 0 (length nds)) /\
    forall i nd q j, nds !! i = Some nd -> (q, j) ∈ n_children nd ->
      (q = v /\ (i < j < length nds)%nat) \/ ((1 <= q < v)%nat /\ exists b, block_at C q = Some b /\ (j < length (b_nodes b))%nat).
Proof.
  intros H Hv. reach H. cbn zeta. destruct (proj2 (wi_own _ _ _ _ HI) v Hv) as (h & T & key & value & len & HW & Hb & Hn & Hl & _).
  set (C := w_core (world_after fuel l)) in *.
  assert (length (newsubs v T) = len) as Elen.
  { apply (f_equal length) in Hn. unfold news in Hn. rewrite !map_length, seq_length in Hn. lia. }
  destruct (version_tree _ _ _ _ HW) as (HT & HB & _).
  assert (map (fun u => snd (tref u)) (newsubs v T) = seq 0 len) as Hsnd.
  { apply (f_equal (map snd)) in Hn. unfold news in Hn. rewrite !map_map in Hn. cbn in Hn. rewrite map_id, Nat.sub_0_r in Hn. done. }
  assert (forall i u, newsubs v T !! i = Some u -> tref u = (v, i)) as Hidx.
  { intros i u Hu. assert (map tref (newsubs v T) !! i = Some (tref u)) as G by (change (map tref (newsubs v T)) with (tref <$> newsubs v T); by rewrite list_lookup_fmap, Hu).
    rewrite Hn in G. unfold news in G. change (map (pair v) ?l) with (pair v <$> l) in G. rewrite list_lookup_fmap in G.
    destruct (seq 0 (len - 0) !! i) as [x|] eqn:Ex; [|done]. apply lookup_seq in Ex as [-> _]. cbn in G. by injection G as <-. }
  exists (map node_of (newsubs v T)), key, value, h, (erase C T). rewrite block_at_blk, map_length, Elen. split_and!; [done|done|done|lia| |].
  - pose proof (wf_tref _ _ _ _ HW) as Et. replace 0 with (snd (tref T)) at 1 by (by rewrite Et).
    rewrite (preorder_newsubs _ v (S h) h T); [by rewrite Hsnd|apply HW|lia|by rewrite Et|].
    intros u Hu. apply elem_of_list_lookup in Hu as (i & Hi). rewrite (Hidx _ _ Hi). cbn [snd].
    change (map node_of ?l) with (node_of <$> l). by rewrite list_lookup_fmap, Hi.
  - intros i nd q j Hi Hq. change (map node_of ?l) with (node_of <$> l) in Hi. rewrite list_lookup_fmap in Hi.
    destruct (newsubs v T !! i) as [u|] eqn:Eu; [|done]. injection Hi as <-. cbn in Hq.
    apply elem_of_list_fmap in Hq as (c & Hc & Hin).
    pose proof (elem_of_list_lookup_2 _ _ _ Eu) as HuT. destruct (newsubs_subs _ _ _ HuT) as [HuS HuV].
    assert (c ∈ subs T) as HcT by (eapply subs_trans; [exact HuS|]; eapply subs_kid; [exact Hin|apply subs_self]).
    assert (tref c ∈ refs T) as Hcr by (apply elem_of_refs; by exists c).
    pose proof (wf_seq _ _ _ _ HW _ Hcr) as Hseq. rewrite <-Hc in Hseq. cbn in Hseq.
    destruct (decide (q = v)) as [->|Hne].
    + left. split; [done|]. destruct (newsubs_segment _ _ _ _ Eu) as (pre & post & Es & Epre).
      assert (exists i', newsubs v u !! S i' = Some c) as [i' Hi'].
      { destruct u as [r ks cs]. cbn [tkids tref] in *. rewrite (newsubs_new v r ks cs HuV). cbn [lookup list_lookup].
        apply elem_of_list_lookup. apply elem_of_list_In, in_concat. exists (newsubs v c). split; [apply in_map; by apply elem_of_list_In|].
        apply elem_of_list_In. destruct c as [rc kc cc]. rewrite newsubs_new; [by left|]. cbn in Hc. by rewrite <-Hc. }
      assert (newsubs v T !! (i + S i') = Some c) as Hic.
      { rewrite Es, lookup_app_r by lia. rewrite Epre. replace (i + S i' - i) with (S i') by lia. by apply lookup_app_l_Some. }
      pose proof (Hidx _ _ Hic) as Hr. rewrite <-Hc in Hr. injection Hr as ->. apply lookup_lt_Some in Hic. lia.
    + right. split; [lia|]. pose proof (wf_node _ _ _ _ HW c HcT) as Hcn. unfold cnode in Hcn. rewrite <-Hc in Hcn. cbn [fst snd] in Hcn.
      rewrite block_at_blk. destruct (blk C q) as [b|]; [|done]. exists b. split; [done|]. by eapply lookup_lt_Some.
Qed.
